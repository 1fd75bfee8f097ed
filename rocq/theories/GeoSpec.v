(** Plane geometry vocabulary of the theorem statements, over the reals and independent of the
    model's loops. *)
From Coq Require Import List Arith Reals.
From Verif Require Import Num Tensor Utils.
Import ListNotations.
Open Scope R_scope.

Notation pt := (v2 R).

(** the directed edges (a, b) of a closed polygon, in order *)
Definition edges {A} (vs : list A) : list (A * A) :=
  match vs with
  | [] => []
  | a :: rest => combine vs (rest ++ [a])
  end.

Definition Rsum (l : list R) : R := fold_right Rplus 0 l.
(** sum of [f a b] over the directed edges *)
Definition esum (f : pt -> pt -> R) (vs : list pt) : R := Rsum (map (fun e => f (fst e) (snd e)) (edges vs)).

Definition det2 (a b : pt) : R := fst a * snd b - snd a * fst b.
(** twice the signed area of the triangle o, a, b; positive if o, a, b turn from the x axis
    towards the y axis *)
Definition tri2 (o a b : pt) : R := det2 (fst a - fst o, snd a - snd o) (fst b - fst o, snd b - snd o).
(** signed area of a polygon: the shoelace formula *)
Definition area (vs : list pt) : R := esum det2 vs / 2.
(** [c] is the area centroid: the area-weighted mean of the centroids of the triangles of a fan,
    from whatever apex [o] the polygon is triangulated (signed triangles) *)
Definition is_centroid (vs : list pt) (c : pt) : Prop :=
  forall o : pt,
    area vs * fst c = esum (fun a b => tri2 o a b / 2 * ((fst o + fst a + fst b) / 3)) vs /\
    area vs * snd c = esum (fun a b => tri2 o a b / 2 * ((snd o + snd a + snd b) / 3)) vs.
(** second moment (integral of x^2+y^2) of a signed triangle *)
Definition tri_moment (o a b : pt) : R :=
  tri2 o a b / 2 / 6 * (v2dot o o + v2dot a a + v2dot b b + v2dot o a + v2dot a b + v2dot b o).
(** [J] is the second moment of the polygon about the origin, from whatever apex it is
    triangulated *)
Definition is_moment (vs : list pt) (J : R) : Prop := forall o : pt, J = esum (tri_moment o) vs.

(** a convex polygon, listed in the direction of positive area: every vertex lies on the left of
    (or on) every edge *)
Definition convex (vs : list pt) : Prop :=
  forall p q, In (p, q) (edges vs) -> forall v, In v vs -> 0 <= tri2 p q v.

(** rotation by the angle [th], counterclockwise in the (x, y) axes *)
Definition rotate (th : R) (a : pt) : pt :=
  (cos th * fst a - sin th * snd a, sin th * fst a + cos th * snd a).
Definition dist (a b : pt) : R := sqrt ((fst a - fst b) * (fst a - fst b) + (snd a - snd b) * (snd a - snd b)).

(** *** point sets and ODE's broad-phase boxes *)
From Verif Require Import Bodies.

(** convex combinations of a list of points *)
Definition wsum (ws : list R) (f : pt -> R) (vs : list pt) : R :=
  Rsum (map (fun wv => fst wv * f (snd wv)) (combine ws vs)).
Definition in_hull (vs : list pt) (q : pt) : Prop :=
  exists ws, length ws = length vs /\ Forall (fun x => 0 <= x) ws /\ Rsum ws = 1 /\
             fst q = wsum ws fst vs /\ snd q = wsum ws snd vs.
(** the points of the plane covered by a body *)
Definition body_points (b : body R) (q : pt) : Prop :=
  match b_kind b with
  | KCircle r => dist q (b_pos b) <= r
  | _ => in_hull (b_verts b) (v2sub q (b_pos b))
  end.

(** upper left 2x2 block of the rotation matrix ODE computes from a quaternion (w, 0, 0, z)
    (dRfromQ); a geom whose quaternion was never set has the identity (1, 0, 0, 0) *)
Definition quat_mat (q : option (R * R)) : pt * pt :=
  let '(w, z) := match q with Some p => p | None => (1, 0) end in
  ((1 - 2 * (z * z), - (2 * (w * z))), (2 * (w * z), 1 - 2 * (z * z))).
(** the points of the plane covered by a geom *)
Definition geom_points (g : geom R) (q : pt) : Prop :=
  match g_shape g with
  | GSphere r => dist q (g_pos g) <= r
  | GBox lx ly =>
      exists x y, Rabs x <= lx / 2 /\ Rabs y <= ly / 2 /\
        q = v2add (g_pos g) (v2dot (fst (quat_mat (g_quat g))) (x, y), v2dot (snd (quat_mat (g_quat g))) (x, y))
  end.
(** half extents of the axis aligned bounding box ODE computes for a geom (dxSphere::computeAABB,
    dxBox::computeAABB, first two axes) *)
Definition aabb_half (g : geom R) : pt :=
  match g_shape g with
  | GSphere r => (r, r)
  | GBox lx ly =>
      let m := quat_mat (g_quat g) in
      ((Rabs (fst (fst m) * lx) + Rabs (snd (fst m) * ly)) / 2,
       (Rabs (fst (snd m) * lx) + Rabs (snd (snd m) * ly)) / 2)
  end.
Definition aabb_overlap (g1 g2 : geom R) : Prop :=
  Rabs (fst (g_pos g1) - fst (g_pos g2)) <= fst (aabb_half g1) + fst (aabb_half g2) /\
  Rabs (snd (g_pos g1) - snd (g_pos g2)) <= snd (aabb_half g1) + snd (aabb_half g2).

(** *** bodies a user can get hold of *)
(** returned by one of the three constructors *)
Definition constructed (b : body R) : Prop :=
  (exists id pos rad vel m rest fric eps, circle_init id pos rad vel m rest fric eps = Ok b) \/
  (exists id ref vs vel m rest fric eps, hull_init id ref vs vel m rest fric eps = Ok b) \/
  (exists id pos dims vel m rest fric eps, rect_init id pos dims vel m rest fric eps = Ok b).
(** the shape has positive size: a positive radius, or positive side lengths (a hull's area is
    positive by construction) *)
Definition solid (b : body R) : Prop :=
  match b_kind b with
  | KCircle r => 0 < r
  | KHull _ _ => True
  | KRect d _ _ => 0 < fst d /\ 0 < snd d
  end.
(** calls on one body; the last two stand for what add_force and add_no_contact do to it *)
Inductive bop := BSetP (p : v3 R) | BMove (dt : R) | BSetV (v : v3 R)
               | BForces (fs : list nat) | BNoContact (nc : list nat).
Definition brun (b : body R) (x : bop) : body R :=
  match x with
  | BSetP p => set_p b p | BMove dt => move b dt | BSetV v => with_v b v
  | BForces fs => with_forces b fs | BNoContact nc => with_no_contact b nc
  end.
Definition bexec (ops : list bop) (b : body R) : body R := fold_left brun ops b.
(** constructed and then used in any way before being given to a world *)
Definition available (b : body R) : Prop := exists b0 ops, constructed b0 /\ b = bexec ops b0.
