(** Vocabulary for statements about contacts *)
From Coq Require Import List Arith ZArith Bool Reals.
From Verif Require Import Num Tensor Utils Bodies Forces Constraints Contacts World Spec GeoSpec BodySpec.
Import ListNotations.
Open Scope R_scope.

Definition unit_vec (n : pt) : Prop := fst n * fst n + snd n * snd n = 1.
(** the point at parameter [t] of the segment from [a] to [b] *)
Definition along (a b : pt) (t : R) : pt := (fst a + t * (fst b - fst a), snd a + t * (snd b - snd a)).
Definition on_segment (a b q : pt) : Prop := exists t, 0 <= t <= 1 /\ q = along a b t.
Definition midpoint (a b : pt) : pt := ((fst a + fst b) / 2, (snd a + snd b) / 2).
(** the point of the plane a contact offset denotes *)
Definition at_body (b : body R) (p : pt) : pt := (fst (b_pos b) + fst p, snd (b_pos b) + snd p).

(** [q] is the point of the convex hull of [vs] nearest to [p] *)
Definition nearest (vs : list pt) (p q : pt) : Prop :=
  in_hull vs q /\ forall x, in_hull vs x -> x = q \/ dist p q < dist p x.

(** convex, no repeated vertex and no three vertices on a line *)
Definition strictly_convex (vs : list pt) : Prop :=
  NoDup vs /\ (3 <= length vs)%nat /\
  forall p q, In (p, q) (edges vs) -> forall v, In v vs -> v <> p -> v <> q -> 0 < tri2 p q v.

(** consecutive vertices differ *)
Definition proper_edges (vs : list pt) : Prop := forall p q, In (p, q) (edges vs) -> p <> q.

(** [m] is the largest value of [f] on the list *)
Definition is_max {A} (f : A -> R) (l : list A) (m : R) : Prop :=
  (exists a, In a l /\ f a = m) /\ forall a, In a l -> f a <= m.
Definition is_min {A} (f : A -> R) (l : list A) (m : R) : Prop :=
  (exists a, In a l /\ f a = m) /\ forall a, In a l -> m <= f a.

(** signed distance of [v] from the line through the edge p q, positive on the right (outside) *)
Definition edge_dist (e : pt * pt) (v : pt) : R := - tri2 (fst e) (snd e) v / dist (fst e) (snd e).
(** [m] is how far the polygon [vs2], moved by [d], lies outside the edge [e]: the least signed
    distance of its vertices *)
Definition separation (vs2 : list pt) (d : pt) (e : pt * pt) (m : R) : Prop :=
  is_min (fun v => edge_dist e (v2add v d)) vs2 m.

(** mirror image of a contact, seen from the other body *)
Definition mirror (c : contact R) : contact R :=
  mkContact (v2opp (c_normal c)) (c_p2 c) (c_p1 c) (c_pen c) (c_i2 c) (c_i1 c).

(** [d] is the signed distance of x from the line {x | n . x + off = 0} *)
Definition half_plane (n : pt) (off : R) (x : pt) : Prop := 0 <= fst n * fst x + snd n * snd x + off.

Definition on_line (a b q : pt) : Prop := exists t, q = along a b t.
(** outward unit normal of the edge a b of a polygon listed in positive direction *)
Definition outward (a b : pt) : pt := ((snd b - snd a) / dist a b, - (fst b - fst a) / dist a b).
(** both ends of every edge are equally far from the body's centre: rectangles, regular polygons,
    and every polygon inscribed in a circle around the centre *)
Definition inscribed (vs : list pt) : Prop :=
  forall p q, In (p, q) (edges vs) -> fst p * fst p + snd p * snd p = fst q * fst q + snd q * snd q.

(** [q] is a mean of the points with every weight positive *)
Definition inner_mean (vs : list pt) (q : pt) : Prop :=
  exists ws, length ws = length vs /\ Forall (fun x => 0 < x) ws /\ Rsum ws = 1 /\
             fst q = wsum ws fst vs /\ snd q = wsum ws snd vs.
(** affinely independent points: one, two different ones, or three not on a line *)
Definition independent (vs : list pt) : Prop :=
  match vs with
  | [_] => True
  | [a; b] => a <> b
  | [a; b; c] => tri2 a b c <> 0
  | _ => False
  end.

(** *** contacts *)
(** a contact of bodies [b1] and [b2] makes geometric sense *)
Definition consistent (eps : R) (b1 b2 : body R) (c : contact R) : Prop :=
  unit_vec (c_normal c) /\ at_body b1 (c_p1 c) = at_body b2 (c_p2 c) /\ - eps <= c_pen c.
(** [p] lies on no segment joining two vertices (or on a vertex) *)
Definition off_chords (vs : list pt) (p : pt) : Prop := forall u v, In u vs -> In v vs -> ~ on_segment u v p.
(** centre of [c] seen from the body [h] *)
Definition rel (c h : body R) : pt := v2sub (b_pos c) (b_pos h).
(** the poses for which the contact normal is well defined: centres of circles differ, the centre
    of a circle is on no edge or diagonal of the polygon, polygons have no zero-length edges *)
Definition regular (b1 b2 : body R) : Prop :=
  match is_circle b1, is_circle b2 with
  | true, true => b_pos b1 <> b_pos b2
  | true, false => NoDup (b_verts b2) /\ proper_edges (b_verts b2) /\ off_chords (b_verts b2) (rel b1 b2)
  | false, true => NoDup (b_verts b1) /\ proper_edges (b_verts b1) /\ off_chords (b_verts b1) (rel b2 b1)
  | false, false => proper_edges (b_verts b1) /\ proper_edges (b_verts b2)
  end.
(** gap between the surfaces of two circles *)
Definition gap (b1 b2 : body R) : R := dist (b_pos b1) (b_pos b2) - b_rad b1 - b_rad b2.
(** [e] was excluded with add_no_contact *)
Definition excluded (b1 b2 : body R) : Prop := In (b_id b1) (g_no_contact (b_geom b2)).
(** *** which bodies detection handles *)
(** a circle with a radius, or a strictly convex polygon *)
Definition tidy (b : body R) : Prop := if is_circle b then 0 <= b_rad b else strictly_convex (b_verts b).
(** two bodies touch: a circle and another body come within eps, two polygons share a point *)
Definition touching (eps : R) (b1 b2 : body R) : Prop :=
  if is_circle b1 || is_circle b2
  then exists q1 q2, body_points b1 q1 /\ body_points b2 q2 /\ dist q1 q2 <= eps
  else exists q, body_points b1 q /\ body_points b2 q.
(** nothing is further than 10^9 from the body's centre *)
Definition in_range (b : body R) : Prop :=
  if is_circle b then b_rad b <= 10 ^ 9 else forall v, In v (b_verts b) -> dist v (0, 0) <= 10 ^ 9.
(** the rounds the nearest-point loop may need *)
Definition gjk_rounds (b : body R) : nat := (length (b_verts b) * length (b_verts b) + 2)%nat.
(** the frame of [b2] seen from [b1] *)
Definition offset (b1 b2 : body R) : pt := v2sub (b_pos b2) (b_pos b1).
(** the contact between two circles tells the truth about them *)
Definition circle_contact (b1 b2 : body R) (c : contact R) : Prop :=
  unit_vec (c_normal c) /\ b_pos b1 = v2add (b_pos b2) (v2scale (dist (b_pos b1) (b_pos b2)) (c_normal c)) /\ c_pen c = - gap b1 b2 /\
  at_body b1 (c_p1 c) = at_body b2 (c_p2 c) /\
  at_body b1 (c_p1 c) = midpoint (v2sub (b_pos b1) (v2scale (b_rad b1) (c_normal c))) (v2add (b_pos b2) (v2scale (b_rad b2) (c_normal c))).
(** [w] is the state of a world that uses the default contact callback, after any history of calls,
    whatever the engine; [gf] bounds the rounds of the nearest-point loop *)
Definition simulated (gf : nat) (o : oracle R) (w : world R) : Prop :=
  exists fuel (e : engine R) heap bodies constraints dt eps tol fric_dirs ps st w0 ops,
    Forall available bodies /\
    world_init o (diff_handler gf o) heap bodies constraints dt eps tol fric_dirs ps st = Ok w0 /\
    exec fuel o (diff_handler gf o) e ops w0 = Ok w.
(** contact [c] is between the bodies number [i] and [j] of the world *)
Definition joins (c : contact R) (i j : nat) : Prop := (c_i1 c = i /\ c_i2 c = j) \/ (c_i1 c = j /\ c_i2 c = i).
(** the broad phase was given boxes large enough for the world's eps *)
Definition padded (w : world R) (b1 b2 : body R) : Prop :=
  solid b1 /\ solid b2 /\ 0 <= b_eps b1 /\ 0 <= b_eps b2 /\ 0 <= w_eps w <= b_eps b1 + b_eps b2.
