(** What ODE reports for two spheres, and worlds that differ only in world.eps (specification for C83) *)
From Coq Require Import List Arith Bool Reals.
From Verif Require Import Num Tensor Utils Bodies Forces Constraints Contacts World Spec GeoSpec ContactSpec.
Import ListNotations.
Open Scope R_scope.

(** the answer of [ode.collide] for two spheres of radii [r1], [r2] around [p1], [p2] in the plane z = 0:
    nothing if they do not touch, else one contact, midway between the two surfaces, with the normal
    from sphere 2 to sphere 1 and the overlap as its depth (of two spheres with the same centre only the depth is fixed) *)
Definition sphere_answer (p1 p2 : pt) (r1 r2 : R) (l : list ((pt * R) * pt * R)) : Prop :=
  let d := dist p1 p2 in
  (r1 + r2 < d -> l = []) /\
  (0 < d <= r1 + r2 ->
     let n := ((fst p1 - fst p2) / d, (snd p1 - snd p2) / d) in
     l = [((midpoint (fst p1 - r1 * fst n, snd p1 - r1 * snd n) (fst p2 + r2 * fst n, snd p2 + r2 * snd n), 0), n, r1 + r2 - d)]) /\
  (d = 0 /\ 0 <= r1 + r2 -> exists p n, l = [((p, 0), n, r1 + r2)]).
Definition ode_spheres (o : oracle R) : Prop :=
  forall k g1 g2 r1 r2, g_shape g1 = GSphere r1 -> g_shape g2 = GSphere r2 -> sphere_answer (g_pos g1) (g_pos g2) r1 r2 (o_narrow o k g1 g2).
(** the candidate pairs depend on nothing but the geoms *)
Definition memoryless (o : oracle R) : Prop := forall k k' gs, o_collide o k gs = o_collide o k' gs.

(** a Circle, constructed with eps = [e] and used in any way before, whose diameter is larger than the tolerance *)
Definition disc_with (e tol : R) (b : body R) : Prop :=
  available b /\ is_circle b = true /\ 0 < b_rad b /\ tol < 2 * b_rad b /\ b_eps b = e.
(** [m] is how far a Circle or Hull reaches from its position *)
Definition extent (b : body R) (m : R) : Prop :=
  match b_kind b with
  | KCircle r => m = r
  | KHull vs _ => is_max (fun v => dist v (0, 0)) vs m
  | KRect _ _ _ => False
  end.
(** the worlds agree in everything a user can see, except world.eps *)
Record same_but_eps (w w' : world R) : Prop := {
  sb_bodies : w_bodies w' = w_bodies w; sb_joints : w_joints w' = w_joints w; sb_heap : w_heap w' = w_heap w;
  sb_t : w_t w' = w_t w; sb_dt : w_dt w' = w_dt w; sb_tol : w_tol w' = w_tol w;
  sb_fd : w_fric_dirs w' = w_fric_dirs w; sb_ps : w_post_stab w' = w_post_stab w; sb_st : w_strict w' = w_strict w;
  sb_v : w_v w' = w_v w; sb_contacts : w_contacts w' = w_contacts w;
  sb_static : w_static_inverse w' = w_static_inverse w; sb_num : w_num_constraints w' = w_num_constraints w;
  sb_M : w_M w' = w_M w; sb_cache : w_cache w' = w_cache w }.
(** both computations return, with related results, or both raise the same exception *)
Definition agree {A B} (rel : A -> B -> Prop) (r : res A) (r' : res B) : Prop :=
  match r, r' with Ok a, Ok b => rel a b | Err e, Err f => e = f | _, _ => False end.
