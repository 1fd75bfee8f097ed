(** Vocabulary for statements about the progress of strict worlds *)
From Coq Require Import List Arith ZArith Bool Reals.
From Verif Require Import Num Tensor Utils Bodies Forces Constraints Contacts World Spec GeoSpec BodySpec ContactSpec JointSpec EngineSpec.
Import ListNotations.
Open Scope R_scope.

(** there is a direction such that shifting the first body by [t] along it takes all of it past
    every point of the second: the bodies overlap by at most [t] *)
Definition overlap_at_most (t : R) (b1 b2 : body R) : Prop :=
  exists n, unit_vec n /\ forall q1 q2, body_points b1 q1 -> body_points b2 q2 -> fst n * (fst q2 - fst q1) + snd n * (snd q2 - snd q1) <= t.
(** every two bodies that may collide include a circle and overlap by at most [t] *)
Definition roomy (t : R) (w : world R) : Prop :=
  forall i j b1 b2, i <> j -> nth_error (w_bodies w) i = Some b1 -> nth_error (w_bodies w) j = Some b2 ->
    excluded b1 b2 /\ excluded b2 b1 \/
    (is_circle b1 = true \/ is_circle b2 = true) /\ overlap_at_most t b1 b2.
(** with the velocities [v] no point of a body is faster than [s] *)
Definition slower_than (s : R) (w : world R) (v : vec R) : Prop :=
  forall i b q, nth_error (w_bodies w) i = Some b -> body_points b q ->
    dist (snd (v3_at v i)) (0, 0) + Rabs (fst (v3_at v i)) * dist q (b_pos b) <= s.
(** what [smooth] asks for (EngineSpec), for a strict world *)
Record smooth_strict (gf : nat) (bs : list (body R)) (js : list (joint R)) (w0 : world R) : Prop := {
  ss_ids : NoDup (map b_id bs);
  ss_built : Forall (built bs) js;
  ss_available : Forall available bs;
  ss_shapes : Forall (fun b => tidy b /\ ContactSpec.in_range b /\ (gjk_rounds b <= gf)%nat) bs;
  ss_masses : Forall (fun b => 0 < b_mass b /\ 0 < b_inertia b) bs;
  ss_frictionless : Forall (fun b => b_fric b = 0) bs;
  ss_joints : loop_free js;
  ss_forces : forall t, exists f, world_apply_forces w0 t = Ok f;
  ss_dirs : w_fric_dirs w0 = 2%nat }.
(** bodies whose contacts measure their overlap, up to [t]: two circles; a circle of radius more
    than [t] and a polygon; two polygons whose vertices are equally far from the centre *)
Definition measured (t : R) (b1 b2 : body R) : Prop :=
  match is_circle b1, is_circle b2 with
  | true, true => True
  | true, false => t < b_rad b1
  | false, true => t < b_rad b2
  | false, false => inscribed (b_verts b1) /\ inscribed (b_verts b2)
  end.
(** [w] is a state of a world that refuses penetration (strict_no_penetration = True, no
    post-stabilisation, the default contact callback), after any history of calls *)
Definition strict_run (gf : nat) (o : oracle R) (fuel : nat) (e : engine R) (w : world R) : Prop :=
  exists heap bodies constraints dt eps tol fric_dirs w0 ops,
    Forall available bodies /\
    world_init o (diff_handler gf o) heap bodies constraints dt eps tol fric_dirs false true = Ok w0 /\
    exec fuel o (diff_handler gf o) e ops w0 = Ok w.
(** the body [b], which a step takes to [b'], on its way: [s] after the start *)
Definition during (b b' : body R) (s : R) : body R := move (with_v b (b_v b')) s.
