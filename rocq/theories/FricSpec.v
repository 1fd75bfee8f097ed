(** Contacts with friction whose equations of motion can be solved (specification for C84) *)
From Coq Require Import List Arith ZArith Bool Reals.
From Verif Require Import Num Tensor Bodies Forces Constraints Contacts World Lapack Engines Spec GeoSpec JointSpec EngineSpec ContactSpec.
Import ListNotations.
Open Scope R_scope.

(** [x] is the velocity the bodies of [w], at rest, get from an impulse at contact [c] with normal part
    [l] and tangential part [t] while the constraints hold them (with impulses [y]), by virtual power *)
Definition pushed (w : world R) (c : contact R) (l t : R) (x : vec R) : Prop :=
  length x = (3 * length (w_bodies w))%nat /\
  constraint_velocity w x = repeat 0 (w_num_constraints w) /\
  exists y, length y = w_num_constraints w /\
    forall u, length u = (3 * length (w_bodies w))%nat ->
      kinetic w u x = l * normal_velocity u c + t * slip_velocity u c + dot y (constraint_velocity w u).
(** a push along the normal opens the contact at least mu times as fast as it makes it slide *)
Definition no_wedge (w : world R) (c : contact R) : Prop :=
  forall x, pushed w c 1 0 x -> mixed w b_fric c * Rabs (slip_velocity x c) <= normal_velocity x c.
(** pushing at one contact does not move the bodies at the others *)
Definition apart (w : world R) : Prop :=
  forall i j c d l t x, nth_error (w_contacts w) i = Some c -> nth_error (w_contacts w) j = Some d -> i <> j ->
    pushed w c l t x -> normal_velocity x d = 0 /\ slip_velocity x d = 0.

(** [w0], just constructed from the bodies [bs] and the constraints [js]: EngineSpec.smooth, with
    friction coefficients that are not negative in place of zero *)
Record rough (gf : nat) (bs : list (body R)) (js : list (joint R)) (w0 : world R) : Prop := {
  ro_ids : NoDup (map b_id bs);
  ro_built : Forall (built bs) js;
  ro_available : Forall available bs;
  ro_shapes : Forall (fun b => ContactSpec.tidy b /\ ContactSpec.in_range b /\ (ContactSpec.gjk_rounds b <= gf)%nat) bs;
  ro_masses : Forall (fun b => 0 < b_mass b /\ 0 < b_inertia b) bs;
  ro_friction : Forall (fun b => 0 <= b_fric b) bs;
  ro_loops : loop_free js;
  ro_forces : forall t, exists f, world_apply_forces w0 t = Ok f;
  ro_dt : 0 < w_dt w0;
  ro_dirs : w_fric_dirs w0 = 2%nat;
  ro_strict : w_strict w0 = false }.

(** bodies without a constraint, and bodies a TotalConstraint holds in place *)
Definition loose (js : list (joint R)) (id : nat) : Prop := forall j, In j js -> ~ touches j id.
Definition pinned (js : list (joint R)) (id : nat) : Prop := exists j, In j js /\ j_kind j = JTotal /\ j_b1 j = id.
(** discs without constraints, and bodies of any shape held in place *)
Definition simple (js : list (joint R)) (b : body R) : Prop :=
  (is_circle b = true /\ loose js (b_id b)) \/ pinned js (b_id b).
(** each contact of [w] is between simple bodies, and no loose body is in two contacts *)
Definition sparse (js : list (joint R)) (w : world R) : Prop :=
  (forall c b, In c (w_contacts w) -> nth_error (w_bodies w) (c_i1 c) = Some b \/ nth_error (w_bodies w) (c_i2 c) = Some b -> simple js b) /\
  forall i j c d k b, nth_error (w_contacts w) i = Some c -> nth_error (w_contacts w) j = Some d -> i <> j ->
    c_i1 c = k \/ c_i2 c = k -> c_i1 d = k \/ c_i2 d = k -> nth_error (w_bodies w) k = Some b -> pinned js (b_id b).

(** *** scenes where every disc has at most one partner *)
(** add_no_contact was not used between [a] and [b] *)
Definition may_touch (a b : body R) : Prop := ~ (excluded a b /\ excluded b a).
(** all bodies are discs without constraints or held in place, and a disc without constraints can touch
    at most one other body: two bodies of any kind, or any number of discs on a floor that ignore each
    other *)
Definition paired (js : list (joint R)) (bs : list (body R)) : Prop :=
  (forall b, In b bs -> simple js b) /\
  forall a b c, In a bs -> In b bs -> In c bs -> loose js (b_id a) -> b_id a <> b_id b -> b_id a <> b_id c ->
    may_touch a b -> may_touch a c -> b_id b = b_id c.
