(** Vocabulary for statements about existence and uniqueness of the contact response (C64) *)
From Coq Require Import List Arith ZArith Bool Reals.
From Verif Require Import Num Tensor Utils Bodies Forces Constraints Contacts World LinAlg Spec GeoSpec JointSpec EngineSpec.
Import ListNotations.
Open Scope R_scope.

(** [v] and the contact impulses [imps] (normal, tangential) are a response of the world to a step of
    length [dt]: Newton's law, the constraints, and at every contact Newton's restitution and Coulomb's
    friction *)
Definition response (w : world R) (dt : R) (v : vec R) (imps : list (R * R)) : Prop :=
  exists f y, world_apply_forces w (w_t w) = Ok f /\ length v = (3 * length (w_bodies w))%nat /\
    balance w dt f v imps y (vzeros (3 * length (w_bodies w))) /\
    constraint_velocity w v = vzeros (w_num_constraints w) /\
    Forall2 (fun c im => coulomb w v c (fst im) (snd im)) (w_contacts w) imps.
(** the velocities [v] obey the constraints and separate every contact as fast as its restitution asks *)
Definition allowed (w : world R) (v : vec R) : Prop :=
  length v = (3 * length (w_bodies w))%nat /\ constraint_velocity w v = vzeros (w_num_constraints w) /\
  forall c, In c (w_contacts w) -> - mixed w b_rest c * normal_velocity (w_v w) c <= normal_velocity v c.
Definition frictionless (w : world R) : Prop := forall c, In c (w_contacts w) -> mixed w b_fric c = 0.
Definition massive (w : world R) : Prop := Forall (fun b => 0 < b_mass b /\ 0 < b_inertia b) (w_bodies w).
