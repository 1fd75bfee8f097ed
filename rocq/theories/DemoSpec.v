(** The demos before anything touches (specification for C94) *)
From Coq Require Import List Arith Bool Reals.
From Verif Require Import Num Tensor Bodies Forces Constraints Contacts World StaticsSpec.
Import ListNotations.
Open Scope R_scope.

(** slide_demo: the plane, turned by PI/32 about (500, 300), ... *)
Definition plane_pose : v3 R := (PI / 32, (500, 300)).
(** ... and pose and velocity of the block after [k] steps of 1/30 s of falling from (100, 100) with 100 per s^2 *)
Definition fallen (k : nat) : v3 R * v3 R := ((0, (100, 100 + INR k * (INR k + 1) / 18)), (0, (0, 10 / 3 * INR k))).
(** fixed_joint_demo: the plane, ... *)
Definition plane_pose2 : v3 R := (PI / 32, (500, 500)).
(** ... and pose and velocity after [k] steps of a block that falls from (x, 100) *)
Definition dropped (x : R) (k : nat) : v3 R * v3 R := ((0, (x, 100 + INR k * (INR k + 1) / 18)), (0, (0, 10 / 3 * INR k))).
(** a rectangle of mass 1 with the friction and the restitution of both demos *)
Definition made (c : body R) (dims : v2 R) : Prop :=
  b_mass c = 1 /\ b_fric c = 3 / 20 /\ b_rest c = 1 / 2 /\ exists vs i, b_kind c = KRect dims vs i.
(** the constraints of a world: which kind, and on which bodies *)
Definition joined (w : world R) : list (jkind * nat * option nat) := map (fun '(j, i1, i2) => (j_kind j, i1, i2)) (w_joints w).
