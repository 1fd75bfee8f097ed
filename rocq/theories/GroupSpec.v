(** Vocabulary for statements about groups of bodies that do not interact with the others (C73) *)
From Coq Require Import List Arith ZArith Bool Reals.
From Verif Require Import Num Tensor Utils Bodies Forces Constraints Contacts World LinAlg Spec GeoSpec JointSpec EngineSpec.
Import ListNotations.
Open Scope R_scope.

(** [S] is a group of bodies, given by their positions in world.bodies.  It does not interact with the
    others: no contact and no constraint connects a body of the group with one outside. *)
Definition apart (S : nat -> bool) (w : world R) : Prop :=
  (forall c, In c (w_contacts w) -> S (c_i1 c) = S (c_i2 c)) /\
  (forall j i1 i2, In (j, i1, Some i2) (w_joints w) -> S i1 = S i2).
(** the contacts and constraints of the group *)
Definition contacts_of (S : nat -> bool) (w : world R) : list (contact R) := filter (fun c => S (c_i1 c)) (w_contacts w).
Definition joints_of (S : nat -> bool) (w : world R) := filter (fun e : joint R * nat * option nat => S (snd (fst e))) (w_joints w).
(** Two worlds with the same group [S]: at the same time, the group consists of the same bodies in the
    same state, with the same contacts and constraints, and interacts with no other body.  The other
    bodies of the two worlds may be any, and any number. *)
Record same_group (S : nat -> bool) (w w' : world R) : Prop := {
  sg_time : w_t w = w_t w';
  sg_heap : w_heap w = w_heap w';
  sg_bodies : forall i, S i = true -> nth_error (w_bodies w) i = nth_error (w_bodies w') i;
  sg_contacts : contacts_of S w = contacts_of S w';
  sg_joints : joints_of S w = joints_of S w';
  sg_apart : apart S w;
  sg_apart' : apart S w' }.
(** the velocities of [n] bodies, [x] inside the group and [x'] outside *)
Definition combined (S : nat -> bool) (n : nat) (x x' : vec R) : vec R :=
  cat3 (map (fun i => if S i then v3_at x i else v3_at x' i) (seq 0 n)).
(** the difference of the velocities [x] and [x'] of the bodies of the group, zero for the other ones of
    [n] bodies *)
Definition group_change (S : nat -> bool) (n : nat) (x x' : vec R) : vec R :=
  cat3 (map (fun i => if S i then (fst (v3_at x i) - fst (v3_at x' i), v2sub (snd (v3_at x i)) (snd (v3_at x' i))) else (0, (0, 0))) (seq 0 n)).
