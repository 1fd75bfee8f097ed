(** C51 (continued): the moment of inertia of a Circle *)
From Coq Require Import List Reals Lra.
From Verif Require Import Num Tensor Bodies Forces Constraints Contacts World Spec GeoSpec BodySpec RBase RigidFacts BodyReach DiscSpec DiscFacts.
Import ListNotations.
Open Scope R_scope.

(** C51.  The moment of inertia of every reachable Circle is mass divided by area, times the second moment of area of the disc. *)
Theorem C51_circle :
  forall b r J, reachable_body b -> b_kind b = KCircle r -> 0 < r -> disc_moment J ->
    b_inertia b = b_mass b / (PI * (r * r)) * J r.
Proof.
  intros b r J Hb Hk Hr HJ. destruct (reachable_shape b Hb) as [Hi _]. rewrite Hi, Hk. cbn [kind_inertia]. unfold circle_inertia. rnum.
  rewrite (disc_moment_value J HJ r) by lra. pose proof PI_RGT_0. field. lra.
Qed.
Print Assumptions C51_circle.
Example C51_circle_case : disc_moment (fun r => PI / 2 * (r * r * (r * r))) /\ exists b : body R, reachable_body b /\ b_kind b = KCircle 2.
Proof.
  split; [exact disc_moment_exists|]. eexists. split; [apply RBavailable; eexists; exists []; split; [left; exists 0%nat, [1; 3], 2, [0; 0; 0], 1, 0, 0, (1/10); reflexivity|reflexivity]|reflexivity].
Qed.
