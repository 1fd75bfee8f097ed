(** The textbook formulas for the impact of two bodies (specification for C75) *)
From Coq Require Import List Arith ZArith Bool Reals.
From Verif Require Import Num Tensor Utils Bodies Constraints Contacts World LinAlg Spec GeoSpec JointSpec EngineSpec.
Import ListNotations.
Open Scope R_scope.

(** velocity of body [b] after the time [dt] under the generalised force [f] if nothing is in its way *)
Definition free_velocity (dt : R) (f : v3 R) (b : body R) : v3 R := v3add (b_v b) (v3scale dt (acceleration b f)).
(** change of velocity (angular, linear) of body [b] by the impulse [J] at the point [p] seen from its centre *)
Definition kick (b : body R) (p J : v2 R) : v3 R := (cross_2d p J / b_inertia b, v2scale (/ b_mass b) J).
(** the impulse with normal part [l] and tangential part [t] *)
Definition impulse_of (n : v2 R) (l t : R) : v2 R := v2add (v2scale l n) (v2scale t (tangent n)).
Definition clamp (a x : R) : R := Rmax (- a) (Rmin a x).
(** [p] seen from the centre is on the line of the normal, as for circles *)
Definition central (n p : v2 R) : Prop := cross_2d p n = 0.
(** how fast the body gives way to a unit impulse at [p]: along the line to the centre, and across *)
Definition yield_normal (b : body R) : R := / b_mass b.
Definition yield_tangent (b : body R) (p : v2 R) : R := / b_mass b + (fst p * fst p + snd p * snd p) / b_inertia b.
(** Newton's and Coulomb's impulses for a pair of bodies that give way by [kn] and [kt]: restitution [e],
    friction [mu], normal velocity [before] the impact, and velocity [un] (normal), [ut] (slip) without it *)
Definition impact (e mu kn kt before un ut : R) : R * R :=
  let l := Rmax 0 (- (un + e * before) / kn) in (l, clamp (mu * l) (- ut / kt)).

(** contact number [k] of the world is [c], and body [i] takes part in no other *)
Definition only_contact (w : world R) (i k : nat) (c : contact R) : Prop :=
  nth_error (w_contacts w) k = Some c /\
  forall k' c', nth_error (w_contacts w) k' = Some c' -> k' <> k -> c_i1 c' <> i /\ c_i2 c' <> i.
Definition unjoined (w : world R) (i : nat) : Prop :=
  forall j i1 i2, In (j, i1, i2) (w_joints w) -> i1 <> i /\ i2 <> Some i.
Definition clear_of (w : world R) (i k : nat) (c : contact R) : Prop := only_contact w i k c /\ unjoined w i.
(** body [i] is fixed by a TotalConstraint *)
Definition fixed_in_place (w : world R) (i : nat) : Prop :=
  (i < length (w_bodies w))%nat /\ exists j, In (j, i, None) (w_joints w) /\ j_kind j = JTotal.
