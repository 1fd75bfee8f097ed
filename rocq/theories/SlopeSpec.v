(** A body that stands on fixed bodies, and Coulomb's law of sliding (specification for C91) *)
From Coq Require Import List Arith ZArith Bool Reals.
From Verif Require Import Num Tensor Utils Bodies Constraints Contacts World Spec GeoSpec JointSpec ContactSpec EngineSpec ImpactSpec.
Import ListNotations.
Open Scope R_scope.

(** contact [c] seen from body [i]: the direction into the body, the point seen from the body's centre,
    and the other body *)
Definition touches (i : nat) (c : contact R) : Prop := c_i1 c = i \/ c_i2 c = i.
Definition into (i : nat) (c : contact R) : v2 R := if Nat.eqb (c_i1 c) i then c_normal c else v2opp (c_normal c).
Definition foot (i : nat) (c : contact R) : v2 R := if Nat.eqb (c_i1 c) i then c_p1 c else c_p2 c.
Definition partner (i : nat) (c : contact R) : nat := if Nat.eqb (c_i1 c) i then c_i2 c else c_i1 c.
(** where the foot is along the surface, the body's centre being above 0 *)
Definition stance (i : nat) (n : v2 R) (c : contact R) : R := component (tangent n) (foot i c).

(** Body [i] stands with its centre at the height [h] on a surface with the upward direction [n] and
    friction [mu]: it touches only bodies at rest that are fixed by TotalConstraints, all its feet are on
    the surface, and it has feet to the left and to the right at least [mu h] away from below the centre,
    so that friction does not tip it. *)
Record stands (w : world R) (i : nat) (n : v2 R) (h mu : R) : Prop := {
  st_unit : unit_vec n;
  st_free : unjoined w i;
  st_feet : forall c, In c (w_contacts w) -> touches i c ->
      into i c = n /\ component n (foot i c) = - h /\ mixed w b_fric c = mu /\
      fixed_in_place w (partner i c) /\ v3_at (w_v w) (partner i c) = (0, (0, 0));
  st_left : exists c, In c (w_contacts w) /\ touches i c /\ stance i n c <= - (mu * Rabs h);
  st_right : exists c, In c (w_contacts w) /\ touches i c /\ mu * Rabs h <= stance i n c }.

(** what friction that can take away at most [a] leaves of [x] *)
Definition rubbed (a x : R) : R := x - clamp a x.
(** four per contact plus the multipliers of the contacts: the factor of the tolerance in the bound of C91 *)
Definition strain (nc : nat) (mu : R) (z : vec R) : R :=
  Rsum (map (fun k => let '(l, b1, b2, g) := multipliers nc z k in 4 + (1 + mu) * l + b1 + b2 + g) (seq 0 nc)).
