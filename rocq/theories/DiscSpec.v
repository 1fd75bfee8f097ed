(** The second moment of area of discs (specification for C51) *)
From Coq Require Import Reals.
Open Scope R_scope.

(** [J r] is the second moment of area of the disc of radius [r] about its centre: the ring between the radii a and b has the
    area pi (b^2 - a^2), and each of its points is at a distance between a and b *)
Definition disc_moment (J : R -> R) : Prop :=
  J 0 = 0 /\ forall a b, 0 <= a <= b -> a * a * (PI * (b * b - a * a)) <= J b - J a <= b * b * (PI * (b * b - a * a)).
