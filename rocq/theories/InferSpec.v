(** The mass-inference experiment (specification for C80) *)
From Coq Require Import List Arith Bool Reals.
From Verif Require Import Num Tensor Bodies Forces World EngineSpec StaticsSpec.
Import ListNotations.
Open Scope R_scope.

(** the links hang one below the other, 50 apart *)
Definition link_place (i : nat) : v3 R := (0, (300, 50 + 50 * INR i)).
(** the forces on the projectile at time [t] together, each 1500 times its function *)
Fixpoint pushes (fs : list (R -> v3 R)) (t : R) : v3 R :=
  match fs with
  | [] => (0, (0, 0))
  | f :: fs' => v3add (v3scale 1500 (f t)) (pushes fs' t)
  end.
(** the projectile is a disc of radius 20 and mass 1, hence of moment of inertia 200 *)
Definition shot_acceleration (fs : list (R -> v3 R)) (t : R) : v3 R := (fst (pushes fs t) / 200, snd (pushes fs t)).
(** pose and velocity of the projectile after [k] steps of 1/30: it starts at rest, level with the last of [n] links *)
Definition shot (fs : list (R -> v3 R)) (n k : nat) : v3 R * v3 R :=
  coast (1 / 30) 0 (shot_acceleration fs) (0, (50, 50 + 50 * INR (n - 1))) (0, (0, 0)) k.
(** through [k] steps the projectile stays more than the contact distance 1/10 left of the links, which begin at 290 *)
Definition approaching (fs : list (R -> v3 R)) (n k : nat) : Prop :=
  forall m, (m <= k)%nat -> fst (snd (fst (shot fs n m))) + 20 + 1 / 10 < 290.
(** what the experiment records after [k] steps: the poses of the links, then the pose of the projectile *)
Definition expected_frame (fs : list (R -> v3 R)) (n k : nat) : list R :=
  cat3 (map link_place (seq 0 n) ++ [fst (shot fs n k)]).
(** the forces at time [t]: none on the first link, the weight of each other link, the pushes on the projectile *)
Definition expected_loads (fs : list (R -> v3 R)) (mass : R) (n : nat) (t : R) : list R :=
  cat3 ((0, (0, 0)) :: repeat (0, (0, 100 * (mass / INR n))) (n - 1) ++ [pushes fs t]).
(** what the loss compares: the frames [a] one after the other, cut to the length of the frames [b] *)
Definition clipped (a b : list (list R)) : list R := firstn (length (concat b)) (concat a).
