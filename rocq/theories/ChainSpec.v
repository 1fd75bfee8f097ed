(** chain_demo before the projectile arrives (specification for C99) *)
From Coq Require Import List Arith Bool Reals.
From Verif Require Import Num Tensor Bodies Forces Constraints Contacts World.
Import ListNotations.
Open Scope R_scope.

(** pose and velocity of the i-th rectangle: at rest, 50 below the one before *)
Definition link_state (i : nat) : v3 R * v3 R := ((0, (300, 50 + 50 * INR i)), (0, (0, 0))).
(** pose and velocity of the projectile after [k] steps of 1/30 s: pushed with 2000 to the right for three
    steps, and then with constant velocity 200 *)
Definition shot_state (k : nat) : v3 R * v3 R :=
  ((0, (match k with 0 => 50 | 1 => 470 / 9 | _ => 130 / 3 + 20 / 3 * INR k end, 500)),
   (0, (match k with 0 => 0 | 1 => 200 / 3 | 2 => 400 / 3 | _ => 200 end, 0))).
(** the clock turns by 1 per second *)
Definition clock_state (k : nat) : v3 R * v3 R := ((INR k / 30, (975, 575)), (1, (0, 0))).
Definition chain_at (k : nat) : list (v3 R * v3 R) := map link_state (seq 0 10) ++ [shot_state k; clock_state k].
(** the shapes: ten rectangles of 20 by 60 and two discs of radius 20 *)
Definition chain_shape (i : nat) (b : body R) : Prop :=
  if (i <? 10)%nat then exists vs k, b_kind b = KRect (20, 60) vs k else b_kind b = KCircle 20.
(** the constraints of a world: which kind, where, and on which bodies *)
Definition places (w : world R) : list (jkind * nat * option nat) := map (fun '(j, i1, i2) => (j_kind j, i1, i2)) (w_joints w).
Definition anchors (w : world R) : list (v2 R) := map (fun '(j, _, _) => j_pos j) (w_joints w).
(** the top rectangle may only turn about its centre; each other one is hinged to the one above, at half height between them *)
Definition chain_places : list (jkind * nat * option nat) :=
  (JX, 0%nat, None) :: (JY, 0%nat, None) :: map (fun i => (JJoint, i, Some (i - 1)%nat)) (seq 1 9).
Definition chain_anchors : list (v2 R) := map (fun i => (300, 25 + 50 * INR i)) (seq 1 9).
(** the forces at time [t]: weights on all rectangles but the first, and the push on the projectile *)
Definition chain_loads (t : R) : list R :=
  cat3 ((0, (0, 0)) :: repeat (0, (0, 100)) 9 ++ [(0, (if Rlt_dec t (1 / 10) then 2000 else 0, 0)); (0, (0, 0))]).
