(** What the planner of the breakout experiment minimises (specification for C78) *)
From Coq Require Import List Arith ZArith Bool Reals.
From Verif Require Import Num Tensor Contacts World Breakout Game LinAlg GeoSpec GameSpec.
Import ListNotations.
Open Scope R_scope.

(** t Q t *)
Definition quad (Q : mat R) (t : vec R) : R := dot t (mv Q t).
(** [z] is the real number [q] cut towards 0 *)
Definition truncated (q : R) (z : Z) : Prop := (0 <= q -> IZR z <= q < IZR z + 1) /\ (q <= 0 -> IZR z - 1 < q <= IZR z).
(** the paddle is to follow the ball at frame [t]: either the ball, at height [by], comes down at [vy] per
    frame and reaches the paddle's line [py] no earlier than a frame before; or it does not come down, is far
    off the screen, and [centering] is on *)
Definition follows (py by_ vy : R) (centering : bool) (t : nat) : Prop :=
  0 < vy /\ (exists z, truncated ((py - by_) / vy) z /\ (Z.of_nat t <= z + 1)%Z) \/
  vy <= 0 /\ centering = true /\ 1000 < by_.
Definition xpos {A} (p : list R * A) : R := nth 0 (fst p) 0.
Definition ypos {A} (p : list R * A) : R := nth 1 (fst p) 0.
Definition squares (u : vec R) : R := Rsum (map (fun a => a ^ 2) u).

(** the cost of the plan [us] from the state [x] on: one matrix per control, the states follow the
    planner's dynamics *)
Inductive plan_cost (fuel : nat) (o : oracle R) (hd : handler R) (e : engine R) (vel : list R) (vx vy : R)
  : vec R -> list R -> list (mat R) -> R -> Prop :=
| cost_last x u Q : plan_cost fuel o hd e vel vx vy x [u] [Q] (quad Q (x ++ [u]))
| cost_cons x u y us Q Qs c :
    forward fuel o hd e vel vx vy x u = Ok y -> plan_cost fuel o hd e vel vx vy y us Qs c ->
    plan_cost fuel o hd e vel vx vy x (u :: us) (Q :: Qs) (quad Q (x ++ [u]) + c).
