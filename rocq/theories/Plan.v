(** Model of the planner's problem in the breakout experiment, /repo/experiments/breakout/
    run_breakout.py:20-24, 72-136 (the cost of [mpc]) and 195-203 (one round of [run_breakout] without
    output).  The MPC solver is a parameter: [Game.forward] is the dynamics, this file the cost it gets. *)
From Coq Require Import List Arith ZArith Bool.
From Verif Require Import Num Tensor Utils Bodies Contacts World Breakout Game.
Import ListNotations.

Section Plan.
Context {T : Type} {N : Num T}.
Local Open Scope num_scope.

(** Q[i, j] = x *)
Definition put (Q : mat T) (i j : nat) (x : T) : mat T := upd Q i (upd (nth i Q []) j x).
(** run_breakout.py:117-120 and 123-126, for one matrix and ns >= 3 *)
Definition put_tracking (ns : nat) (Q : mat T) : mat T :=
  put (put (put (put Q (ns - 3) (ns - 3) 1) (ns - 3) 0 (- (1))) 0 0 1) 0 (ns - 3) (- (1)).
(** int(q) >= k: [int] cuts towards 0 (on a NaN or infinity it raises) *)
Definition int_geb (q : T) (k : Z) : bool :=
  if (1 <=? k)%Z then nofZ k <=? q else nofZ (k - 1) <? q.
(** run_breakout.py:100-126: the cost matrices Q[0], ..., Q[T-1] for the state [s1] (of at least three
    numbers), [na] controls and the vertical velocity of the ball *)
Definition cost_matrices (s1 : vec T) (na horizon : nat) (ball_vel_y lambda_a : T) (centering vert_cost : bool) : list (mat T) :=
  let ns := length s1 in
  let ball_pos_y := vget s1 (ns - 2) in
  let paddle_pos_y := vget s1 1 in
  let Q := mdiag (vzeros ns ++ map (fun a => a * lambda_a) (vones na)) in
  let Q := if vert_cost then put Q (ns - 2) (ns - 2) (nofZ 10) else Q in
  if 0 <? ball_vel_y then
    let frames_to_paddle := (paddle_pos_y - ball_pos_y) / ball_vel_y / DT in
    (** int(frames_to_paddle) + 1 >= t *)
    map (fun t => if int_geb frames_to_paddle (Z.of_nat t - 1) then put_tracking ns Q else Q) (seq 0 horizon)
  else if centering && (nofZ 1000 <? ball_pos_y) then repeat (put_tracking ns Q) horizon
  else repeat Q horizon.

(** run_breakout.py:23 [PADDLE_VEL_ADJUST] with ACTION_VAL = 1, and 169 *)
Definition adjusted (v : T) : T := v * (- (1) / DT / 1).
(** run_breakout.py:200: the ball's velocity between two state vectors *)
Definition ball_velocity (prev s : vec T) : vec T :=
  map (fun a => a / DT) (vsub (slice s (length s - 3) (length s - 1)) (slice prev (length prev - 3) (length prev - 1))).
(** run_breakout.py:199-206: the action of a round.  [solver vel cost x u] is what the MPC solver returns, the
    first control of its plan, for the dynamics [forward] with the ball velocity [vel], the cost
    matrices [cost] and the state [x]. *)
Definition choose (solver : list T -> list (mat T) -> vec T -> T) (horizon : nat) (lambda_a threshold : T) (centering : bool) (prev s : vec T) : nat :=
  let vel := ball_velocity prev s in
  get_action (solver vel (cost_matrices s 1 horizon (vget vel 1) lambda_a centering false) s) threshold.
End Plan.
