(** Model of the state codec of the breakout experiment,
    /repo/experiments/breakout/run_breakout.py:47-69, 157-164 and encoder.py:140-145, 299-307 *)
From Coq Require Import List Arith ZArith Bool.
From Verif Require Import Num Tensor Utils Bodies Forces Constraints Contacts World.
Import ListNotations.

Section Breakout.
Context {T : Type} {N : Num T}.
Local Open Scope num_scope.

(** a rectangle is given by (pos, dims), the ball by (pos, rad); each pos/dims is a list that
    get_tensor turns into a 1-d tensor *)
Definition rect_params : Type := (list T * list T)%type.
Definition ball_params : Type := (list T * T)%type.

(** run_breakout.py:47-60 [to_vector] *)
Definition to_vector (paddle : rect_params) (blocks : list rect_params) (ball : ball_params)
  : vec T :=
  let ballv := fst ball ++ [snd ball] in
  let paddlev := fst paddle ++ snd paddle in
  let blocksv := match blocks with
                 | [] => [nofZ 1000; nofZ 60; nofZ 1; nofZ 1]
                 | _ => flat_map (fun b => fst b ++ snd b) blocks
                 end in
  paddlev ++ blocksv ++ ballv.

(** run_breakout.py:63-69 [from_vector], for vectors of length at least 3
    ([v[-1]] raises IndexError on an empty one) *)
Definition from_vector (v : vec T) : rect_params * list rect_params * ball_params :=
  let n := length v in
  let paddle := (slice v 0 2, slice v 2 4) in
  (** range(4, len(v[:-3]), 4) *)
  let starts := map (fun k => 4 + 4 * k)%nat (seq 0 ((n - 3 - 4 + 3) / 4)) in
  let blocks := map (fun i => (slice v i (i + 2), slice v (i + 2) (i + 4))) starts in
  let ball := (slice v (n - 3) (n - 1), nth (n - 1) v 0) in
  (paddle, blocks, ball).

(** encoder.py:140-145 [get_pos_dims]; corners are (row, column) = (Y, X) pairs *)
Definition get_pos_dims (top_left bottom_right : v2 T) : rect_params :=
  ([ (snd bottom_right + snd top_left) / nofZ 2; (fst bottom_right + fst top_left) / nofZ 2 ],
   [ snd bottom_right - snd top_left; fst bottom_right - fst top_left ]).

(** run_breakout.py:157-164 [get_action] with ACTION_VAL = 1: 0 (no-op), 2 or 3 *)
Definition get_action (a threshold : T) : nat :=
  if 1 * threshold <=? nabs a then
    (** int((sign(a) + 1) / 2 + 2): 3 for a > 0, 2 for a < 0 and int(2.5) = 2 for a = 0 *)
    if 0 <? a then 3%nat else 2%nat
  else 0%nat.

(** encoder.py:299-307 [step_breakout]: the paddle's linear velocity is overwritten, then the
    world makes one step of fixed length *)
Definition step_breakout (fuel : nat) (o : oracle T) (hd : handler T) (e : engine T)
           (w : world T) (paddle_idx : nat) (action vel_x vel_y : T) : res (world T) :=
  let v := upd (w_v w) (3 * paddle_idx + 1) (vel_x * action) in
  let v := upd v (3 * paddle_idx + 2) (vel_y * action) in
  do w1 <- set_v w v;
  step fuel o hd e true w1.

End Breakout.
