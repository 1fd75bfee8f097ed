(** Model of /repo/experiments/breakout/learn_params.py, [infer_params]: the paddle's velocity learned
    from episodes of the game.  Printing, plotting and the histories are left out.

    The game (gym) is a parameter: [env i sent] is the frame it returns in the i-th episode after the
    actions [sent] (none: the frame of env.reset()).  So are the random numbers, and what
    loss.backward() leaves in the grad attributes of the two parameters. *)
From Coq Require Import List Arith ZArith Bool.
From Verif Require Import Num Tensor Utils Bodies Contacts World Breakout Screen Game.
Import ListNotations.

Section Learn.
Context {T : Type} {N : Num T}.
Local Open Scope num_scope.

(** learn_params.py:16, 19-20 *)
Definition num_steps : nat := 10.
Definition learning_rate : T := nofZ 3 / nofZ 100.
Definition max_iter : nat := 1000.

(** learn_params.py:48 with ACTION_VAL = 1: np.sign of the random number *)
Definition control (z : T) : T := if 0 <? z then 1 else if z <? 0 then - (1) else 0.
(** learn_params.py:50: get_action([a]) with the default threshold 0.9 *)
Definition sent (actions : list T) : list nat := map (fun a => get_action a (nofZ 9 / nofZ 10)) actions.
(** to_vector(...)[:4] *)
Definition paddle_state (s : rect_params (T := T) * list rect_params * ball_params) : vec T :=
  let '(paddle, blocks, ball) := s in firstn 4 (to_vector paddle blocks ball).
(** learn_params.py:47-52: the states read off the frames after each action *)
Definition true_states (sfuel : nat) (env : list nat -> frame) (actions : list T) : res (list (vec T)) :=
  mapM (fun j => do s <- extract_params sfuel (env (sent (firstn j actions))); Ok (paddle_state s)) (seq 1 (length actions)).
(** learn_params.py:59-64: the simulated states after each action *)
Fixpoint states (fuel : nat) (o : oracle T) (hd : handler T) (e : engine T) (vel_x vel_y : T) (actions : list T) (w : world T)
  : res (list (vec T)) :=
  match actions with
  | [] => Ok []
  | a :: l =>
      do r <- simulate_breakout fuel o hd e a vel_x vel_y w;
      do ss <- states fuel o hd e vel_x vel_y l (snd r);
      Ok (firstn 4 (fst r) :: ss)
  end.
(** MSELoss: the mean of the squares of the differences, of vectors of the same length *)
Definition mse (x y : vec T) : T := vsum (map (fun d => d * d) (vsub x y)) / nofZ (Z.of_nat (length x)).
(** learn_params.py:40-71: an episode (mini_batch = 1) and its loss.  The simulated world starts with
    the state read off the first frame and a ball at rest. *)
Definition episode (fuel sfuel : nat) (o : oracle T) (hd : handler T) (e : engine T) (env : list nat -> frame) (actions : list T)
           (vel_x vel_y : T) : res T :=
  do s <- extract_params sfuel (env []);
  do truth <- true_states sfuel env actions;
  let '(paddle, blocks, ball) := s in
  do w <- make_world o hd paddle blocks ball [0; 0];
  do ss <- states fuel o hd e vel_x vel_y actions w;
  Ok (mse (concat (paddle_state s :: ss)) (concat (paddle_state s :: truth))).

(** torch.optim.RMSprop with the default alpha = 0.99, eps = 1e-8 for one parameter: the new value
    and the new average of the squared gradients *)
Definition rms_step (p sq g : T) : T * T :=
  let alpha := nofZ 99 / nofZ 100 in
  let sq' := sq * alpha + (1 - alpha) * g * g in
  (p - learning_rate * g / (nsqrt sq' + 1 / nofZ 100000000), sq').

(** learn_params.py:36-96: the iterations [i], [i + 1], ... ([n] of them); the parameters, their averages *)
Fixpoint iterations (fuel sfuel : nat) (o : oracle T) (hd : handler T) (e : engine T) (env : nat -> list nat -> frame)
         (draws : nat -> nat -> T) (backward : nat -> T * T -> T * T) (n i : nat) (last_loss : T) (p sq : T * T) : res (T * T) :=
  match n with
  | O => Ok p
  | S n' =>
      let actions := map (fun j => control (draws i j)) (seq 0 num_steps) in
      do loss <- episode fuel sfuel o hd e (env i) actions (fst p) (snd p);
      let g := backward i p in
      let '(px, sx) := rms_step (fst p) (fst sq) (fst g) in
      let '(py, sy) := rms_step (snd p) (snd sq) (snd g) in
      if nabs (last_loss - loss) <? 1 / nofZ 1000000000000000 then Ok (px, py)
      else iterations fuel sfuel o hd e env draws backward n' (S i) loss (px, py) (sx, sy)
  end.
(** learn_params.py:14-104 from the random velocities [start] on: last_loss = 1e10, no average yet *)
Definition infer_params (fuel sfuel : nat) (o : oracle T) (hd : handler T) (e : engine T) (env : nat -> list nat -> frame)
           (draws : nat -> nat -> T) (backward : nat -> T * T -> T * T) (start : T * T) : res (T * T) :=
  iterations fuel sfuel o hd e env draws backward max_iter 0 (nofZ 10000000000) start (0, 0).
End Learn.
