(** Model of the search of the mass-inference experiment, /repo/experiments/inference.py:20-86 [main],
    without display, recorder, printing and plotting; the two histories that are plotted are kept.

    What autograd computes inside the simulator is a parameter: [jacobian i m] lists the derivatives of
    the concatenated frames by the mass, at the mass [m], as loss.backward() finds them in iteration [i].
    The derivative of MSELoss, which loss.backward() multiplies them with, is computed. *)
From Coq Require Import List Arith ZArith Bool.
From Verif Require Import Num Tensor Utils Bodies Forces Contacts World Infer.
Import ListNotations.

Section Search.
Context {T : Type} {N : Num T}.
Local Open Scope num_scope.

(** inference.py:20, 22-23, 37-38 *)
Definition STOP_DIFF : T := 1 / nofZ 1000.
Definition TOTAL_MASS : T := nofZ 7.
Definition NUM_LINKS : nat := 10.
Definition learning_rate : T := 1 / nofZ 2.
Definition max_iter : nat := 100.

(** loss.backward() for MSELoss of the clipped frames (55-61): 2 (p - g) / N for each of the N numbers,
    times its derivative by the mass *)
Definition backward (jac : vec T) (positions ground_truth : list (vec T)) : T :=
  let p := concat positions in
  let g := concat ground_truth in
  let p' := firstn (length g) p in
  let g' := firstn (length p') g in
  dot (map (fun d => nofZ 2 * d / nofZ (Z.of_nat (length p'))) (vsub p' g')) (firstn (length p') jac).
(** torch.optim.RMSprop (44, 63) with the default alpha = 0.99, eps = 1e-8: the new value and the new
    average of the squared gradients *)
Definition optim_step (p sq g : T) : T * T :=
  let alpha := nofZ 99 / nofZ 100 in
  let sq' := sq * alpha + (1 - alpha) * g * g in
  (p - learning_rate * g / (nsqrt sq' + 1 / nofZ 100000000), sq').

(** make_world and positions_run_world, 29-35, 53-55, 78-81 *)
Definition observe (fuel lfuel : nat) (o : oracle T) (hd : handler T) (e : engine T) (forces : list (T -> v3 T)) (num_links : nat) (run_time mass : T)
  : res (list (vec T)) :=
  do w <- make_world o hd forces mass num_links;
  do r <- positions_run_world fuel lfuel o hd e run_time w;
  Ok (fst r).

(** inference.py:48-76: the iterations [i], [i + 1], ... ([n] of them), from the mass, the average of the
    squared gradients and the last loss on; the mass, and what is appended to loss_hist and mass_hist.
    The run of 49-51 (i % 1 is always 0) is made for the screen, which is None; its result is not used. *)
Fixpoint iterations (fuel lfuel : nat) (o : oracle T) (hd : handler T) (e : engine T) (forces : list (T -> v3 T)) (num_links : nat) (run_time : T)
         (jacobian : nat -> T -> vec T) (ground_truth : list (vec T)) (n i : nat) (last_loss mass sq : T) : res (T * list T * list T) :=
  match n with
  | O => Ok (mass, [], [])
  | S n' =>
      do w <- make_world o hd forces mass num_links;
      do _ <- run_world fuel lfuel o hd e run_time w;
      do positions <- observe fuel lfuel o hd e forces num_links run_time mass;
      let loss := loss positions ground_truth in
      let '(next_mass, sq') := optim_step mass sq (backward (jacobian i mass) positions ground_truth) in
      if nabs (last_loss - loss) <? STOP_DIFF then Ok (next_mass, [], [])
      else
        do r <- iterations fuel lfuel o hd e forces num_links run_time jacobian ground_truth n' (S i) loss next_mass sq';
        let '(m, ls, ms) := r in Ok (m, loss :: ls, next_mass :: ms)
  end.
(** inference.py:27-86 from the random guess [start] on (the code has forces = [hor_impulse], the mass
    TOTAL_MASS, NUM_LINKS links and run_time = 10): the final mass and loss, loss_hist and mass_hist *)
Definition infer_mass (fuel lfuel : nat) (o : oracle T) (hd : handler T) (e : engine T) (forces : list (T -> v3 T)) (num_links : nat) (run_time : T)
           (jacobian : nat -> T -> vec T) (ground_truth_mass start : T) : res (T * T * list T * list T) :=
  do ground_truth <- observe fuel lfuel o hd e forces num_links run_time ground_truth_mass;
  do r <- iterations fuel lfuel o hd e forces num_links run_time jacobian ground_truth max_iter 0 (nofZ 10000000000) start 0;
  let '(m, ls, ms) := r in
  do positions <- observe fuel lfuel o hd e forces num_links run_time m;
  Ok (m, loss positions ground_truth, ls, start :: ms).
End Search.
