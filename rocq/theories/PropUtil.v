(** C22, C48, C50: polar coordinates, recorder, breakout state vector *)
From Coq Require Import List Arith ZArith Lia Bool Reals Lra.
From Verif Require Import Num Tensor Utils Breakout RBase UtilFacts.
Import ListNotations.
Open Scope R_scope.

(** C22 *)
Theorem C22_polar_round_trip :
  forall (x y r theta : R),
    cart_to_polar (x, y) = (r, theta) ->
    polar_to_cart r theta = (x, y) /\ r = sqrt (x ^ 2 + y ^ 2) /\ 0 <= theta < 2 * PI.
Proof.
  intros x y r theta H. pose proof (polar_round_trip (x, y)) as P. rewrite H in P. exact P.
Qed.
Print Assumptions C22_polar_round_trip.

(** the other direction: polar coordinates in range are recovered *)
Theorem C22_polar_inverse :
  forall r theta : R,
    0 < r -> 0 <= theta < 2 * PI -> cart_to_polar (polar_to_cart r theta) = (r, theta).
Proof. exact polar_inverse. Qed.
Print Assumptions C22_polar_inverse.
Example C22_case : 0 < 2 /\ 0 <= PI < 2 * PI /\ polar_to_cart 2 PI = (-1 * 2, 0 * 2).
Proof. pose proof PI_RGT_0. unfold polar_to_cart. rnum. rewrite cos_PI, sin_PI. repeat split; lra. Qed.

(** C48.  [ts]: the times of the record(t) calls, oldest first. *)
Theorem C48_files_consecutive :
  forall (T : Type) (N : Num T) (dt : T) (ts : list T),
    let r := fold_left rec_record ts (rec_init dt) in
    rec_files r = seq 0 (rec_frame r) /\ NoDup (rec_files r).
Proof.
  intros T N dt ts r. assert (E : rec_files r = seq 0 (rec_frame r)) by (apply rec_run_files; reflexivity).
  split; [exact E|]. rewrite E. apply seq_NoDup.
Qed.
Print Assumptions C48_files_consecutive.

(** no call removes or rewrites a file, and each writes at most one *)
Theorem C48_one_frame_per_call :
  forall (T : Type) (N : Num T) (dt : T) (ts : list T) (t : T),
    let r := fold_left rec_record ts (rec_init dt) in
    let r' := rec_record r t in
    rec_files r' = rec_files r \/ rec_files r' = rec_files r ++ [length (rec_files r)].
Proof. exact @rec_one_frame. Qed.
Print Assumptions C48_one_frame_per_call.

Theorem C48_not_ahead :
  forall (dt tmax : R) (ts : list R),
    0 <= tmax -> Forall (fun t => t <= tmax) ts ->
    INR (length (rec_files (fold_left rec_record ts (rec_init dt)))) * dt <= tmax.
Proof. exact rec_not_ahead. Qed.
Print Assumptions C48_not_ahead.

(** if consecutive times (from 0) are at most dt apart, the recorder is never a full frame late:
    after the calls, at time t, more than t/dt - 1 frames exist *)
Theorem C48_keeps_up :
  forall (dt : R) (ts : list R),
    0 < dt -> gaps_le dt 0 ts ->
    last ts 0 < (INR (length (rec_files (fold_left rec_record ts (rec_init dt)))) + 1) * dt.
Proof. exact rec_keeps_up. Qed.
Print Assumptions C48_keeps_up.
Example C48_case : 0 < 1 /\ gaps_le 1 0 [1/2; 1; 2; 5/2] /\ Forall (fun t => t <= 5/2) [1/2; 1; 2; 5/2] /\
  rec_files (fold_left rec_record [1/2; 1; 2; 5/2] (rec_init 1)) = [0%nat; 1%nat].
Proof.
  split; [lra|]. split; [simpl; lra|]. split; [repeat constructor; lra|].
  cbn [fold_left]. unfold rec_record, rec_init. rnum.
  repeat (cbn [rec_dt rec_prev_t rec_frame rec_files];
          match goal with |- context[Rleb ?a ?b] => destruct (Rleb_spec a b) end;
          cbn [rec_dt rec_prev_t rec_frame rec_files] in *; try lra).
  reflexivity.
Qed.

(** C50 *)
Theorem C50_round_trip :
  forall (T : Type) (N : Num T) (paddle : list T * list T) (blocks : list (list T * list T))
         (ball : list T * T),
    length (fst paddle) = 2%nat -> length (snd paddle) = 2%nat ->
    Forall (fun b => length (fst b) = 2%nat /\ length (snd b) = 2%nat) blocks -> blocks <> [] ->
    length (fst ball) = 2%nat ->
    from_vector (to_vector paddle blocks ball) = (paddle, blocks, ball).
Proof. intros. apply codec_round_trip; auto. split; auto. Qed.
Print Assumptions C50_round_trip.

Theorem C50_no_blocks :
  forall (T : Type) (N : Num T) (paddle : list T * list T) (ball : list T * T),
    length (fst paddle) = 2%nat -> length (snd paddle) = 2%nat -> length (fst ball) = 2%nat ->
    from_vector (to_vector paddle [] ball)
    = (paddle, [([nofZ 1000; nofZ 60], [nofZ 1; nofZ 1])], ball).
Proof. intros. apply codec_no_blocks; auto. split; auto. Qed.
Print Assumptions C50_no_blocks.
Example C50_case : from_vector (to_vector ([1; 2], [3; 4]) [([5; 6], [7; 8]); ([9; 10], [11; 12])] ([13; 14], 15))
  = (([1; 2], [3; 4]), [([5; 6], [7; 8]); ([9; 10], [11; 12])], ([13; 14], 15)).
Proof. reflexivity. Qed.
