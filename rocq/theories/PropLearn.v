(** C92: learning the paddle's velocity from episodes of the game (learn_params.py) *)
From Coq Require Import List Arith ZArith Bool Reals Lra Lia.
From Verif Require Import Num Tensor Bodies Contacts World Lapack Engines Breakout Screen Game Plan Learn Spec ScreenSpec GeoSpec GameSpec LapackSpec LearnSpec RmsSpec
     RBase ScreenFacts GameFree LearnFacts LearnProps LearnTrail LearnEx.
Import ListNotations.
Open Scope R_scope.

(** the loss of an episode, for frames the reader can read and velocities with which the simulated
    paddle keeps away from everything: the mean of the squares of the differences between the paddle
    that moves by the velocity times the control and the one filmed *)
Theorem C92_loss :
  forall la mi gf o, lapack_ok la -> (0 < mi)%nat -> broadphase_sane o -> (18 <= gf)%nat ->
  forall env actions scene sfuel f vx vy,
    filmed env actions scene sfuel -> opening (scene 0%nat) -> keeps_away (scene 0%nat) actions vx vy ->
    episode (S (S f)) sfuel o (diff_handler gf o) (pdipm_engine la mi) env actions vx vy = Ok (mean_miss scene actions vx vy).
Proof. exact free_episode. Qed.
Print Assumptions C92_loss.

(** when the paddle of the game moves by [u] pixels per unit of control, the loss vanishes at the velocity (u, 0)
    and nowhere else *)
Theorem C92_identifies :
  forall u actions scene vx vy,
    moves_by u actions scene ->
    mean_miss scene actions vx vy = ((vx - u) ^ 2 + vy ^ 2) * weight actions /\
    (hd 0 actions <> 0 -> (mean_miss scene actions vx vy = 0 <-> vx = u /\ vy = 0)).
Proof.
  intros u acts scene vx vy HM. rewrite (moved_miss u) by exact HM. split; [reflexivity|]. intros Ha. destruct acts as [|a l]; [cbn in Ha; lra|]. cbn [hd] in Ha. pose proof (weight_pos a l Ha) as W. split.
  - intros H. apply Rmult_integral in H. destruct H as [H|H]; [|lra]. pose proof (pow2_ge_0 (vx - u)). pose proof (pow2_ge_0 vy).
    assert (E1 : (vx - u) ^ 2 = 0) by lra. assert (E2 : vy ^ 2 = 0) by lra. split; [|nra]. assert (vx - u = 0) by nra. lra.
  - intros [-> ->]. ring.
Qed.
Print Assumptions C92_identifies.

(** and its gradient is proportional to the error of the velocity *)
Theorem C92_gradient :
  forall la mi gf o, lapack_ok la -> (0 < mi)%nat -> broadphase_sane o -> (18 <= gf)%nat ->
  forall env actions scene sfuel f u vx vy,
    filmed env actions scene sfuel -> opening (scene 0%nat) -> moves_by u actions scene -> keeps_away (scene 0%nat) actions vx vy ->
    gradient_at (episode (S (S f)) sfuel o (diff_handler gf o) (pdipm_engine la mi) env actions) vx vy
      (2 * weight actions * (vx - u)) (2 * weight actions * vy).
Proof. exact episode_gradient. Qed.
Print Assumptions C92_gradient.

(** a step of the optimiser with a gradient proportional to the error, whatever the average of the
    squared gradients: by at most 0.3 towards the target; the error does not grow beyond 0.3,
    and becomes smaller when it is above 0.15 *)
Theorem C92_step :
  forall p average c target p' average',
    0 <= average -> 0 <= c -> rms_step p average (c * (p - target)) = (p', average') ->
    0 <= average' /\ Rabs (p' - p) <= 3 / 10 /\ (p' - p) * (p - target) <= 0 /\
    Rabs (p' - target) <= Rmax (Rabs (p - target)) (3 / 10) /\
    (0 < c -> 3 / 20 < Rabs (p - target) -> Rabs (p' - target) < Rabs (p - target)).
Proof.
  intros p sq c t p' sq' Hs Hc H. destruct (rms_nears _ _ _ _ _ _ Hs Hc H) as (Q1 & Q2 & Q3). destruct (rms_moves _ _ _ _ _ Hs H) as (_ & r & Hr & E & Hb).
  split; [exact Q1|]. split; [rewrite E; replace (p - r * (c * (p - t)) - p) with (- (r * (c * (p - t)))) by ring; now rewrite Rabs_Ropp|]. split; [|auto].
  rewrite E. replace ((p - r * (c * (p - t)) - p) * (p - t)) with (- (r * c * (p - t) ^ 2)) by ring. pose proof (pow2_ge_0 (p - t)). assert (0 <= r * c) by nra. nra.
Qed.
Print Assumptions C92_step.

(** the course of the velocities in whatever infer_params returns: between 1 and 1000 iterations, each with
    an episode whose controls are the signs of its random numbers, and a step of RMSprop for each coordinate with its own
    gradients and their own average; the losses that follow each other differ by at least 1e-15 until the
    last, and if there are fewer than 1000, the last two differ by less *)
Theorem C92_course :
  forall fuel sfuel o hd e env draws backward start p,
    infer_params fuel sfuel o hd e env draws backward start = Ok p ->
    exists k (v : nat -> R * R) (L : nat -> R), (1 <= k <= 1000)%nat /\ v 0%nat = start /\ v k = p /\ L 0%nat = 10000000000 /\
      (forall j, (j < k)%nat -> episode fuel sfuel o hd e (env j) (controls (draws j)) (fst (v j)) (snd (v j)) = Ok (L (S j)) /\
         v (S j) = (stepped (3 / 100) (fun i => fst (backward i (v i))) j (fst (v j)), stepped (3 / 100) (fun i => snd (backward i (v i))) j (snd (v j)))) /\
      (forall j, (S j < k)%nat -> 1 / 1000000000000000 <= Rabs (L j - L (S j))) /\
      ((k < 1000)%nat -> Rabs (L (k - 1)%nat - L k) < 1 / 1000000000000000).
Proof. exact course. Qed.
Print Assumptions C92_course.

(** the whole of infer_params: it returns, and the velocity it returns is no further from (u, 0) than the
    random one it started with, or 0.3, in each coordinate *)
Theorem C92_learns :
  forall la mi gf o, lapack_ok la -> (0 < mi)%nat -> broadphase_sane o -> (18 <= gf)%nat ->
  forall env draws backward scene sfuel f u start,
    let Ex := Rmax (Rabs (fst start - u)) (3 / 10) in
    let Ey := Rmax (Rabs (snd start)) (3 / 10) in
    (** every episode is filmed, starts from a position a world can start from, its paddle moves by [u] *)
    (forall i, (i < 1000)%nat ->
       filmed (env i) (controls (draws i)) (scene i) sfuel /\ opening (scene i 0%nat) /\ moves_by u (controls (draws i)) (scene i)) ->
    (** velocities between the first one and (u, 0) keep the simulated paddle away from everything *)
    (forall i p, (i < 1000)%nat -> Rabs (fst p - u) <= Ex -> Rabs (snd p) <= Ey ->
       keeps_away (scene i 0%nat) (controls (draws i)) (fst p) (snd p)) ->
    (** loss.backward() computes the gradient *)
    (forall i p, (i < 1000)%nat -> Rabs (fst p - u) <= Ex -> Rabs (snd p) <= Ey ->
       gradient_at (episode (S (S f)) sfuel o (diff_handler gf o) (pdipm_engine la mi) (env i) (controls (draws i)))
         (fst p) (snd p) (fst (backward i p)) (snd (backward i p))) ->
    exists p, infer_params (S (S f)) sfuel o (diff_handler gf o) (pdipm_engine la mi) env draws backward start = Ok p /\
      Rabs (fst p - u) <= Ex /\ Rabs (snd p) <= Ey.
Proof. exact run_near. Qed.
Print Assumptions C92_learns.

(** from the right velocity on it is returned after two episodes *)
Theorem C92_settled :
  forall la mi gf o, lapack_ok la -> (0 < mi)%nat -> broadphase_sane o -> (18 <= gf)%nat ->
  forall env draws backward scene sfuel f u,
    (forall i, (i < 2)%nat ->
       filmed (env i) (controls (draws i)) (scene i) sfuel /\ opening (scene i 0%nat) /\ moves_by u (controls (draws i)) (scene i) /\
       keeps_away (scene i 0%nat) (controls (draws i)) u 0 /\
       gradient_at (episode (S (S f)) sfuel o (diff_handler gf o) (pdipm_engine la mi) (env i) (controls (draws i)))
         u 0 (fst (backward i (u, 0))) (snd (backward i (u, 0)))) ->
    infer_params (S (S f)) sfuel o (diff_handler gf o) (pdipm_engine la mi) env draws backward (u, 0) = Ok (u, 0).
Proof. exact run_settled. Qed.
Print Assumptions C92_settled.

(** run_breakout multiplies the velocities it is handed by -1: with (v, 0) its planner moves the paddle
    by -v per unit of control.  It has to be handed (-u, 0) where (u, 0) is learned. *)
Theorem C92_handed_over :
  forall la mi gf o, lapack_ok la -> (0 < mi)%nat -> broadphase_sane o -> (18 <= gf)%nat ->
  forall paddle blocks ball vel velocity f v a,
    startable paddle blocks ball -> blocks <> [] -> 0 < snd ball -> to_v3 vel = Ok velocity -> uncrowded paddle blocks ball ->
    uncrowded (shifted (- v * a) 0 paddle) blocks (shifted (fst (snd velocity)) (snd (snd velocity)) ball) ->
    forward (S (S f)) o (diff_handler gf o) (pdipm_engine la mi) vel (adjusted v) (adjusted 0) (to_vector paddle blocks ball) a =
    Ok (to_vector (shifted (- v * a) 0 paddle) blocks (shifted (fst (snd velocity)) (snd (snd velocity)) ball)).
Proof.
  intros la mi gf o HL Hmi Ho Hg paddle blocks ball vel u f v a ST Hne Hr Hv U0 U1.
  assert (E1 : adjusted v = - v) by (unfold adjusted, DT; rnum; field). assert (E2 : adjusted 0 * a = 0) by (unfold adjusted, DT; rnum; field).
  pose proof (free_forward la mi gf o HL Hmi Ho Hg paddle blocks ball vel u f (adjusted v) (adjusted 0) a ST Hne Hr Hv U0) as Q. rewrite E2, E1 in Q. rewrite E1. exact (Q U1).
Qed.
Print Assumptions C92_handed_over.

(** Finding: run_breakout(paddle_vel = the learned velocity), as in the lines of learn_params.py for testing while training,
    plans with a paddle that moves the wrong way.  In a game whose paddle moves two pixels to the left for action 3
    the learned velocity is (-2, 0) (C92_game below).  For the control 1, which is sent as action 3, the planner
    expects the paddle at 74 when the game brings it to 70. *)
Theorem C92_handed_over_refuted :
  forall la mi gf o f, lapack_ok la -> (0 < mi)%nat -> broadphase_sane o -> (18 <= gf)%nat ->
  sent [1] = [3%nat] /\
  exists paddle blocks ball y, extract_params 2 (game_env []) = Ok (paddle, blocks, ball) /\
    extract_params 2 (game_env (sent [1])) = Ok (shifted (-2) 0 paddle, blocks, ball) /\
    forward (S (S f)) o (diff_handler gf o) (pdipm_engine la mi) [0; 0] (adjusted (-2)) (adjusted 0) (to_vector paddle blocks ball) 1 = Ok y /\
    vget (to_vector (shifted (-2) 0 paddle) blocks ball) 0 = 70 /\ vget y 0 = 74.
Proof.
  intros la mi gf o f HL Hmi Ho Hg.
  assert (E : sent [1] = [3%nat]).
  { unfold sent. cbn [map]. unfold get_action. rnum. rewrite (proj2 (Rleb_true _ _)) by (rewrite Rabs_R1; lra). rewrite (proj2 (Rltb_true _ _)) by lra. reflexivity. }
  split; [exact E|]. rewrite E. exists (paddle_of (scene_at 0)), (blocks_of (scene_at 0)), (ball_shown (scene_at 0)).
  assert (X : forall k, (-32 <= k <= 32)%Z -> extract_params 2 (draw_scene k) = Ok (paddle_of (scene_at k), blocks_of (scene_at k), ball_shown (scene_at k))).
  { intros k Hk. apply screen_read; [apply scene_shown|now apply scene_readable|]. cbn. repeat constructor. }
  set (acts := repeat 1 10). assert (HU : unit_controls acts) by (unfold acts; repeat constructor; left; reflexivity). assert (HN : length acts = 10%nat) by reflexivity.
  destruct (ex_opening acts HN) as [ST Hne]. change (game_scene acts 0) with (scene_at 0) in ST, Hne.
  assert (U0 : uncrowded (paddle_of (scene_at 0)) (blocks_of (scene_at 0)) (ball_shown (scene_at 0))).
  { pose proof (ex_keeps_away acts HU HN 0 0 ltac:(lra) ltac:(lra) 0%nat (Nat.le_0_l _)) as Q. change (game_scene acts 0) with (scene_at 0) in Q. rewrite !Rmult_0_l in Q. rewrite scene_paddle in * by lia. unfold shifted in Q. cbn [fst snd nth] in Q. rewrite !Rplus_0_r in Q. exact Q. }
  assert (U1 : uncrowded (shifted (- -2 * 1) 0 (paddle_of (scene_at 0))) (blocks_of (scene_at 0)) (shifted 0 0 (ball_shown (scene_at 0)))).
  { pose proof (ex_keeps_away acts HU HN 2 0 ltac:(lra) ltac:(lra) 1%nat ltac:(rewrite HN; lia)) as Q. change (game_scene acts 0) with (scene_at 0) in Q. replace (so_far acts 1) with 1 in Q by (unfold so_far, acts; cbn; lra).
    replace (shifted 0 0 (ball_shown (scene_at 0))) with (ball_shown (scene_at 0)) by (unfold shifted; cbn; now rewrite !Rplus_0_r). replace (- -2 * 1) with (2 * 1) by ring. replace 0 with (0 * 1) at 1 by ring. exact Q. }
  eexists. split; [exact (X 0%Z ltac:(lia))|]. split; [|split; [|split]].
  - change (game_env [3%nat]) with (draw_scene (-1)). rewrite (X (-1)%Z ltac:(lia)). rewrite !scene_paddle by lia. rewrite !scene_blocks. unfold shifted. cbn [fst snd nth]. apply (f_equal Ok). apply f_equal2; [|reflexivity]. apply f_equal2; [|reflexivity]. apply f_equal2; [|reflexivity]. repeat (apply f_equal2; try reflexivity; try lra).
  - exact (C92_handed_over la mi gf o HL Hmi Ho Hg _ _ _ [0; 0] (0, (0, 0)) f (-2) 1 ST Hne ltac:(cbn; lra) eq_refl U0 U1).
  - rewrite scene_paddle by lia. cbn. lra.
  - rewrite scene_paddle by lia. cbn. lra.
Qed.
Print Assumptions C92_handed_over_refuted.

(** a game whose paddle moves by -2 per unit of control, whatever the random numbers (other than 0); the
    velocity starts at (1, 1/2) *)
Example C92_game :
  forall la mi gf o f draws, lapack_ok la -> (0 < mi)%nat -> broadphase_sane o -> (18 <= gf)%nat -> (forall i j, draws i j <> 0) ->
  exists p, infer_params (S (S f)) 2 o (diff_handler gf o) (pdipm_engine la mi) (fun _ => game_env) draws
              (fun i p => (2 * weight (controls (draws i)) * (fst p - -2), 2 * weight (controls (draws i)) * snd p)) (1, 1 / 2) = Ok p /\
    Rabs (fst p - -2) <= 3 /\ Rabs (snd p) <= 1 / 2.
Proof.
  intros la mi gf o f draws HL Hmi Ho Hg HD. pose proof (fun i => controls_unit _ (HD i)) as HU. assert (HN : forall i, length (controls (draws i)) = 10%nat) by reflexivity.
  assert (Ex : Rmax (Rabs (fst (1, 1 / 2) - -2)) (3 / 10) = 3) by (cbn [fst]; rewrite Rabs_pos_eq, Rmax_left; lra).
  assert (Ey : Rmax (Rabs (snd (1, 1 / 2))) (3 / 10) = 1 / 2) by (cbn [snd]; rewrite Rabs_pos_eq, Rmax_left; lra).
  assert (K : forall i p, Rabs (fst p - -2) <= 3 -> Rabs (snd p) <= 1 / 2 -> keeps_away (game_scene (controls (draws i)) 0) (controls (draws i)) (fst p) (snd p)).
  { intros i p Px Py. apply ex_keeps_away; auto. - revert Px. unfold Rabs. destruct (Rcase_abs _); lra. - revert Py. unfold Rabs. destruct (Rcase_abs _); lra. }
  pose proof (C92_learns la mi gf o HL Hmi Ho Hg (fun _ => game_env) draws (fun i p => (2 * weight (controls (draws i)) * (fst p - -2), 2 * weight (controls (draws i)) * snd p))
    (fun i => game_scene (controls (draws i))) 2%nat f (-2) (1, 1 / 2)) as Q. cbv zeta in Q. rewrite Ex, Ey in Q. apply Q; clear Q.
  - intros i _. split; [now apply ex_filmed|]. split; [now apply ex_opening|now apply ex_moves].
  - intros i p _ Px Py. now apply K.
  - intros i p _ Px Py. cbn [fst snd]. apply (C92_gradient la mi gf o HL Hmi Ho Hg _ _ (game_scene (controls (draws i)))); [now apply ex_filmed|now apply ex_opening|now apply ex_moves|now apply K].
Qed.
