(** C78: what the planner of the breakout experiment minimises *)
From Coq Require Import List Arith ZArith Bool Reals Lra Lia.
From Verif Require Import Num Tensor Utils Bodies Contacts World Lapack Engines Breakout Game Plan Spec ScreenSpec GeoSpec GameSpec LapackSpec PlanSpec
     RBase LinAlg HandlerFacts PlanProps.
Import ListNotations.
Open Scope R_scope.

(** One cost matrix per frame.  Any state and control cost the squared horizontal distance of paddle and
    ball if the paddle is to follow the ball at that frame, plus the squared control times [lambda_a],
    plus, if asked for, ten times the square of the ball's height. *)
Theorem C78_cost :
  forall paddle blocks ball na horizon vy lambda centering vert t,
    plain paddle -> Forall plain blocks -> plain_ball ball -> (t < horizon)%nat ->
    exists Q, nth_error (cost_matrices (to_vector paddle blocks ball) na horizon vy lambda centering vert) t = Some Q /\
      forall paddle' blocks' ball' u, plain paddle' -> Forall plain blocks' -> plain_ball ball' -> length (seen blocks') = length (seen blocks) -> length u = na ->
        (follows (ypos paddle) (ypos ball) vy centering t ->
           quad Q (to_vector paddle' blocks' ball' ++ u) = (xpos paddle' - xpos ball') ^ 2 + lambda * squares u + (if vert then 10 * ypos ball' ^ 2 else 0)) /\
        (~ follows (ypos paddle) (ypos ball) vy centering t ->
           quad Q (to_vector paddle' blocks' ball' ++ u) = lambda * squares u + (if vert then 10 * ypos ball' ^ 2 else 0)).
Proof. exact planner_cost. Qed.
Print Assumptions C78_cost.
Theorem C78_frames : forall (s : vec R) na horizon vy lambda centering vert, length (cost_matrices s na horizon vy lambda centering vert) = horizon.
Proof. exact cost_length. Qed.
Print Assumptions C78_frames.

(** A ball that comes down from above the paddle's line is followed until one frame after it gets there; ... *)
Theorem C78_coming : forall py by_ vy centering t, 0 < vy -> by_ <= py -> (follows py by_ vy centering t <-> by_ + (INR t - 1) * vy <= py).
Proof. exact follows_above. Qed.
Print Assumptions C78_coming.
(** ... one that has passed the line, in the first frame and the next, and only shortly; ... *)
Theorem C78_passed : forall py by_ vy centering t, 0 < vy -> py < by_ -> (follows py by_ vy centering t <-> t = 0%nat /\ by_ < py + 2 * vy \/ t = 1%nat /\ by_ < py + vy).
Proof. exact follows_below. Qed.
Print Assumptions C78_passed.
(** ... one that rises or rests, only if it is far off the screen and [centering] is on. *)
Theorem C78_otherwise : forall py by_ vy centering t, vy <= 0 -> (follows py by_ vy centering t <-> centering = true /\ 1000 < by_).
Proof. exact follows_else. Qed.
Print Assumptions C78_otherwise.

(** The velocity the planner is told is the ball's displacement since the last frame. *)
Theorem C78_velocity :
  forall paddle blocks ball paddle' blocks' ball',
    plain paddle -> Forall plain blocks -> plain_ball ball -> plain paddle' -> Forall plain blocks' -> plain_ball ball' ->
    ball_velocity (to_vector paddle blocks ball) (to_vector paddle' blocks' ball') = [xpos ball' - xpos ball; ypos ball' - ypos ball].
Proof. exact velocity_is. Qed.
Print Assumptions C78_velocity.
(** With the ball missing in two frames the paddle is sent to the middle of the screen exactly if
    [centering] is on; in the frame in which the ball vanishes it is sent there for one or two frames.
    (The reader puts a missing ball at (80, 21000), C74.) *)
Theorem C78_missing :
  forall py centering t, follows py (ypos ([80; 21000], 1)) 0 centering t <-> centering = true.
Proof. intros py cen t. rewrite follows_else by lra. unfold ypos. cbn. split; [tauto|]. intros H. split; [exact H|lra]. Qed.
Print Assumptions C78_missing.
Theorem C78_vanishing :
  forall py y centering t, 0 <= py <= 210 -> 0 <= y <= 210 ->
    (follows py (ypos ([80; 21000], 1)) (ypos ([80; 21000], 1) - y) centering t <-> t = 0%nat \/ t = 1%nat /\ y < py).
Proof.
  intros py y cen t Hp Hy. unfold ypos. cbn [fst nth]. rewrite follows_below by lra. split.
  - intros [[H _]|[H1 H2]]; [now left|]. right. split; [exact H1|lra].
  - intros [H|[H1 H2]]; [left|right]; (split; [assumption|lra]).
Qed.
Print Assumptions C78_vanishing.

(** The direction in the plan is the direction of the action sent: with the control [a], the simulated paddle moves
    by [adjusted v * a] per frame (C76_forward), to the left for action 3, to the right for action 2,
    and never by more than [v]. *)
Theorem C78_direction :
  forall solver horizon lambda threshold centering prev s v,
    0 < threshold -> 0 < v ->
    let vel := ball_velocity prev s in
    let a := solver vel (cost_matrices s 1 horizon (vget vel 1) lambda centering false) s in
    match choose solver horizon lambda threshold centering prev s with
    | 3%nat => adjusted v * a <= - (v * threshold)
    | 2%nat => v * threshold <= adjusted v * a
    | n => n = 0%nat /\ Rabs (adjusted v * a) < v * threshold
    end /\ (Rabs a <= 1 -> Rabs (adjusted v * a) <= v).
Proof.
  intros solver hz lam th cen prev s v Ht Hv vel a. unfold choose. fold vel. fold a. clearbody a.
  assert (E : adjusted v * a = - (v * a)) by (unfold adjusted, DT; rnum; field). rewrite E, Rabs_Ropp, Rabs_mult, (Rabs_pos_eq v) by lra.
  split; [|intros H; nra]. unfold get_action. change (nabs a) with (Rabs a). destruct (nleb _ _) eqn:E1.
  - apply Rleb_true in E1. change (1 * th <= Rabs a) in E1. destruct (nltb _ _) eqn:E2.
    + apply Rltb_true in E2. change (0 < a) in E2. rewrite Rabs_pos_eq in E1 by lra. nra.
    + apply Rltb_false in E2. change (a <= 0) in E2. rewrite Rabs_left1 in E1 by lra. nra.
  - apply Rleb_false in E1. change (Rabs a < 1 * th) in E1. split; [reflexivity|nra].
Qed.
Print Assumptions C78_direction.

(** The cost of a plan: as long as nothing comes near anything, the sum over the frames of the squared horizontal
    distance between where the controls bring the paddle and where the ball flies, at the frames
    at which it is followed, plus the controls. *)
Theorem C78_free_plan :
  forall la mi gf o, lapack_ok la -> (0 < mi)%nat -> broadphase_sane o -> (18 <= gf)%nat ->
  forall vel u f vx vy us paddle blocks ball lambda centering vb,
    to_v3 vel = Ok u -> us <> [] -> startable paddle blocks ball -> blocks <> [] -> 0 < snd ball ->
    (forall k, (k < length us)%nat ->
       uncrowded (shifted (vx * total (firstn k us)) (vy * total (firstn k us)) paddle) blocks (shifted (INR k * fst (snd u)) (INR k * snd (snd u)) ball)) ->
    exists gap : nat -> R,
      (forall t, (t < length us)%nat ->
         (follows (ypos paddle) (ypos ball) vb centering t -> gap t = (xpos paddle + vx * total (firstn t us)) - (xpos ball + INR t * fst (snd u))) /\
         (~ follows (ypos paddle) (ypos ball) vb centering t -> gap t = 0)) /\
      forall c, plan_cost (S (S f)) o (diff_handler gf o) (pdipm_engine la mi) vel vx vy (to_vector paddle blocks ball) us
                  (cost_matrices (to_vector paddle blocks ball) 1 (length us) vb lambda centering false) c <->
        c = Rsum (map (fun t => gap t ^ 2 + lambda * nth t us 0 ^ 2) (seq 0 (length us))).
Proof. intros la mi gf o HL Hm Ho Hg. exact (free_plan_cost la mi gf o HL Hm Ho Hg). Qed.
Print Assumptions C78_free_plan.

(** Finding: "place ball far off when it falls off screen to incur high cost" (encoder.py:128) has no
    such effect.  With the settings of run_breakout a state without the ball can cost nothing at all. *)
Theorem C78_offscreen_refuted :
  exists paddle blocks ball Q, plain paddle /\ Forall plain blocks /\ ball = ([80; 21000], 1) /\
    In Q (cost_matrices (to_vector paddle blocks ball) 1 2 0 (1 / 10 ^ 20) true false) /\
    quad Q (to_vector paddle blocks ball ++ [0]) = 0.
Proof.
  assert (P : forall x y w h : R, 0 < w -> 0 < h -> plain ([x; y], [w; h])) by (intros; do 4 eexists; split; [reflexivity|auto]).
  assert (H1 : plain ([80; 191], [16; 4])) by (apply P; lra). assert (H2 : Forall plain [([20; 60], [8; 6])]) by (repeat constructor; apply P; lra). assert (H3 : plain_ball ([80; 21000], 1)) by (do 2 eexists; reflexivity).
  destruct (planner_cost _ _ _ 1 2 0 (1 / 10 ^ 20) true false 0 H1 H2 H3) as (Q & HQ & C); [lia|].
  exists ([80; 191], [16; 4]), [([20; 60], [8; 6])], ([80; 21000], 1), Q. split; [exact H1|]. split; [exact H2|]. split; [reflexivity|]. split; [eapply nth_error_In; exact HQ|].
  destruct (C _ _ _ [0] H1 H2 H3 eq_refl eq_refl) as [C1 _]. rewrite C1; [unfold xpos, squares, Rsum; cbn; ring|]. apply follows_else; [lra|]. unfold ypos. cbn. split; [reflexivity|lra].
Qed.
Print Assumptions C78_offscreen_refuted.

(** a ball 71 above the paddle's line that comes down by 4 per frame is followed at frames 0 to 18 *)
Example C78_case : forall t, follows (ypos ([80; 191], [16; 4])) (ypos ([84; 120], 1)) 4 true t <-> (t <= 18)%nat.
Proof.
  intros t. unfold ypos. cbn [fst nth]. rewrite follows_above by lra. rewrite INR_IZR_INZ. split; intros H.
  - assert (Z.of_nat t < 19)%Z by (apply lt_IZR; lra). lia.
  - assert (Q : IZR (Z.of_nat t) <= 18) by (apply IZR_le; lia). lra.
Qed.
