(** C76: the simulated Breakout game *)
From Coq Require Import List Arith ZArith Lia Bool Reals Lra Floats.
From Verif Require Import Num Tensor Utils Bodies Forces Constraints Contacts World Lapack LapackRef Pdipm Lcp Engines Breakout Screen Game
     Spec GeoSpec BodySpec JointSpec FreshSpec EngineSpec ContactSpec LapackSpec ScreenSpec GameSpec RoundSpec
     RBase ResFacts LuFacts FloatEx RealEx ScreenEx GameFacts GameProps GameStart GameScreen GameState GameTotal GameFree RoundFacts GameEx.
Import ListNotations.
Open Scope R_scope.

(** C76.  Relied on: the world that make_world builds plays Breakout: the paddle stays on its line, a ball that
    hits it comes back, and simulating a state vector for some rounds is playing for some rounds.
    This fails.  (1) Nothing holds the paddle on its line: a ball that comes straight down with speed 4 on a
    paddle at rest is not returned; it pushes the paddle down and turns it. *)
Theorem C76_paddle_refuted :
  exists pb vb pp, returned = Ok (pb, vb, pp) /\
    ((191 + 1 <? snd (snd pp)) && (0.25 <? fst pp) && (1 <? snd (snd vb)) && (snd (snd pb) <? snd (snd pp)))%float%bool = true.
Proof.
  assert (E : res_check returned (fun r => let '(pb, vb, pp) := r in ((191 + 1 <? snd (snd pp)) && (0.25 <? fst pp) && (1 <? snd (snd vb)) && (snd (snd pb) <? snd (snd pp)))%float%bool) = true) by (vm_compute; reflexivity).
  apply res_check_ok in E. destruct E as ([[pb vb] pp] & E1 & E). exists pb, vb, pp. auto.
Qed.
Print Assumptions C76_paddle_refuted.
(** (2) simulate_breakout then sets the angle to 0 but leaves the vertices turned: the corner of the 16 x 4
    paddle that belongs at (8, 2) is higher than 3.5. *)
Theorem C76_angle_refuted : exists r v, simulated = Ok (r, v) /\ ((r =? 0) && (3.5 <? snd v))%float%bool = true.
Proof.
  assert (E : res_check simulated (fun r => ((fst r =? 0) && (3.5 <? snd (snd r)))%float%bool) = true) by (vm_compute; reflexivity).
  apply res_check_ok in E. destruct E as ([r v] & E1 & E). exists r, v. auto.
Qed.
Print Assumptions C76_angle_refuted.
(** (3) The planner's dynamics start every round with the same velocity of the ball: after a bounce off the
    wall the planned ball moves to the wall again, the played one away from it. *)
Theorem C76_plan_refuted : planned = Ok 10%float /\ played = Ok 12%float.
Proof. split; vm_compute; reflexivity. Qed.
Print Assumptions C76_plan_refuted.

(** What holds.  The world that make_world builds: the bodies fill exactly the given paddle, ball and blocks and
    the walls, roof and stoppers of the screen; only the ball moves; masses 1, restitution 1 except -1 at the
    stoppers, no friction. *)
Theorem C76_layout :
  forall gf o paddle blocks ball vel w,
    plain paddle -> Forall plain blocks -> plain_ball ball -> make_world o (diff_handler gf o) paddle blocks ball vel = Ok w ->
    Forall2 fills (w_bodies w) (board paddle blocks ball) /\
    (exists u, to_v3 vel = Ok u /\ map b_v (w_bodies w) = u :: repeat (0, (0, 0)) (6 + length blocks)) /\
    map b_rot (w_bodies w) = repeat 0 (7 + length blocks) /\ map b_mass (w_bodies w) = repeat 1 (7 + length blocks) /\
    map b_rest (w_bodies w) = [1; 1; 1; 1; 1; -1; -1] ++ repeat 1 (length blocks) /\
    map b_fric (w_bodies w) = repeat 0 (7 + length blocks).
Proof. exact game_layout. Qed.
Print Assumptions C76_layout.
(** make_world returns for every position in which nothing that may touch overlaps, the blocks hang in
    the upper half and the paddle is a tenth away from stoppers and blocks *)
Theorem C76_starts :
  forall gf o paddle blocks ball vel u,
    (18 <= gf)%nat -> broadphase_sane o -> startable paddle blocks ball -> to_v3 vel = Ok u ->
    exists w, make_world o (diff_handler gf o) paddle blocks ball vel = Ok w.
Proof. exact make_world_starts. Qed.
Print Assumptions C76_starts.
(** ... and these include what the screen reader reads off a frame: the pieces of the game are the pixels
    of the picture *)
Theorem C76_screen :
  forall gf o f p fuel vel u,
    (18 <= gf)%nat -> broadphase_sane o -> shows f p -> readable p -> Forall (fun l => (length l < fuel)%nat) (pc_blocks p) ->
    (9 <= pc_paddle p)%nat ->
    (forall b, pc_ball p = Some b -> 31 <= bx_top b /\ 8 <= bx_left b /\ bx_left b + bx_width b <= 152)%nat -> to_v3 vel = Ok u ->
    exists paddle blocks ball w,
      extract_params fuel f = Ok (paddle, blocks, ball) /\ startable paddle blocks ball /\
      make_world o (diff_handler gf o) paddle blocks ball vel = Ok w /\
      (exists c r, board paddle blocks ball =
         [Disc c r; pixels (paddle_box p); Box 0 8 0 189; Box 152 160 0 195; Box 8 152 0 31; Box 0 8 189 195; Box 160 168 189 195] ++ map pixels (all_blocks p) /\
         forall b, pc_ball p = Some b -> centre b = [fst c; snd c] /\ r = Rmin (Rmin (INR (bx_width b)) (INR (bx_height b)) / 2) 1) /\
      Forall2 fills (w_bodies w) (board paddle blocks ball).
Proof. exact screen_game. Qed.
Print Assumptions C76_screen.
(** Whatever actions are played, for however long: walls, roof, stoppers and blocks stay where they are ... *)
Theorem C76_still :
  forall la mi gf o paddle blocks ball vel w0 w i s,
    plain paddle -> Forall plain blocks -> plain_ball ball -> lapack_ok la -> broadphase_sane o ->
    make_world o (diff_handler gf o) paddle blocks ball vel = Ok w0 -> game la mi gf o w0 w ->
    (2 <= i)%nat -> nth_error (board paddle blocks ball) i = Some s ->
    exists b, nth_error (w_bodies w) i = Some b /\ fills b s /\ b_rot b = 0.
Proof. exact game_still. Qed.
Print Assumptions C76_still.
(** ... contacts are only between the ball and paddle, walls, roof or blocks, and between the paddle and stoppers
    or blocks (so the paddle passes through the right wall up to the right stopper, and the ball through the
    stoppers) ... *)
Theorem C76_contacts :
  forall la mi gf o paddle blocks ball vel w0 w c,
    plain paddle -> Forall plain blocks -> plain_ball ball -> lapack_ok la -> broadphase_sane o ->
    Forall (fun p => hanging (box_of p)) blocks ->
    make_world o (diff_handler gf o) paddle blocks ball vel = Ok w0 -> game la mi gf o w0 w -> In c (w_contacts w) ->
    may_touch (c_i1 c) (c_i2 c) \/ may_touch (c_i2 c) (c_i1 c).
Proof. exact game_contacts. Qed.
Print Assumptions C76_contacts.
(** ... one action takes one unit of time, in steps of step_dt; if the paddle touches nothing in them it moves by
    exactly action times paddle velocity, and so does the ball by its velocity ... *)
Theorem C76_moves :
  forall la mi gf o paddle blocks ball vel w0 w fuel a vx vy w',
    plain paddle -> Forall plain blocks -> plain_ball ball -> snd ball <> 0 -> lapack_ok la -> broadphase_sane o ->
    make_world o (diff_handler gf o) paddle blocks ball vel = Ok w0 -> game la mi gf o w0 w ->
    step_breakout fuel o (diff_handler gf o) (pdipm_engine la mi) w 1 a vx vy = Ok w' ->
    w_t w' = w_t w + 1 /\
    exists w1 l, substeps fuel o (diff_handler gf o) (pdipm_engine la mi) w1 l w' /\
      map b_p (w_bodies w1) = map b_p (w_bodies w) /\ w_contacts w1 = w_contacts w /\
      forall i b, (i < 2)%nat -> nth_error (w_bodies w) i = Some b -> (forall u, In u l -> no_contact_of u i) ->
        exists b', nth_error (w_bodies w') i = Some b' /\ b_v b' = pushed a vx vy i (b_v b) /\
          b_p b' = v3add (b_p b) (pushed a vx vy i (b_v b)).
Proof. exact game_moves. Qed.
Print Assumptions C76_moves.
(** ... and no action and no run raises an exception (it returns, or halves its step for ever). *)
Theorem C76_no_exception :
  forall la mi gf o, lapack_ok la -> (0 < mi)%nat -> broadphase_sane o -> (18 <= gf)%nat ->
  forall paddle blocks ball vel w0 w,
    plain paddle -> Forall plain blocks -> plain_ball ball -> Forall sized (board paddle blocks ball) -> 0 < snd ball ->
    make_world o (diff_handler gf o) paddle blocks ball vel = Ok w0 -> game la mi gf o w0 w ->
    (forall fuel a vx vy x, step_breakout fuel o (diff_handler gf o) (pdipm_engine la mi) w 1 a vx vy = Err x -> x = EFuel) /\
    (forall fuel lfuel rt v actions x, game_loop fuel lfuel o (diff_handler gf o) (pdipm_engine la mi) rt v 1 actions w = Err x -> x = EFuel).
Proof. exact game_no_raise. Qed.
Print Assumptions C76_no_exception.

(** The state vector.  simulate_breakout returns the vector of the new positions with the sizes and the blocks
    the game was made with, and writes back what is there already, except for the angles of ball and
    paddle; without blocks it raises. *)
Theorem C76_state :
  forall la mi gf o paddle blocks ball vel w0 w fuel a vx vy w',
    plain paddle -> Forall plain blocks -> plain_ball ball -> lapack_ok la -> broadphase_sane o ->
    make_world o (diff_handler gf o) paddle blocks ball vel = Ok w0 -> game la mi gf o w0 w ->
    step_breakout fuel o (diff_handler gf o) (pdipm_engine la mi) w 1 a vx vy = Ok w' ->
    exists b p rest, w_bodies w' = b :: p :: rest /\
      simulate_breakout fuel o (diff_handler gf o) (pdipm_engine la mi) a vx vy w =
      match blocks with
      | [] => Err EValue
      | _ => Ok (to_vector ([fst (b_pos p); snd (b_pos p)], snd paddle) blocks ([fst (b_pos b); snd (b_pos b)], snd ball),
                 with_bodies w' (angle_cleared b :: angle_cleared p :: rest))
      end.
Proof. exact game_state. Qed.
Print Assumptions C76_state.
(** The planner's dynamics: the state vector of a new game after one action; the sizes and the blocks
    survive (a placeholder block appears when there are none), and what touches nothing moves
    exactly by its velocity. *)
Theorem C76_forward :
  forall la mi gf o paddle blocks ball vel v0 vx vy u fuel y,
    plain paddle -> Forall plain blocks -> plain_ball ball -> snd ball <> 0 -> lapack_ok la -> broadphase_sane o -> to_v3 vel = Ok v0 ->
    forward fuel o (diff_handler gf o) (pdipm_engine la mi) vel vx vy (to_vector paddle blocks ball) u = Ok y ->
    exists w l w' q r, substeps fuel o (diff_handler gf o) (pdipm_engine la mi) w l w' /\
      y = to_vector (q, snd paddle) (seen blocks) (r, snd ball) /\
      ((forall s, In s l -> no_contact_of s 1) -> q = [nth 0 (fst paddle) 0 + vx * u; nth 1 (fst paddle) 0 + vy * u]) /\
      ((forall s, In s l -> no_contact_of s 0) -> r = [nth 0 (fst ball) 0 + fst (snd v0); nth 1 (fst ball) 0 + snd (snd v0)]).
Proof. exact forward_moves. Qed.
Print Assumptions C76_forward.
(** ... so in a plan of any length the sizes and the blocks stay what they were ... *)
Theorem C76_plan :
  forall la mi gf o fuel vel vx vy x us z,
    lapack_ok la -> broadphase_sane o -> plan fuel o (diff_handler gf o) (pdipm_engine la mi) vel vx vy x us z ->
    forall paddle blocks ball, plain paddle -> Forall plain blocks -> plain_ball ball -> x = to_vector paddle blocks ball ->
    exists q r, plain (q, snd paddle) /\ plain_ball (r, snd ball) /\ z = to_vector (q, snd paddle) (seen blocks) (r, snd ball).
Proof. exact plan_sizes. Qed.
Print Assumptions C76_plan.
(** ... and no round of it that begins in a position from which a game can start raises an exception. *)
Theorem C76_forward_no_exception :
  forall la mi gf o, lapack_ok la -> (0 < mi)%nat -> broadphase_sane o -> (18 <= gf)%nat ->
  forall paddle blocks ball vel u0 vx vy a fuel x,
    Forall plain blocks -> startable paddle (seen blocks) ball -> 0 < snd ball -> to_v3 vel = Ok u0 ->
    forward fuel o (diff_handler gf o) (pdipm_engine la mi) vel vx vy (to_vector paddle blocks ball) a = Err x -> x = EFuel.
Proof. exact forward_no_raise. Qed.
Print Assumptions C76_forward_no_exception.

(** Rounds in which nothing comes near anything.  If in a game the paddle, moved by the actions, and the ball,
    moved by its velocity, are more than a tenth from everything they may touch at the ends of all
    rounds, every action returns after one step and the game is what one expects ... *)
Theorem C76_free_game :
  forall la mi gf o, lapack_ok la -> (0 < mi)%nat -> broadphase_sane o -> (18 <= gf)%nat ->
  forall paddle blocks ball vel u w0 f vx vy acts,
    startable paddle blocks ball -> 0 < snd ball -> to_v3 vel = Ok u -> make_world o (diff_handler gf o) paddle blocks ball vel = Ok w0 ->
    (forall k, (k <= length acts)%nat ->
       uncrowded (shifted (vx * total (firstn k acts)) (vy * total (firstn k acts)) paddle) blocks (shifted (INR k * fst (snd u)) (INR k * snd (snd u)) ball)) ->
    exists w, play (S (S f)) o (diff_handler gf o) (pdipm_engine la mi) vx vy acts w0 = Ok w /\ game la mi gf o w0 w /\ w_t w = INR (length acts) /\ w_contacts w = [] /\
      Forall2 fills (w_bodies w) (board (shifted (vx * total acts) (vy * total acts) paddle) blocks (shifted (INR (length acts) * fst (snd u)) (INR (length acts) * snd (snd u)) ball)).
Proof. exact free_game. Qed.
Print Assumptions C76_free_game.
(** ... and the planner's dynamics predict it: until something comes near, plans are right. *)
Theorem C76_free_plan :
  forall la mi gf o, lapack_ok la -> (0 < mi)%nat -> broadphase_sane o -> (18 <= gf)%nat ->
  forall vel u f vx vy acts, to_v3 vel = Ok u ->
  forall paddle blocks ball, startable paddle blocks ball -> blocks <> [] -> 0 < snd ball ->
    (forall k, (k <= length acts)%nat ->
       uncrowded (shifted (vx * total (firstn k acts)) (vy * total (firstn k acts)) paddle) blocks (shifted (INR k * fst (snd u)) (INR k * snd (snd u)) ball)) ->
    plan (S (S f)) o (diff_handler gf o) (pdipm_engine la mi) vel vx vy (to_vector paddle blocks ball) acts
      (to_vector (shifted (vx * total acts) (vy * total acts) paddle) blocks (shifted (INR (length acts) * fst (snd u)) (INR (length acts) * snd (snd u)) ball)).
Proof. exact free_plan. Qed.
Print Assumptions C76_free_plan.

(** The loop of run_breakout plays the actions in order, -0.1 when there are none left: one round of one unit of
    time each, until run_time is reached and no longer. *)
Theorem C76_run :
  forall la mi gf o paddle blocks ball vel w0 w fuel lfuel run_time v actions w',
    plain paddle -> Forall plain blocks -> plain_ball ball ->
    make_world o (diff_handler gf o) paddle blocks ball vel = Ok w0 -> game la mi gf o w0 w ->
    game_loop fuel lfuel o (diff_handler gf o) (pdipm_engine la mi) run_time v 1 actions w = Ok w' ->
    exists n, rounds lfuel o (diff_handler gf o) (pdipm_engine la mi) v 1 (map (fun k => nth k actions (- (1 / 10))) (seq 0 n)) w w' /\
      w_t w' = w_t w + INR n /\ run_time <= w_t w' /\ (n = 0%nat \/ w_t w' < run_time + 1).
Proof. exact run_rounds. Qed.
Print Assumptions C76_run.
(** three rounds with two actions (binary64): 80 + 2 + 1 - 0.2 *)
Example C76_run_case : exists t x, looped = Ok (t, x) /\ (t =? 3)%float = true /\ (82.75 <? x)%float = true /\ (x <? 82.875)%float = true.
Proof. do 2 eexists. split; [vm_compute; reflexivity|]. repeat split; vm_compute; reflexivity. Qed.

(** a position: paddle in the middle, one block, the ball half-way up *)
Example C76_case : startable ([80; 191], [16; 4]) [([20; 60], [8; 6])] ([84; 120], 1).
Proof.
  assert (P : forall x y w h : R, 0 < w -> 0 < h -> plain ([x; y], [w; h])) by (intros; do 4 eexists; split; [reflexivity|auto]).
  constructor.
  - apply P; lra.
  - repeat constructor. apply P; lra.
  - do 2 eexists. reflexivity.
  - unfold board, box_of, disc_of. cbn. repeat constructor; cbn; lra.
  - repeat constructor; cbn; lra.
  - repeat constructor; cbn; lra.
  - intros j s [[H _]|[_ H]] Hs; [discriminate|]. do 8 (destruct j as [|j]; [try lia; cbn in Hs; injection Hs as <-; cbn; lra|]). destruct j; discriminate.
  - intros j s [[_ H]|[H _]] Hs; [|discriminate]. do 8 (destruct j as [|j]; [try lia; cbn in Hs; injection Hs as <-; cbn; lra|]). destruct j; discriminate.
Qed.
(** sixteen rounds of any actions between -1 and 1: the ball comes down, the paddle moves *)
Example C76_free_case : forall acts, (length acts <= 16)%nat -> Forall (fun a => -1 <= a <= 1) acts -> forall k, (k <= length acts)%nat ->
  uncrowded (shifted (2 * total (firstn k acts)) (0 * total (firstn k acts)) ([80; 191], [16; 4])) [([20; 60], [8; 6])] (shifted (INR k * fst (snd (0, (0, 4)))) (INR k * snd (snd (0, (0, 4)))) ([84; 120], 1)).
Proof.
  intros acts Hl Ha k Hk.
  assert (B : - INR (length acts) <= total (firstn k acts) <= INR (length acts)).
  { clear Hl. revert acts Ha Hk. induction k as [|k IH]; intros acts Ha Hk; [cbn; pose proof (pos_INR (length acts)); lra|]. destruct Ha as [|a acts H Ha]; [cbn in Hk; lia|].
    cbn [firstn total fold_right length]. rewrite S_INR. specialize (IH acts Ha ltac:(cbn in Hk; lia)). unfold total in IH. lra. }
  apply le_INR in Hl. assert (K : 0 <= INR k <= 16). { split; [apply pos_INR|]. apply le_INR in Hk. replace (INR 16) with 16 in Hl by (cbn; lra). lra. }
  replace (INR 16) with 16 in Hl by (cbn; lra). set (t := total (firstn k acts)) in *. clearbody t. set (x := INR k) in *. clearbody x. split.
  - intros j s [[H _]|[_ H]] Hs; [discriminate|]. do 8 (destruct j as [|j]; [try lia; cbn in Hs; injection Hs as <-; cbn; lra|]). destruct j; discriminate.
  - intros j s [[_ H]|[H _]] Hs; [|discriminate]. do 8 (destruct j as [|j]; [try lia; cbn in Hs; injection Hs as <-; cbn; lra|]). destruct j; discriminate.
Qed.
