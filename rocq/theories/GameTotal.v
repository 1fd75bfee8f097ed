(** The simulated Breakout game: no exceptions *)
From Coq Require Import List Arith ZArith Lia Bool Reals Lra.
From Verif Require Import Num Tensor Utils Bodies Forces Constraints Contacts World Lapack Engines Breakout Screen Game
     Spec GeoSpec BodySpec JointSpec FreshSpec ContactSpec LapackSpec EngineSpec StrictSpec ScreenSpec GameSpec ResFacts RBase BodyFacts RigidFacts GeomFacts BodyReach WorldFacts HandlerFacts
     LayoutFacts HistFacts UtilFacts TimeFacts RunTotal StrictFacts NoRaise GameFacts GameProps GameStart GameState.
Import ListNotations.
Open Scope R_scope.

Lemma totals_loop_free (bs : list (body R)) : NoDup (map b_id bs) -> loop_free (map total_init bs).
Proof.
  induction bs as [|b l IH]; cbn [map]; intros H; [constructor|]. inversion H as [|? ? Hn Hd]; subst.
  apply (loop_free_add [] (total_init b) (map total_init l)); [exact (IH Hd)|]. left. exists (b_id b). split.
  - left. unfold total_init. now destruct (cart_to_polar _).
  - cbn [app]. intros j Hj. apply in_map_iff in Hj. destruct Hj as (c & <- & Hc). unfold touches, total_init. destruct (cart_to_polar _). cbn. intros [E|E]; [|discriminate]. apply Hn. rewrite <- E. now apply in_map.
Qed.
Lemma setup_smooth gf o paddle blocks ball vel w0 b0 rects : (18 <= gf)%nat -> broadphase_sane o -> Forall sized (board paddle blocks ball) -> 0 < snd ball ->
  setup (st := true) o (diff_handler gf o) paddle blocks ball vel w0 b0 rects -> smooth_strict gf (b0 :: rects) (map total_init (tl rects)) w0.
Proof.
  intros Hg Ho Hs Hr St. pose proof (su_ball _ _ _ _ _ _ _ _ _ St) as (_ & Q1 & Q2 & Q3 & _ & _ & Q4 & Q5). pose proof (su_rects _ _ _ _ _ _ _ _ _ St) as FR.
  pose proof (setup_ids _ _ _ _ _ _ _ _ _ St) as Id.
  assert (ND : NoDup (map b_id (b0 :: rects))) by (rewrite Id; apply seq_NoDup).
  assert (RB : Forall (fun b => exists x, rect_body x b) rects). { clear - FR. revert FR. generalize (entries paddle blocks). intros l F. induction F; constructor; eauto. }
  pose proof (parts_manageable gf _ _ _ _ _ Hg Hs (su_ball_kind _ _ _ _ _ _ _ _ _ St) Q5 FR) as PM.
  constructor.
  - exact ND.
  - apply Forall_forall. intros j Hj. apply in_map_iff in Hj. destruct Hj as (b & <- & Hb). apply built_total. right. destruct rects; [destruct Hb|right; exact Hb].
  - eapply Forall_impl; [|exact PM]. cbv beta. intros b Hb. exact (proj1 Hb).
  - eapply Forall_impl; [|exact PM]. cbv beta. intros b Hb. exact (proj2 Hb).
  - constructor; [rewrite Q1, Q2; split; [lra|nra]|]. eapply Forall_impl; [|exact RB]. intros b (x & a & c & w & h & _ & Hw & Hh & _ & _ & _ & _ & -> & -> & _). split; [lra|nra].
  - constructor; [exact Q3|]. eapply Forall_impl; [|exact RB]. intros b (x & a & c & w & h & H). tauto.
  - apply totals_loop_free. cbn [map] in ND. inversion ND as [|? ? _ ND1]; subst. destruct rects as [|r rects]; [constructor|]. cbn [map tl] in *. now inversion ND1.
  - intros t. unfold world_apply_forces.
    assert (F : Forall (fun b => b_forces b = []) (w_bodies w0)).
    { pose proof (init_forget _ _ _ _ _ _ _ _ _ _ _ _ (diff_handler_frame gf o) (su_init _ _ _ _ _ _ _ _ _ St)) as E.
      assert (F0 : Forall (fun b => b_forces b = []) (b0 :: rects)). { constructor; [exact Q4|]. eapply Forall_impl; [|exact RB]. intros b (x & a & c & w & h & H). tauto. }
      assert (Em : map b_forces (w_bodies w0) = map b_forces (b0 :: rects)). { apply map_forget_eq; [|exact E]. intros b. now destruct b as [? [] ? ? ? ? ? ? ? ? ?]. }
      apply Forall_forall. intros b Hb. apply (in_map b_forces) in Hb. rewrite Em in Hb. apply in_map_iff in Hb. destruct Hb as (c & Ec & Hc). rewrite Forall_forall in F0. rewrite <- Ec. auto. }
    clear - F. assert (H : exists fs, mapM (fun b => body_apply_forces (w_heap w0) b t) (w_bodies w0) = Ok fs).
    { induction F as [|b l Hb F [fs IH]]; [exists []; reflexivity|]. cbn [mapM]. unfold body_apply_forces at 1. rewrite Hb. cbn. rewrite IH. eexists. reflexivity. }
    destruct H as [fs ->]. eexists. reflexivity.
  - pose proof (su_init _ _ _ _ _ _ _ _ _ St) as H0. apply world_init_inv in H0. tauto.
Qed.

Section Total.
Variables (la : lapack R) (mi gf : nat) (o : oracle R).
Hypothesis HL : lapack_ok la.
Hypothesis Hmi : (0 < mi)%nat.
Hypothesis Ho : broadphase_sane o.
Hypothesis Hg : (18 <= gf)%nat.
Notation hd := (diff_handler gf o).
Notation eng := (pdipm_engine la mi).
Lemma game_calm paddle blocks ball vel w0 w : plain paddle -> Forall plain blocks -> plain_ball ball -> Forall sized (board paddle blocks ball) -> 0 < snd ball ->
  make_world o hd paddle blocks ball vel = Ok w0 -> game la mi gf o w0 w -> exists P, returns_on P o hd eng /\ P w.
Proof.
  intros Hp Hb Hball Hs Hr H G. destruct (make_world_setup _ _ _ _ _ _ _ Hp Hb Hball H) as (b0 & rects & St). pose proof (setup_smooth _ _ _ _ _ _ _ _ _ Hg Ho Hs Hr St) as SS.
  destruct (game_exec _ _ _ _ _ _ G) as (fuel & ops & Hx). eexists. split.
  - exact (strict_returns la mi gf o _ _ _ HL Hmi Ho SS).
  - exact (strict_calm_exec la mi gf o _ _ _ Ho SS [] DT EPSILON TOL 2 false (su_init _ _ _ _ _ _ _ _ _ St) fuel ops w Hx).
Qed.
Lemma game_no_raise paddle blocks ball vel w0 w : plain paddle -> Forall plain blocks -> plain_ball ball -> Forall sized (board paddle blocks ball) -> 0 < snd ball ->
  make_world o hd paddle blocks ball vel = Ok w0 -> game la mi gf o w0 w ->
  (forall fuel a vx vy x, step_breakout fuel o hd eng w 1 a vx vy = Err x -> x = EFuel) /\
  (forall fuel lfuel rt v actions x, game_loop fuel lfuel o hd eng rt v 1 actions w = Err x -> x = EFuel).
Proof.
  intros Hp Hb Hball Hs Hr H G. destruct (game_calm _ _ _ _ _ _ Hp Hb Hball Hs Hr H G) as (P & HP & Pw). split; intros.
  - pose proof (breakout_keeps _ _ _ _ HP fuel w 1 a vx vy Pw) as K. rewrite H0 in K. exact K.
  - pose proof (game_loop_keeps _ _ _ _ HP fuel lfuel rt v 1 actions w Pw) as K. rewrite H0 in K. exact K.
Qed.
Lemma forward_no_raise paddle blocks ball vel u0 vx vy a fuel x : Forall plain blocks -> startable paddle (seen blocks) ball -> 0 < snd ball -> to_v3 vel = Ok u0 ->
  forward fuel o hd eng vel vx vy (to_vector paddle blocks ball) a = Err x -> x = EFuel.
Proof.
  intros Hb ST Hr Hv. destruct (make_world_starts gf o _ _ _ vel u0 Hg Ho ST Hv) as [w Hw]. destruct ST as [S1 S2 S3 S4 S5 S6 S7 S8].
  unfold forward. rewrite from_seen by assumption. rewrite Hw. cbn [bind]. intros E.
  destruct (step_breakout fuel o hd eng w 1 a vx vy) as [w'|y] eqn:Ex.
  - destruct (game_state la mi gf o _ _ _ vel w w fuel a vx vy w' S1 S2 S3 HL Ho Hw (game_start _ _ _ _ _) Ex) as (b & p & rest & _ & Es). rewrite Es in E. pose proof (seen_ne blocks). destruct (seen blocks); [congruence|discriminate].
  - unfold simulate_breakout in E. rewrite Ex in E. cbn in E. injection E as <-. exact (proj1 (game_no_raise _ _ _ _ _ _ S1 S2 S3 S4 Hr Hw (game_start _ _ _ _ _)) _ _ _ _ _ Ex).
Qed.
End Total.
