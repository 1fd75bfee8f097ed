(** The loop of run_breakout plays the actions in order *)
From Coq Require Import List Arith ZArith Lia Bool Reals Lra.
From Verif Require Import Num Tensor Utils Bodies Forces Constraints Contacts World Lapack Engines Breakout Game
     Spec GeoSpec BodySpec JointSpec FreshSpec ContactSpec LapackSpec EngineSpec GameSpec RoundSpec ResFacts RBase BodyFacts RigidFacts GeomFacts BodyReach WorldFacts HandlerFacts
     LayoutFacts HistFacts SatFacts FreshFacts CollideFacts EngineFacts MomentumFacts EngineProps EngineMore StrictSpec StrictFacts TimeFacts GameFacts GameProps.
Import ListNotations.
Open Scope R_scope.

Lemma upd_other {A} (l : list A) i k a d : k <> i -> nth k (upd l i a) d = nth k l d.
Proof. revert i k. induction l as [|x l IH]; intros [|i] [|k] H; cbn; auto; try congruence. Qed.
Lemma upd_here {A} (l : list A) i a d : (i < length l)%nat -> nth i (upd l i a) d = a.
Proof. revert i. induction l as [|x l IH]; intros [|i] H; cbn in *; try lia; auto. apply IH. lia. Qed.
Section Loop.
Variables (o : oracle R) (hd : handler R) (e : engine R) (g : nat) (rt v : R) (i : nat) (P : world R -> Prop).
Hypothesis Pon : forall w w' ops, P w -> exec g o hd e ops w = Ok w' -> P w'.
Hypothesis Plen : forall w, P w -> (i < length (w_bodies w))%nat.
Hypothesis Pdt : forall w, P w -> w_dt w = 1.
Lemma loop_rounds f : forall w acts w', P w -> game_loop f g o hd e rt v i acts w = Ok w' ->
  exists n, rounds g o hd e v i (map (fun k => nth k acts (- (1 / 10))) (seq 0 n)) w w' /\ w_t w' = w_t w + INR n /\ rt <= w_t w' /\ (n = 0%nat \/ w_t w' < rt + 1).
Proof.
  induction f as [|f IH]; intros w acts w' Hp H; [discriminate|]. cbn [game_loop] in H. change (nltb (w_t w) rt) with (Rltb (w_t w) rt) in H. destruct (Rltb_spec (w_t w) rt) as [L|L].
  - set (a := match acts with a :: _ => a | [] => _ end) in *. cbv zeta in H. rnum. bind_inv H as w1 E1. bind_inv H as w2 E2. 
    assert (X : exec g o hd e [OSetV (upd (w_v w) (3 * i + 1) (v * a)); OStep true] w = Ok w2) by (cbn [exec]; rnum; rewrite E1; cbn [bind]; rewrite E2; reflexivity).
    pose proof (Pon _ _ _ Hp X) as Hp2. pose proof (set_v_inv _ _ _ E1) as [L1 W1]. rewrite upd_length in L1. pose proof (Plen _ Hp) as Hl.
    assert (T1 : w_t w2 = w_t w + 1).
    { unfold step in E2. apply fixed_step_time in E2; [|rewrite W1; cbn; rewrite (Pdt _ Hp); rnum; lra]. rewrite E2, W1. cbn. rewrite (Pdt _ Hp). reflexivity. }
    destruct (IH w2 (tl acts) w' Hp2 H) as (n & R1 & R2 & R3 & R4).
    exists (S n). split; [|split; [rewrite S_INR; lra|split; [exact R3|right; destruct R4 as [-> |R4]; [cbn in R2; lra|exact R4]]]].
    cbn [seq map]. rewrite <- seq_shift, map_map.
    assert (Ea : nth 0 acts (- (1 / 10)) = a) by (unfold a; destruct acts; reflexivity). rewrite Ea.
    apply (rounds_cons _ _ _ _ _ _ _ _ _ (upd (w_v w) (3 * i + 1) (v * a)) w2); [apply upd_length|apply upd_here; lia|intros k Hk'; now apply upd_other|exact X|].
    replace (map (fun x => nth (S x) acts (- (1 / 10))) (seq 0 n)) with (map (fun k => nth k (tl acts) (- (1 / 10))) (seq 0 n)); [exact R1|]. apply map_ext. intros k. destruct acts; [destruct k|]; reflexivity.
  - exists 0%nat. injection H as <-. split; [constructor|]. cbn [INR]. split; [lra|]. split; [lra|]. now left.
Qed.
End Loop.
Lemma run_rounds la mi gf o paddle blocks ball vel w0 w fuel lfuel rt v acts w' : plain paddle -> Forall plain blocks -> plain_ball ball ->
  make_world o (diff_handler gf o) paddle blocks ball vel = Ok w0 -> game la mi gf o w0 w ->
  game_loop fuel lfuel o (diff_handler gf o) (pdipm_engine la mi) rt v 1 acts w = Ok w' ->
  exists n, rounds lfuel o (diff_handler gf o) (pdipm_engine la mi) v 1 (map (fun k => nth k acts (- (1 / 10))) (seq 0 n)) w w' /\
    w_t w' = w_t w + INR n /\ rt <= w_t w' /\ (n = 0%nat \/ w_t w' < rt + 1).
Proof.
  intros Hp Hb Hball H G. destruct (make_world_setup _ _ _ _ _ _ _ Hp Hb Hball H) as (b0 & rects & St).
  apply (loop_rounds o (diff_handler gf o) (pdipm_engine la mi) lfuel rt v 1 (fun w => exists f ops, exec f o (diff_handler gf o) (pdipm_engine la mi) ops w0 = Ok w)).
  - intros u u' ops (f & l & Hx) Hy. destruct (exec_join _ _ _ _ _ _ _ _ _ _ Hx Hy) as [k Hk]. eauto.
  - intros u (f & l & Hx).
    pose proof (world_steps _ shape_steps _ _ _ _ _ _ _ _ _ _ _ _ _ _ _ _ (diff_handler_frame gf o) (su_init _ _ _ _ _ _ _ _ _ St) Hx) as F. apply Forall2_len in F. cbn [length] in F.
    rewrite (setup_length _ _ _ _ _ _ _ _ _ St) in F. lia.
  - intros u (f & l & Hx). apply exec_cfg in Hx. apply cfg_fields in Hx. destruct Hx as (_ & E1 & _). pose proof (su_init _ _ _ _ _ _ _ _ _ St) as H0. apply world_init_inv in H0. destruct H0 as (E3 & _). rewrite E1, E3. reflexivity.
  - exact (game_exec _ _ _ _ _ _ G).
Qed.
