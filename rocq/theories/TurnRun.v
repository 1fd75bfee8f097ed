(** Whole sessions with a scene of any shapes turned about the origin *)
From Coq Require Import List Arith ZArith Bool Reals Lia Lra Permutation.
From Verif Require Import Num Tensor Utils Bodies Forces Constraints Contacts World Lapack Pdipm Lcp Engines Spec GeoSpec BodySpec JointSpec ContactSpec EngineSpec SymSpec SceneSpec TurnSpec
     RBase ResFacts UtilFacts LinAlg LapackSpec KktSpec PdipmSpec WorldFacts HandlerFacts LayoutFacts HistFacts SysFacts RewindFacts JointFacts JeFacts CacheFacts BodyReach TimeFacts PdipmFacts PdipmLoop SolverFacts EngineFacts
     ContactSys EngineBalance PostFacts LcpSym PlaneFacts BodyFacts GeomFacts ContactFacts ListedFacts SceneFacts SceneContacts SceneEngine SceneSolve SceneRun SceneInit SceneSame TurnFacts.
Import ListNotations.
Open Scope R_scope.

Lemma geom_in_step b : geom_ok b -> in_step b.
Proof. intros (H1 & _ & H3). split; [exact H1|]. destruct (b_kind b); auto. destruct H3 as (_ & _ & H3). exact H3. Qed.
Lemma geom_forget b : geom_ok (forget b) <-> geom_ok b.
Proof. destruct b as [id k p v m it fr re ep fs g]. unfold forget, set_last, geom_ok. cbn [b_kind]. destruct k; cbn; tauto. Qed.
Lemma geoms_forget bs bs1 : map forget bs1 = map forget bs -> Forall geom_ok bs -> Forall geom_ok bs1.
Proof.
  intros E H. assert (G : Forall geom_ok (map forget bs)) by (rewrite Forall_map; revert H; apply Forall_impl; intros b; apply geom_forget).
  rewrite <- E, Forall_map in G. revert G. apply Forall_impl. intros b. apply geom_forget.
Qed.
Section Turned.
Variables (th : R) (gf : nat) (o o' : oracle R).
Hypothesis HO : turned_oracle th o o'.
Notation tb := (turn_body (turned th)).
Notation hd := (diff_handler gf o).
Notation hd' := (diff_handler gf o').
Lemma find_spin w w' : w_bodies w' = map tb (w_bodies w) -> w_eps w' = w_eps w -> w_clk w' = w_clk w -> Forall geom_ok (w_bodies w) ->
  find_contacts o' hd' w' = match find_contacts o hd w with
    | Ok w1 => Ok (with_state w' (map tb (w_bodies w1)) (w_joints w') (w_t w') (w_v w') (map (turn_contact th) (w_contacts w1)) (w_cache w') (w_clk w1))
    | Err e => Err e end.
Proof.
  intros EB Ee Ec HG. destruct HO as [H1 H2]. unfold find_contacts. rewrite EB, Ec, Ee, H1 by (revert HG; apply Forall_impl; exact geom_in_step).
  set (pairs := o_collide _ _ _). clearbody pairs.
  set (F := fun (acc : res (list (contact R) * list (body R) * nat)) '(i1, i2) => do s <- acc; let '(cs, bs, clk) := s in do r <- hd (w_eps w) clk bs i1 i2; let '(new, bs', clk') := r in Ok (cs ++ new, bs', clk')).
  set (F' := fun (acc : res (list (contact R) * list (body R) * nat)) '(i1, i2) => do s <- acc; let '(cs, bs, clk) := s in do r <- hd' (w_eps w) clk bs i1 i2; let '(new, bs', clk') := r in Ok (cs ++ new, bs', clk')).
  assert (G : forall acc, fold_left F' pairs (on_res (sp_out th) acc) = on_res (sp_out th) (fold_left F pairs acc)).
  { induction pairs as [|[i j] l IH]; intros acc; [reflexivity|]. cbn [fold_left]. rewrite <- IH. f_equal. destruct acc as [[[cs bs] clk]|]; [|reflexivity]. cbn [on_res sp_out bind F F'].
    rewrite (spin_handler th gf o o' _ _ _ _ _ H2). destruct (hd (w_eps w) clk bs i j) as [[[new bs1] clk1]|]; cbn [on_res sp_out bind]; [|reflexivity]. now rewrite map_app. }
  specialize (G (Ok ([], w_bodies w, S (w_clk w)))). cbn [on_res sp_out map] in G. rewrite G. destruct (fold_left F pairs _) as [[[cs bs] clk]|]; reflexivity.
Qed.
Variables (la : lapack R) (mi : nat) (pi : list nat).
Hypothesis HL : lapack_ok la.
Variables (bs : list (body R)) (js js' : list (joint R)).
Hypothesis Hs : broadphase_sane o.
Hypothesis Hs' : broadphase_sane o'.
Notation bs' := (map tb bs).
Notation sg := (seq 0 (length bs)).
(** what stays the same: contacts, calls of py3ode and random so far *)
Definition insync (w w' : world R) : Prop := w_clk w' = w_clk w /\ w_contacts w' = map (turn_contact th) (w_contacts w) /\ Forall geom_ok (w_bodies w).
Lemma insync_step w w' w1 w1' : insync w w' -> w_eps w1 = w_eps w -> w_clk w1 = w_clk w -> w_clk w1' = w_clk w' -> w_contacts w1 = w_contacts w -> w_contacts w1' = w_contacts w' ->
  Forall2 (fun b b1 => (circ b -> circ b1) /\ (geom_ok b -> geom_ok b1) /\ same_attrs b b1) (w_bodies w) (w_bodies w1) -> insync w1 w1'.
Proof.
  intros (A & B & C) _ E1 E1' E2 E2' F. split; [congruence|]. split; [congruence|]. apply Forall_forall. intros b1 Hb. destruct (F2_in_r _ _ _ _ F Hb) as (b & Hin & _ & Hg & _). rewrite Forall_forall in C. auto.
Qed.
Lemma list_turned (l l' : list (body R)) : length l = length bs -> listed (brel (turned th)) sg l l' -> l' = map tb l.
Proof. intros E H. rewrite <- E in H. apply listed_seq in H. induction H as [|b b' l l' Hb H IH]; [reflexivity|]. cbn [map] in *. unfold brel in Hb. subst b'. f_equal. clear IH E. induction H as [|c c' l l' Hc H IH]; [reflexivity|]. cbn [map]. unfold brel in Hc. now subst c'; rewrite IH. Qed.
Lemma turned_listed (l : list (body R)) : length l = length bs -> listed (brel (turned th)) sg l (map tb l).
Proof. intros <-. apply listed_id. induction l; constructor; [reflexivity|auto]. Qed.
Lemma contacts_listed n (cs : list (contact R)) : Forall (fun c => (c_i1 c < n)%nat /\ (c_i2 c < n)%nat) cs -> listed (crel (turned th) (seq 0 n)) (seq 0 (length cs)) cs (map (turn_contact th) cs).
Proof.
  intros H. apply listed_id. induction H as [|c cs [H1 H2] H IH]; constructor; auto. left. unfold cdir. cbn [turn_contact c_normal c_p1 c_p2 c_pen c_i1 c_i2]. repeat split; rewrite (nth_error_nth' _ 0%nat) by (rewrite seq_length; assumption); rewrite seq_nth by assumption; reflexivity.
Qed.
Section Worlds.
Variables (J0 J0' : list jent).
Notation related := (related la (turned th) sg bs bs' js js' J0 J0' insync).
Lemma find_turned w w' : related w w' -> alike related (find_contacts o hd w) (find_contacts o' hd' w').
Proof.
  intros H. pose proof (re_s _ _ _ _ _ _ _ _ _ _ _ _ H) as S. pose proof (re_s' _ _ _ _ _ _ _ _ _ _ _ _ H) as S'. pose proof (re_b _ _ _ _ _ _ _ _ _ _ _ _ H) as HB. destruct (re_sc _ _ _ _ _ _ _ _ _ _ _ _ H) as (Hk & Hc & Hg).
  pose proof (so_len _ _ _ _ S) as Ln. pose proof (list_turned _ _ Ln HB) as EB. pose proof (find_spin w w' EB (re_eps _ _ _ _ _ _ _ _ _ _ _ _ H) Hk Hg) as E'.
  destruct (find_contacts o hd w) as [w1|e] eqn:E; rewrite E'; [|exact I]. cbn [alike]. set (w1' := with_state _ _ _ _ _ _ _ _) in *.
  pose proof (sound_find _ _ _ o hd (diff_handler_frame gf o) (diff_handler_respects gf o) Hs _ _ S E) as S1. pose proof (sound_find _ _ _ o' hd' (diff_handler_frame gf o') (diff_handler_respects gf o') Hs' _ _ S' E') as S1'.
  pose proof (find_contacts_inv _ _ _ _ E) as (b1 & c1 & k1 & X).
  apply (relate la (turned th) sg bs bs' js js' J0 J0' insync w w'); auto.
  - apply (valid_kinds la w); [exact (kinds_find _ _ _ _ (diff_handler_frame gf o) E)|exact (find_contacts_cfg _ _ _ _ E)|now rewrite X|apply H].
  - apply (valid_kinds la w'); [exact (kinds_find _ _ _ _ (diff_handler_frame gf o') E')|exact (find_contacts_cfg _ _ _ _ E')|reflexivity|apply H].
  - unfold w1'. cbn [with_state w_bodies]. apply turned_listed. exact (so_len _ _ _ _ S1).
  - exists (seq 0 (length (w_contacts w1))). unfold w1'. cbn [with_state w_contacts]. apply contacts_listed. pose proof (so_pairs _ _ _ _ S1) as HC. revert HC. apply Forall_impl. tauto.
  - unfold w1'. cbn [with_state w_t]. rewrite (find_contacts_t _ _ _ _ E). apply H.
  - exact (find_contacts_cfg _ _ _ _ E).
  - split; [reflexivity|]. split; [reflexivity|]. exact (geoms_forget _ _ (find_contacts_frame _ _ _ _ (diff_handler_frame gf o) E) Hg).
Qed.
End Worlds.
Variables (heap heap' : fheap R) (dt eps tol : R) (fd : nat) (ps st : bool).
Hypothesis Hn : NoDup (map b_id bs).
Hypothesis Hg : Forall geom_ok bs.
Hypothesis HJ : Forall2 (built_alike (turned th) bs) js js'.
Hypothesis Hh : Forall2 (turned_force (turned th)) heap heap'.
Notation related := (fun w w' => related la (turned th) sg bs bs' js js' (w_joints w) (w_joints w') insync w w').
Lemma no_pen_turned w w' : w_contacts w' = map (turn_contact th) (w_contacts w) -> w_tol w' = w_tol w -> no_penetration w' = no_penetration w.
Proof. intros E Et. unfold no_penetration. rewrite E, Et. clear. induction (w_contacts w) as [|c l IH]; [reflexivity|]. cbn [map forallb turn_contact c_pen]. now rewrite IH. Qed.
Lemma init_turned :
  alike (fun w w' => listed (jrel (turned th) sg) (seq 0 (length js)) (w_joints w) (w_joints w') /\ related w w')
    (world_init o hd heap bs js dt eps tol fd ps st) (world_init o' hd' heap' bs' js' dt eps tol fd ps st).
Proof.
  pose proof (turned_listed bs eq_refl) as HBB. pose proof (listed_id _ _ _ HJ) as HJJ.
  destruct bs as [|b0 bs0] eqn:Eb; [exact I|]. rewrite <- Eb in *. assert (N : bs <> []) by (rewrite Eb; discriminate). assert (N' : bs' <> []) by (rewrite Eb; discriminate). clear Eb b0 bs0.
  assert (JJ : alike (listed (jrel (turned th) sg) (seq 0 (length js))) (mapM (entry bs) js) (mapM (entry bs') js')).
  { apply (listed_mapM _ (jrel (turned th) sg) (entry bs) (entry bs') _ _ _ HJJ). intros j j' _ _ B. destruct (entry_turn _ _ _ _ _ _ HBB Hn B) as (x & x' & -> & -> & X). exact X. }
  assert (Hb : Forall (built bs) js) by (clear - HJ; induction HJ as [|j j' l l' B H IH]; constructor; [exact (built_left _ _ _ _ B)|auto]).
  assert (Hb' : Forall (built bs') js') by (clear - HJ HBB; induction HJ as [|j j' l l' B H IH]; constructor; [exact (built_right _ _ _ _ _ _ HBB B)|auto]).
  assert (Hn' : NoDup (map b_id bs')) by (rewrite map_map; exact Hn).
  destruct (mapM (entry bs) js) as [J|] eqn:EJ; destruct (mapM (entry bs') js') as [J'|] eqn:EJ'; try contradiction; [|rewrite !init_eq, EJ, EJ' by auto; exact I]. cbn [alike] in JJ.
  set (w1 := start heap bs js dt eps tol fd ps st J). set (w1' := start heap' bs' js' dt eps tol fd ps st J').
  pose proof (find_spin w1 w1' eq_refl eq_refl eq_refl Hg) as E'. destruct (find_contacts o hd w1) as [w2|] eqn:E; [|rewrite !init_eq, EJ, EJ' by auto; cbn [bind]; fold w1 w1'; rewrite E, E'; exact I].
  set (w2' := with_state _ _ _ _ _ _ _ _) in E'. pose proof (find_contacts_cfg _ _ _ _ E) as C.
  assert (I0 : world_init o hd heap bs js dt eps tol fd ps st = if st && negb (no_penetration w2) then Err EAssert else Ok w2) by (rewrite init_eq, EJ by auto; cbn [bind]; fold w1; now rewrite E).
  assert (I1 : world_init o' hd' heap' bs' js' dt eps tol fd ps st = if st && negb (no_penetration w2) then Err EAssert else Ok w2').
  { rewrite init_eq, EJ' by auto. cbn [bind]. fold w1'. rewrite E'. cbn [bind]. rewrite (no_pen_turned w2 w2' eq_refl); [reflexivity|]. unfold cfg in C. injection C as _ _ _ -> _ _ _ _ _ _. reflexivity. }
  destruct (st && negb (no_penetration w2))%bool; rewrite I0, I1; [exact I|]. cbn [alike].
  pose proof (sound_init o hd bs js _ _ _ _ _ _ _ _ (diff_handler_frame gf o) (diff_handler_respects gf o) Hs Hn Hb I0) as S.
  pose proof (sound_init o' hd' bs' js' _ _ _ _ _ _ _ _ (diff_handler_frame gf o') (diff_handler_respects gf o') Hs' Hn' Hb' I1) as S'.
  destruct (init_valid la _ _ _ _ _ _ _ _ _ _ _ _ (diff_handler_frame gf o) I0) as [V _]. destruct (init_valid la _ _ _ _ _ _ _ _ _ _ _ _ (diff_handler_frame gf o') I1) as [V' _].
  pose proof (find_contacts_inv _ _ _ _ E) as (b1 & c1 & k1 & X).
  assert (XJ : w_joints w2 = J) by now rewrite X. split; [rewrite XJ; exact JJ|]. 
  pose proof (find_contacts_frame _ _ _ _ (diff_handler_frame gf o) E) as FR.
  unfold cfg in C. injection C as C1 C2 C3 C4 C5 C6 C7 C8 C9 C10.
  constructor; auto; rewrite ?C1, ?C2, ?C3, ?C4, ?C5, ?C6, ?C7; try reflexivity; auto.
  - unfold w2'. cbn [with_state w_bodies]. apply turned_listed. exact (so_len _ _ _ _ S).
  - exists (seq 0 (length (w_contacts w2))). unfold w2'. cbn [with_state w_contacts]. apply contacts_listed. pose proof (so_pairs _ _ _ _ S) as HC. revert HC. apply Forall_impl. tauto.
  - now rewrite X.
  - split; [reflexivity|]. split; [reflexivity|]. exact (geoms_forget _ _ FR Hg).
Qed.
Lemma calls_turned ops : Forall2 (call_turn (turned th) sg bs) ops (map (turned_call th (length bs)) ops).
Proof.
  induction ops as [|c ops IH]; constructor; auto. destruct c as [f|d|v]; cbn [turned_call call_turn]; auto. destruct (Nat.eqb_spec (length v) (3 * length bs)) as [E|E].
  - split; [rewrite cat3_length, map_length, seq_length; lia|]. intros _. reflexivity.
  - split; [reflexivity|]. intros H. contradiction.
Qed.
Theorem session_turned fuel ops :
  alike (turned_world th) (do w0 <- world_init o hd heap bs js dt eps tol fd ps st; exec fuel o hd (pdipm_engine la mi) ops w0)
    (do w0 <- world_init o' hd' heap' bs' js' dt eps tol fd ps st; exec fuel o' hd' (pdipm_engine la mi) (map (turned_call th (length bs)) ops) w0).
Proof.
  pose proof (turned_listed bs eq_refl) as HBB. eapply alike_bind; [exact init_turned|]. intros w w' _ _ [HW H].
  eapply alike_impl; [|exact (exec_turn la mi (turned th) sg (seq 0 (length js)) HL _ _ _ _ _ _ o o' hd hd' HBB HW insync insync_step (find_turned _ _) fuel ops _ (calls_turned ops) w w' H)].
  intros a a' _ _ X. cbn beta in X. destruct (re_sc _ _ _ _ _ _ _ _ _ _ _ _ X) as (_ & HC & _). split; [apply X|]. split; [exact (list_turned _ _ (so_len _ _ _ _ (re_s _ _ _ _ _ _ _ _ _ _ _ _ X)) (re_b _ _ _ _ _ _ _ _ _ _ _ _ X))|]. split; [exact HC|].
  pose proof (tw_joints la (turned th) sg _ _ _ _ _ _ _ HBB HW _ a a' X) as T. apply (listed_seq _ (length js)). apply (listed_map _ _ _ _ _ _ _ T). intros [[j i1] i2] [[j' k1] k2] _ _ (Y & _). exact Y.
Qed.
End Turned.
