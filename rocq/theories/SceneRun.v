(** Steps, histories and the constructor for two descriptions of the same scene *)
From Coq Require Import List Arith ZArith Bool Reals Lia Lra Permutation.
From Verif Require Import Num Tensor Utils Bodies Forces Constraints Contacts World Lapack Pdipm Lcp Engines Spec GeoSpec BodySpec JointSpec ContactSpec EngineSpec SymSpec SceneSpec
     RBase ResFacts LinAlg LapackSpec KktSpec PdipmSpec WorldFacts HandlerFacts LayoutFacts HistFacts SysFacts RewindFacts JointFacts JeFacts CacheFacts BodyReach TimeFacts PdipmFacts PdipmLoop SolverFacts EngineFacts
     ContactSys EngineBalance PostFacts LcpSym PlaneFacts BodyFacts GeomFacts ContactFacts ListedFacts SceneFacts SceneContacts SceneEngine SceneSolve.
Import ListNotations.
Open Scope R_scope.

(** *** bodies *)
Lemma circ_set_p b p : circ b -> circ (set_p b p).
Proof.
  intros [C G]. split; [|now apply set_p_geom]. unfold is_circle, set_p in *. destruct (b_kind b) eqn:E; try discriminate. cbn [body_set_p b_kind]. now rewrite E.
Qed.
Lemma circ_with_v b v : circ b -> circ (with_v b v).
Proof. intros H. exact H. Qed.
Lemma turn_rot th d vs : map (place th) (hull_rotate d vs) = hull_rotate (hand th * d) (map (place th) vs).
Proof. unfold hull_rotate. rewrite !map_map. apply map_ext. intros a. rewrite !rot_apply_rotate. apply rt_rotate. Qed.
Lemma turn_vert th vs i : vert (map (place th) vs) i = place th (vert vs i).
Proof. unfold vert. change (v2zero : v2 R) with ((0, 0) : v2 R). rewrite <- (rt_zero th) at 1. apply map_nth. Qed.
Lemma turn_rect th d vs : map (place th) (rect_rotate d vs) = rect_rotate (hand th * d) (map (place th) vs).
Proof. unfold rect_rotate. cbv zeta. cbn [map]. rewrite !turn_vert, !rot_apply_rotate, <- !rt_rotate, <- !rt_opp. reflexivity. Qed.
Lemma hand_0 th d : Reqb (hand th * d) 0 = Reqb d 0.
Proof. apply eq_true_iff_eq. rewrite !Reqb_true. pose proof (hand_sq th) as Q. split; intros H; [|rewrite H; ring]. replace d with ((hand th * hand th) * d) by (rewrite Q; ring). rewrite Rmult_assoc, H. ring. Qed.
Lemma turn_set_p th b p : set_p (turn_body th b) (turn_pose th p) = turn_body th (set_p b p).
Proof.
  assert (E : fst (turn_pose th p) - fst (turn_pose th (b_p b)) = hand th * (fst p - fst (b_p b))) by (unfold turn_pose; cbn [fst]; ring).
  destruct b as [id k q v m it fr re ep fs [sh gp gq gn]]. unfold set_p. cbn [turn_body b_kind b_p] in *. destruct k as [r|vs l|dm vs l]; cbn [turn_kind]; [reflexivity| |]; rnum; rewrite E, hand_0; destruct (Reqb _ 0) eqn:Z.
  - reflexivity.
  - cbn [kind_rotate]. rewrite <- turn_rot. reflexivity.
  - reflexivity.
  - cbn [kind_rotate]. rewrite <- turn_rect. reflexivity.
Qed.
Lemma turn_with_v th b v : with_v (turn_body th b) (turn_vel th v) = turn_body th (with_v b v).
Proof. reflexivity. Qed.
Lemma turn_move th b dt : move (turn_body th b) dt = turn_body th (move b dt).
Proof.
  unfold move. cbn [turn_body b_p b_v]. rewrite <- turn_vel_scale, turn_pose_add. apply turn_set_p.
Qed.
(** *** the assumptions on the scene are kept *)
Lemma scene_step eps bs bs1 : scene eps bs -> Forall2 (fun b b1 => (circ b -> circ b1) /\ (geom_ok b -> geom_ok b1) /\ same_attrs b b1) bs bs1 -> scene eps bs1.
Proof.
  intros (H1 & H2 & H3) F. split; [|split].
  - apply Forall_forall. intros b1 Hb. destruct (F2_in_r _ _ _ _ F Hb) as (b & Hin & Hc & _ & _). rewrite Forall_forall in H1. auto.
  - intros b1 b2 E1 E2. destruct (F2_in_r _ _ _ _ F E1) as (a1 & I1 & _ & _ & A1). destruct (F2_in_r _ _ _ _ F E2) as (a2 & I2 & _ & _ & A2).
    destruct A1 as (_ & _ & _ & _ & _ & -> & _), A2 as (_ & _ & _ & _ & _ & -> & _). auto.
  - intros b1 b2 E1 E2. destruct (F2_in_r _ _ _ _ F E1) as (a1 & I1 & _ & _ & A1). destruct (F2_in_r _ _ _ _ F E2) as (a2 & I2 & _ & _ & A2).
    destruct A1 as (X1 & _ & _ & _ & _ & _ & _ & _ & Y1), A2 as (X2 & _ & _ & _ & _ & _ & _ & _ & Y2). unfold excluded. rewrite X1, X2, Y1, Y2. apply H3; auto.
Qed.
Lemma F2_map {A B} (r : A -> B -> Prop) (f : A -> B) l : (forall a, r a (f a)) -> Forall2 r l (map f l).
Proof. intros H. induction l; constructor; auto. Qed.
Lemma sound_joints bs js J0 w : sound bs js J0 w -> joints_ok w.
Proof.
  intros S. destruct (so_found _ _ _ _ S) as (_ & _ & _ & [_ HJ] & _). unfold joints_ok. rewrite Forall_forall. intros [[j i1] i2] Hin.
  destruct (F2_in_r _ _ _ _ HJ Hin) as ([[j0 k1] k2] & _ & -> & -> & a1 & b1 & b2 & _ & Hb & _).
  apply joint_bodies_Ok in Hb. destruct Hb as [H1 H2]. split; [apply nth_error_Some; congruence|]. destruct k2 as [i|]; [|exact Logic.I]. destruct H2 as (x & _ & H2). apply nth_error_Some. congruence.
Qed.
Lemma sound_joint_count bs js J0 w w' : sound bs js J0 w -> sound bs js J0 w' -> length (w_joints w') = length (w_joints w).
Proof.
  intros S S'. destruct (so_found _ _ _ _ S) as (_ & _ & _ & [_ HJ] & _). destruct (so_found _ _ _ _ S') as (_ & _ & _ & [_ HJ'] & _).
  rewrite <- (F2_len _ _ _ HJ), <- (F2_len _ _ _ HJ'). reflexivity.
Qed.

Section Two.
Variables (la : lapack R) (mi : nat) (th : view) (sg pi : list nat).
Hypothesis HL : lapack_ok la.
Variables (bs bs' : list (body R)) (js js' : list (joint R)) (J0 J0' : list jent) (o o' : oracle R) (hd hd' : handler R).
Hypothesis HBB : listed (brel th) sg bs bs'.
Hypothesis HJ0 : listed (jrel th sg) pi J0 J0'.
(** what is assumed of the two worlds stays true as long as no contacts are looked for, and looking for
    contacts finds the same ones *)
Variable SC : world R -> world R -> Prop.
Notation related := (related la th sg bs bs' js js' J0 J0' SC).
Hypothesis HSC : forall w w' w1 w1', SC w w' -> w_eps w1 = w_eps w -> w_clk w1 = w_clk w -> w_clk w1' = w_clk w' -> w_contacts w1 = w_contacts w -> w_contacts w1' = w_contacts w' ->
  Forall2 (fun b b1 => (circ b -> circ b1) /\ (geom_ok b -> geom_ok b1) /\ same_attrs b b1) (w_bodies w) (w_bodies w1) -> SC w1 w1'.
Hypothesis Hfind : forall w w', related w w' -> alike related (find_contacts o hd w) (find_contacts o' hd' w').
Notation eng := (pdipm_engine la mi).
Notation fu := (fu th sg).

Lemma relate w w' w1 w1' : related w w' -> sound bs js J0 w1 -> sound bs' js' J0' w1' -> valid la w1 -> valid la w1' ->
  listed (brel th) sg (w_bodies w1) (w_bodies w1') -> (exists P, listed (crel th sg) P (w_contacts w1) (w_contacts w1')) -> w_t w1' = w_t w1 ->
  cfg w1 = cfg w -> cfg w1' = cfg w' -> SC w1 w1' -> related w1 w1'.
Proof.
  intros H S1 S1' V1 V1' HB HC Ht C C' Hsc. destruct H. unfold cfg in C, C'. injection C as C1 C2 C3 C4 C5 C6 C7 C8 C9 C10. injection C' as D1 D2 D3 D4 D5 D6 D7 D8 D9 D10.
  constructor; auto; try congruence.
Qed.
Lemma set_v_turn w w' v v' : related w w' -> (length v = 3 * length (w_bodies w))%nat -> v' = fu v -> alike related (set_v w v) (set_v w' v').
Proof.
  intros H Lv ->. pose proof (tw_len _ _ _ _ _ _ _ _ _ _ _ _ H) as Ln. pose proof (iso_len _ _ (tw_iu _ _ _ _ _ _ _ _ _ _ _ _ H) v Lv) as Lf.
  assert (E : exists w1, set_v w v = Ok w1) by (unfold set_v; rewrite Lv, Nat.eqb_refl; eauto). assert (E' : exists w1', set_v w' (fu v) = Ok w1') by (unfold set_v; rewrite Lf, Ln, Nat.eqb_refl; eauto).
  destruct E as [w1 E], E' as [w1' E']. rewrite E, E'. cbn [alike]. pose proof (set_v_inv _ _ _ E) as [_ X]. pose proof (set_v_inv _ _ _ E') as [_ X'].
  apply (relate w w'); auto.
  - exact (sound_set_v _ _ _ _ _ _ (re_s _ _ _ _ _ _ _ _ _ _ _ _ H) E).
  - exact (sound_set_v _ _ _ _ _ _ (re_s' _ _ _ _ _ _ _ _ _ _ _ _ H) E').
  - apply (valid_kinds la w); [exact (kinds_set_v _ _ _ E)|exact (set_v_cfg _ _ _ E)|now rewrite X|apply H].
  - apply (valid_kinds la w'); [exact (kinds_set_v _ _ _ E')|exact (set_v_cfg _ _ _ E')|now rewrite X'|apply H].
  - rewrite X, X'. cbn [with_state w_bodies]. apply (listed_mapi (brel th) _ _ _ _ _ _ (re_b _ _ _ _ _ _ _ _ _ _ _ _ H)). intros i k b b' Ek _ _ ->. unfold brel. rewrite (fu_at th sg v k i Ek). reflexivity.
  - rewrite X, X'. apply H.
  - rewrite X, X'. apply H.
  - exact (set_v_cfg _ _ _ E).
  - exact (set_v_cfg _ _ _ E').
  - apply (HSC w w'); [apply H| | | | | |]; rewrite ?X, ?X'; try reflexivity. cbn [with_state w_bodies]. apply Forall2_mapi. intros i b. split; [auto|]. split; [auto|apply (bs_v _ same_attrs_steps)].
Qed.
Lemma move_turn w w' dt : related w w' -> alike related (move_all w dt) (move_all w' dt).
Proof.
  intros H. destruct (move_all_total w dt (sound_joints _ _ _ _ (re_s _ _ _ _ _ _ _ _ _ _ _ _ H))) as (w1 & E & _). destruct (move_all_total w' dt (sound_joints _ _ _ _ (re_s' _ _ _ _ _ _ _ _ _ _ _ _ H))) as (w1' & E' & _).
  rewrite E, E'. cbn [alike]. pose proof (move_all_inv _ _ _ E) as [j X]. pose proof (move_all_inv _ _ _ E') as [j' X'].
  apply (relate w w'); auto.
  - exact (sound_move _ _ _ _ _ _ (re_s _ _ _ _ _ _ _ _ _ _ _ _ H) E).
  - exact (sound_move _ _ _ _ _ _ (re_s' _ _ _ _ _ _ _ _ _ _ _ _ H) E').
  - apply (valid_kinds la w); [exact (kinds_move _ _ _ E)|exact (move_all_cfg _ _ _ E)|now rewrite X|apply H].
  - apply (valid_kinds la w'); [exact (kinds_move _ _ _ E')|exact (move_all_cfg _ _ _ E')|now rewrite X'|apply H].
  - rewrite X, X'. cbn [with_state w_bodies]. apply (listed_map (brel th) _ _ _ _ _ _ (re_b _ _ _ _ _ _ _ _ _ _ _ _ H)). intros b b' Hb _ ->. unfold brel. apply turn_move.
  - rewrite X, X'. apply H.
  - rewrite X, X'. apply H.
  - exact (move_all_cfg _ _ _ E).
  - exact (move_all_cfg _ _ _ E').
  - apply (HSC w w'); [apply H| | | | | |]; rewrite ?X, ?X'; try reflexivity. cbn [with_state w_bodies]. apply F2_map. intros b. split; [apply circ_set_p|]. split; [apply set_p_geom|apply (bs_p _ same_attrs_steps)].
Qed.
Lemma rewind_turn w0 w0' w w' : related w0 w0' -> related w w' ->
  alike related (rewind w (cat3 (map b_p (w_bodies w0))) (rots w0)) (rewind w' (cat3 (map b_p (w_bodies w0'))) (rots w0')).
Proof.
  intros H0 H. pose proof (re_s _ _ _ _ _ _ _ _ _ _ _ _ H0) as S0. pose proof (re_s' _ _ _ _ _ _ _ _ _ _ _ _ H0) as S0'. pose proof (re_s _ _ _ _ _ _ _ _ _ _ _ _ H) as S. pose proof (re_s' _ _ _ _ _ _ _ _ _ _ _ _ H) as S'.
  assert (L : length (rots w0) = length (w_joints w)) by (rewrite map_length; apply (sound_joint_count _ _ _ _ _ S S0)).
  assert (L' : length (rots w0') = length (w_joints w')) by (rewrite map_length; apply (sound_joint_count _ _ _ _ _ S' S0')).
  destruct (rewind_total w (cat3 (map b_p (w_bodies w0))) (rots w0) (sound_joints _ _ _ _ S) L) as (w1 & E & _). destruct (rewind_total w' (cat3 (map b_p (w_bodies w0'))) (rots w0') (sound_joints _ _ _ _ S') L') as (w1' & E' & _).
  rewrite E, E'. cbn [alike]. pose proof (rewind_inv _ _ _ _ E) as [j X]. pose proof (rewind_inv _ _ _ _ E') as [j' X'].
  apply (relate w w'); auto.
  - exact (sound_rewind _ _ _ _ _ _ S0 S E).
  - exact (sound_rewind _ _ _ _ _ _ S0' S' E').
  - apply (valid_kinds la w); [exact (kinds_rewind _ _ _ _ L E)|exact (rewind_cfg _ _ _ _ E)|now rewrite X|apply H].
  - apply (valid_kinds la w'); [exact (kinds_rewind _ _ _ _ L' E')|exact (rewind_cfg _ _ _ _ E')|now rewrite X'|apply H].
  - rewrite X, X'. cbn [with_state w_bodies]. apply (listed_mapi (brel th) _ _ _ _ _ _ (re_b _ _ _ _ _ _ _ _ _ _ _ _ H)). intros i k b b' Ek Eb _ ->. unfold brel.
    destruct (listed_k _ _ _ _ _ _ (re_b _ _ _ _ _ _ _ _ _ _ _ _ H0) Ek) as (c & c' & Ec & Ec' & ->).
    assert (Li : (i < length (map b_p (w_bodies w0)))%nat) by (rewrite map_length; apply nth_error_Some; congruence). assert (Lk : (k < length (map b_p (w_bodies w0')))%nat) by (rewrite map_length; apply nth_error_Some; congruence).
    rewrite (v3_at_cat3 _ _ (b_p c) Li), (v3_at_cat3 _ _ (b_p c) Lk). rewrite (nth_error_nth _ _ (b_p c) (map_nth_error b_p _ _ Ec)), (nth_error_nth _ _ (b_p c) (map_nth_error b_p _ _ Ec')).
    cbn [turn_body b_p]. apply turn_set_p.
  - rewrite X, X'. apply H.
  - rewrite X, X'. apply H.
  - exact (rewind_cfg _ _ _ _ E).
  - exact (rewind_cfg _ _ _ _ E').
  - apply (HSC w w'); [apply H| | | | | |]; rewrite ?X, ?X'; try reflexivity. cbn [with_state w_bodies]. apply Forall2_mapi. intros i b. split; [apply circ_set_p|]. split; [apply set_p_geom|apply (bs_p _ same_attrs_steps)].
Qed.
Lemma crel_pen c c' : crel th sg c c' -> c_pen c' = c_pen c.
Proof. intros [(_ & _ & _ & E & _)|(_ & _ & _ & E & _)]; exact E. Qed.
Lemma nopen_turn w w' : related w w' -> no_penetration w' = no_penetration w.
Proof.
  intros H. destruct (re_c _ _ _ _ _ _ _ _ _ _ _ _ H) as [P HC]. unfold no_penetration. rewrite (re_tol _ _ _ _ _ _ _ _ _ _ _ _ H). apply eq_true_iff_eq. rewrite !forallb_forall. split; intros G c Hc.
  - apply In_nth_error in Hc. destruct Hc as [i Ei]. destruct (listed_l _ _ _ _ _ _ HC Ei) as (k & c' & _ & Ek & R). rewrite <- (crel_pen _ _ R). apply G. exact (nth_error_In _ _ Ek).
  - apply In_nth_error in Hc. destruct Hc as [i Ei]. destruct (listed_r _ _ _ _ _ _ HC Ei) as (k & c' & _ & Ek & R). rewrite (crel_pen _ _ R). apply G. exact (nth_error_In _ _ Ek).
Qed.
Lemma loop_turn w0 w0' fuel : related w0 w0' -> forall w w' dt, related w w' ->
  alike (fun r r' => related (fst r) (fst r') /\ snd r' = snd r) (step_loop fuel o hd w (cat3 (map b_p (w_bodies w0))) (rots w0) dt) (step_loop fuel o' hd' w' (cat3 (map b_p (w_bodies w0'))) (rots w0') dt).
Proof.
  intros H0. induction fuel as [|fuel IH]; intros w w' dt H; [exact I|]. cbn [step_loop]. eapply alike_bind; [now apply move_turn|]. intros w1 w1' _ _ H1. eapply alike_bind; [now apply Hfind|]. intros w2 w2' _ _ H2.
  rewrite (nopen_turn _ _ H2), (re_st _ _ _ _ _ _ _ _ _ _ _ _ H2), (re_dt _ _ _ _ _ _ _ _ _ _ _ _ H2). destruct (no_penetration w2); [split; [exact H2|reflexivity]|]. destruct (_ && _)%bool; [split; [exact H2|reflexivity]|].
  eapply alike_bind; [now apply rewind_turn|]. intros w3 w3' _ _ H3. now apply IH.
Qed.
Lemma same_bodies (l : list (body R)) : Forall2 (fun b b1 => (circ b -> circ b1) /\ (geom_ok b -> geom_ok b1) /\ same_attrs b b1) l l.
Proof. induction l as [|b l IH]; constructor; auto. split; [auto|]. split; [auto|unfold same_attrs; auto 12]. Qed.
Lemma related_cache w w' c c' : related w w' -> valid la (with_cache w c) -> valid la (with_cache w' c') -> related (with_cache w c) (with_cache w' c').
Proof. intros H V V'. apply (relate w w'); auto; try (apply sound_cache); try apply H. apply (HSC w w'); try reflexivity; [apply H|apply same_bodies]. Qed.
Lemma half_turn n (x : vecR) : isometry n fu -> length x = n -> map (fun a => a / nofZ 2) (fu x) = fu (map (fun a => a / nofZ 2) x).
Proof.
  intros Iu Lx. assert (E : forall y : vecR, map (fun a => a / nofZ 2) y = vscale (/ 2) y) by (intros y; unfold vscale; apply map_ext; intros a; rnum; unfold Rdiv; apply Rmult_comm). rewrite !E. symmetry. now apply (iso_scale _ _ Iu).
Qed.
Lemma related_t w w' t : related w w' -> related (with_t w t) (with_t w' t).
Proof. intros H. apply (relate w w'); auto; try apply sound_t; try apply H. apply (HSC w w'); try reflexivity; [apply H|apply same_bodies]. Qed.
Lemma step_dt_turn fuel w w' dt : related w w' -> alike related (step_dt fuel o hd eng w dt) (step_dt fuel o' hd' eng w' dt).
Proof.
  intros H. unfold step_dt. cbn [e_solve e_post pdipm_engine]. eapply alike_bind; [exact (solve_turn la mi th sg pi HL _ _ _ _ _ _ HBB HJ0 _ w w' H dt)|]. intros [v c] [v' c'] Es Es' Ev. cbn [fst] in Ev.
  pose proof (proj2 (solve_uncached la mi w dt (re_v _ _ _ _ _ _ _ _ _ _ _ _ H)) _ _ Es) as V. pose proof (proj2 (solve_uncached la mi w' dt (re_v' _ _ _ _ _ _ _ _ _ _ _ _ H)) _ _ Es') as V'.
  destruct (solve_balance _ _ _ w la mi (re_s _ _ _ _ _ _ _ _ _ _ _ _ H) HL (re_v _ _ _ _ _ _ _ _ _ _ _ _ H) dt v c Es) as (_ & _ & _ & _ & Lv & _).
  eapply alike_bind; [apply set_v_turn; [apply related_cache; eauto|exact Lv|exact Ev]|]. intros w1 w1' _ _ H1.
  eapply alike_bind; [exact (loop_turn w w' fuel H w1 w1' dt H1)|]. intros [w2 d] [w2' d'] _ _ [H2 Ed]. cbn [fst snd] in H2, Ed. subst d'. rewrite (re_ps _ _ _ _ _ _ _ _ _ _ _ _ H2).
  assert (G : alike related (if w_post_stab w2 then do dp <- post_stabilization la w2; do wa <- set_v w2 (map (fun a => a / nofZ 2)%num dp); do wb <- move_all wa d; do wc <- set_v wb (w_v w2); find_contacts o hd wc else Ok w2)
     (if w_post_stab w2 then do dp <- post_stabilization la w2'; do wa <- set_v w2' (map (fun a => a / nofZ 2)%num dp); do wb <- move_all wa d; do wc <- set_v wb (w_v w2'); find_contacts o' hd' wc else Ok w2')).
  { destruct (w_post_stab w2); [|exact H2]. eapply alike_bind; [exact (post_turn la th sg pi HL _ _ _ _ _ _ HBB HJ0 _ w2 w2' H2)|]. intros dp dp' Ep _ ->.
    destruct (post_balance _ _ _ w2 la (re_s _ _ _ _ _ _ _ _ _ _ _ _ H2) HL (re_v _ _ _ _ _ _ _ _ _ _ _ _ H2) dp Ep) as (Ld & _).
    eapply alike_bind; [apply set_v_turn; [exact H2|now rewrite map_length|apply (half_turn _ _ (tw_iu _ _ _ _ _ _ _ _ _ _ _ _ H2) Ld)]|]. intros wa wa' Ea _ Ha.
    eapply alike_bind; [now apply move_turn|]. intros wb wb' Eb _ Hb.
    eapply alike_bind; [apply set_v_turn; [exact Hb| |exact (tw_v _ _ _ _ _ _ _ _ _ _ _ _ H2)]|].
    { rewrite (so_len _ _ _ _ (re_s _ _ _ _ _ _ _ _ _ _ _ _ Hb)), <- (so_len _ _ _ _ (re_s _ _ _ _ _ _ _ _ _ _ _ _ H2)). apply (so_vlen _ _ _ _ (re_s _ _ _ _ _ _ _ _ _ _ _ _ H2)). }
    intros wc wc' _ _ Hc. now apply Hfind. }
  eapply alike_bind; [exact G|]. intros w3 w3' _ _ H3. cbn [alike]. rewrite (re_t _ _ _ _ _ _ _ _ _ _ _ _ H3). now apply related_t.
Qed.
Lemma fixed_turn lf te fuel : forall w w', related w w' -> alike related (fixed_loop fuel lf o hd eng te w) (fixed_loop fuel lf o' hd' eng te w').
Proof.
  induction fuel as [|fuel IH]; intros w w' H; [exact I|]. cbn [fixed_loop]. rewrite (re_t _ _ _ _ _ _ _ _ _ _ _ _ H). destruct (_ <? _)%num; [|exact H]. eapply alike_bind; [now apply step_dt_turn|]. intros w1 w1' _ _ H1. now apply IH.
Qed.
Lemma step_turn fuel fx w w' : related w w' -> alike related (step fuel o hd eng fx w) (step fuel o' hd' eng fx w').
Proof. intros H. unfold step. rewrite (re_t _ _ _ _ _ _ _ _ _ _ _ _ H), (re_dt _ _ _ _ _ _ _ _ _ _ _ _ H). destruct fx; [now apply fixed_turn|now apply step_dt_turn]. Qed.
(** the velocities given in a call are for the same bodies *)
Definition call_turn (c c' : op R) : Prop :=
  match c, c' with
  | OSetV v, OSetV v' => length v' = length v /\ (length v = (3 * length bs)%nat -> v' = fu v)
  | OStep f, OStep f' => f' = f
  | OStepDt dt, OStepDt dt' => dt' = dt
  | _, _ => False
  end.
Lemma exec_turn fuel ops ops' : Forall2 call_turn ops ops' -> forall w w', related w w' -> alike related (exec fuel o hd eng ops w) (exec fuel o' hd' eng ops' w').
Proof.
  induction 1 as [|c c' ops ops' Hc HF IH]; intros w w' H; [exact H|]. destruct c as [fx|dt|v], c' as [fx'|dt'|v']; try contradiction; cbn [exec call_turn] in *; subst.
  - eapply alike_bind; [now apply step_turn|]. intros; now apply IH.
  - eapply alike_bind; [now apply step_dt_turn|]. intros; now apply IH.
  - destruct Hc as [L E]. pose proof (so_len _ _ _ _ (re_s _ _ _ _ _ _ _ _ _ _ _ _ H)) as Lb. pose proof (tw_len _ _ _ _ _ _ _ _ _ _ _ _ H) as Ln. 
    assert (G : alike related (set_v w v) (set_v w' v')).
    { destruct (Nat.eq_dec (length v) (3 * length bs)) as [Ev|Ev]; [apply set_v_turn; [exact H|lia|exact (E Ev)]|].
      unfold set_v. rewrite L, Ln. destruct (Nat.eqb_spec (length v) (3 * length (w_bodies w))); [lia|exact I]. }
    eapply alike_bind; [exact G|]. intros w1 w1' _ _ H1. now apply IH.
Qed.
End Two.

(** *** circles *)
Definition alone (w w' : world R) : Prop := scene (w_eps w) (w_bodies w).
Lemma alone_step w w' w1 w1' : alone w w' -> w_eps w1 = w_eps w -> w_clk w1 = w_clk w -> w_clk w1' = w_clk w' -> w_contacts w1 = w_contacts w -> w_contacts w1' = w_contacts w' ->
  Forall2 (fun b b1 => (circ b -> circ b1) /\ (geom_ok b -> geom_ok b1) /\ same_attrs b b1) (w_bodies w) (w_bodies w1) -> alone w1 w1'.
Proof. intros H E _ _ _ _ F. unfold alone in *. rewrite E. exact (scene_step _ _ _ H F). Qed.
Section Circles.
Variables (la : lapack R) (mi gf gf' : nat) (th : view) (sg pi : list nat).
Variables (bs bs' : list (body R)) (js js' : list (joint R)) (J0 J0' : list jent) (o o' : oracle R).
Hypothesis Ho : broadphase_ok o.
Hypothesis Ho' : broadphase_ok o'.
Notation related := (related la th sg bs bs' js js' J0 J0' alone).
Notation hd := (diff_handler gf o).
Notation hd' := (diff_handler gf' o').
Lemma find_turn w w' : related w w' -> alike related (find_contacts o hd w) (find_contacts o' hd' w').
Proof.
  intros H. pose proof (re_sc _ _ _ _ _ _ _ _ _ _ _ _ H) as SC. pose proof (re_b _ _ _ _ _ _ _ _ _ _ _ _ H) as HB. pose proof (scene_turn th _ _ _ _ HB SC) as SC'. rewrite <- (re_eps _ _ _ _ _ _ _ _ _ _ _ _ H) in SC'.
  pose proof (find_circles gf o w (proj1 Ho) (proj1 SC)) as E. pose proof (find_circles gf' o' w' (proj1 Ho') (proj1 SC')) as E'. rewrite E, E'. cbn [alike].
  apply (relate la th sg bs bs' js js' J0 J0' alone w w'); auto.
  - exact (sound_find _ _ _ o hd (diff_handler_frame gf o) (diff_handler_respects gf o) (proj1 Ho) _ _ (re_s _ _ _ _ _ _ _ _ _ _ _ _ H) E).
  - exact (sound_find _ _ _ o' hd' (diff_handler_frame gf' o') (diff_handler_respects gf' o') (proj1 Ho') _ _ (re_s' _ _ _ _ _ _ _ _ _ _ _ _ H) E').
  - apply (valid_kinds la w); [reflexivity|reflexivity|reflexivity|apply H].
  - apply (valid_kinds la w'); [reflexivity|reflexivity|reflexivity|apply H].
  - cbn [with_state w_contacts]. rewrite (re_eps _ _ _ _ _ _ _ _ _ _ _ _ H). apply listed_perm. exact (contacts_match th _ _ _ _ HB SC o o' (w_clk w) (w_clk w') Ho Ho').
  - apply H.
Qed.
End Circles.
