(** Frames of reference: the engine, whole histories and the constructor *)
From Coq Require Import List Arith ZArith Bool Reals Lra Lia.
From Verif Require Import Num Tensor Utils Bodies Forces Constraints Contacts World Lapack Pdipm Lcp Engines Spec GeoSpec BodySpec JointSpec FreshSpec EngineSpec BoostSpec ContactSpec
     RBase ResFacts LinAlg LapackSpec KktSpec PdipmSpec WorldFacts HandlerFacts LayoutFacts HistFacts SysFacts RewindFacts JointFacts JeFacts FreshFacts
     CacheFacts BodyReach GeomFacts PdipmFacts PdipmLoop SolverFacts EngineFacts ContactSys EngineBalance ContactLaw MomentumFacts EngineProps LcpBoost BoostFacts.
Import ListNotations.
Open Scope R_scope.

Lemma uniform_translation w U : uniform U (length (w_bodies w)) = translation w U.
Proof. unfold uniform, translation. f_equal. induction (w_bodies w); cbn; congruence. Qed.

Section Loop.
Variables (U d : v2 R) (o : oracle R) (hd : handler R).
Hypothesis Ho : translation_invariant o.
Hypothesis He : equivariant hd.
Hypothesis Hf : handler_frame hd.
Lemma find_length w w' : find_contacts o hd w = Ok w' -> length (w_bodies w') = length (w_bodies w).
Proof. intros H. apply (find_contacts_frame _ _ _ _ Hf) in H. rewrite <- (map_length forget), H. apply map_length. Qed.
Lemma boost_loop n sr fuel : forall w dt sp, length (w_bodies w) = n -> length sp = (3 * n)%nat ->
  step_loop fuel o hd (boost_world U d w) (vadd sp (uniform d n)) sr dt =
  rmap (fun r => (boost_world U (v2add d (v2scale (snd r) U)) (fst r), snd r)) (step_loop fuel o hd w sp sr dt).
Proof.
  induction fuel as [|fuel IH]; intros w dt sp Hn Hl; [reflexivity|]. cbn [step_loop]. rewrite boost_move_all. destruct (move_all w dt) as [w1|er] eqn:E1; [|reflexivity]. cbn [rmap bind].
  rewrite boost_find by auto. destruct (find_contacts o hd w1) as [w2|er] eqn:E2; [|reflexivity]. cbn [rmap bind].
  change (no_penetration (boost_world U (v2add d (v2scale dt U)) w2)) with (no_penetration w2). change (w_strict (boost_world U (v2add d (v2scale dt U)) w2)) with (w_strict w2).
  change (w_dt (boost_world U (v2add d (v2scale dt U)) w2)) with (w_dt w2).
  destruct (no_penetration w2); [reflexivity|]. destruct (negb (w_strict w2) && _)%bool; [reflexivity|].
  assert (L2 : length (w_bodies w2) = n). { rewrite (find_length _ _ E2). apply move_all_inv in E1. destruct E1 as [js ->]. cbn. now rewrite map_length. }
  rewrite <- L2 at 1. rewrite boost_rewind by (rewrite L2; exact Hl). destruct (rewind w2 sp sr) as [w3|er] eqn:E3; [|reflexivity]. cbn [rmap bind].
  apply IH; [|exact Hl]. apply rewind_inv in E3. destruct E3 as [js ->]. cbn. now rewrite mapi_length'.
Qed.
End Loop.

(** *** the engine *)
Section Engine.
Variables (U d : v2 R) (bs : list (body R)) (js : list (joint R)) (J0 : list jent) (w : world R) (la : lapack R) (mi : nat).
Hypothesis HL : lapack_ok la.
Hypothesis HS : sound bs js J0 w.
Hypothesis HV : valid la w.
Hypothesis HU : Forall pushless js \/ U = (0, 0).
Notation n := (3 * length (w_bodies w))%nat.
Notation neq := (w_num_constraints w).
Notation nc := (length (w_contacts w)).
Notation V := (uniform U (length (w_bodies w))).
Notation bw := (boost_world U d w).

Lemma V_Je : mv (Je w) V = vzeros neq.
Proof.
  destruct HU as [Hp | ->].
  2:{ rewrite uniform_0, mv_zeros. f_equal. apply (so_Je _ _ _ _ HS). }
  rewrite (Je_cv _ _ _ _ HS) by apply uniform_length. rewrite uniform_translation.
  assert (L : length (constraint_velocity w (translation w U)) = neq).
  { rewrite <- (Je_cv _ _ _ _ HS) by apply translation_length. rewrite mv_length. apply (so_Je _ _ _ _ HS). }
  assert (G : Forall (fun a => a = 0) (constraint_velocity w (translation w U))).
  { apply Forall_forall. intros a Ha. apply in_flat_map in Ha. destruct Ha as ([[j i1] i2] & Hin & Ha).
    pose proof (translation_constraints _ _ _ _ HS U j i1 i2 Hp Hin) as H. rewrite Forall_forall in H. apply H. exact Ha. }
  rewrite <- L. clear - G. induction G as [|a l -> _ IH]; [reflexivity|]. cbn [length vzeros repeat]. f_equal. exact IH.
Qed.
Lemma V_Jc : mv (Jc w) V = vzeros nc.
Proof.
  rewrite mv_Jc by (try apply (so_range _ _ _ _ HS); apply uniform_length). rewrite uniform_translation.
  assert (G : forall c, In c (w_contacts w) -> component (c_normal c) (relative_velocity (translation w U) c) = 0).
  { intros c Hc. rewrite (translation_contacts _ _ _ _ HS U c Hc). unfold component. cbn. ring. }
  revert G. generalize (translation w U) as x. intros x. induction (w_contacts w) as [|c cs IH]; intros G; [reflexivity|]. cbn [map length vzeros repeat]. f_equal; [apply G; now left|]. apply IH. intros. apply G. now right.
Qed.
Lemma V_jf : mv (jf_all w) V = vzeros (2 * nc).
Proof.
  rewrite mv_jf by (try apply (so_range _ _ _ _ HS); apply uniform_length). rewrite uniform_translation.
  assert (G : forall c, In c (w_contacts w) -> component (tangent (c_normal c)) (relative_velocity (translation w U) c) = 0).
  { intros c Hc. rewrite (translation_contacts _ _ _ _ HS U c Hc). unfold component. cbn. ring. }
  revert G. generalize (translation w U) as x. intros x. induction (w_contacts w) as [|c cs IH]; intros G; [reflexivity|]. cbn [flat_map length app].
  replace (2 * S (length cs))%nat with (S (S (2 * length cs))) by lia. cbn [vzeros repeat]. rewrite (G c (or_introl eq_refl)). replace (- 0) with 0 by ring. change (vzeros (2 * length cs)) with (repeat (nofZ 0 : R) (2 * length cs)) in IH. do 2 f_equal. apply IH. intros. apply G. now right.
Qed.
Lemma V_G m : mv (lcp_G n nc (Jc w) (jf_all w)) V = vzeros (nc + 2 * nc + nc) /\ (m = nc -> True).
Proof.
  split; [|auto]. unfold lcp_G. rewrite !mv_app, V_Jc, V_jf, mv_mzeros. unfold vzeros. rewrite <- !repeat_app. f_equal. lia.
Qed.
Lemma boost_Je : Je bw = Je w.
Proof.
  unfold Je. cbn [boost_world with_state w_joints w_num_constraints w_bodies]. rewrite map_length. f_equal. match goal with |- fold_left _ _ ?p = _ => generalize p end.
  induction (w_joints w) as [|[[j i1] i2] l IH]; intros [k m]; [reflexivity|]. cbn [bjs map fold_left]. change (j_J (shift_joint d j)) with (j_J j). destruct (j_J j) as [J1 [J2|]]; [destruct i2|]; apply IH.
Qed.
Lemma boost_Jc : Jc bw = Jc w.
Proof. unfold Jc. cbn [boost_world with_state w_contacts w_bodies]. rewrite map_length. reflexivity. Qed.
Lemma boost_Jf : Jf bw = Jf w.
Proof. unfold Jf. cbn [boost_world with_state w_contacts w_bodies w_fric_dirs]. rewrite map_length. reflexivity. Qed.
Lemma boost_body_at f i : (forall b, f (boost_body U d b) = f b) -> body_at (map (boost_body U d) (w_bodies w)) f i = body_at (w_bodies w) f i.
Proof. intros H. unfold body_at. rewrite nth_error_map. destruct (nth_error (w_bodies w) i); cbn; auto. Qed.
Lemma boost_rest : restitutions bw = restitutions w.
Proof. unfold restitutions. cbn [boost_world with_state w_contacts w_bodies]. apply map_ext. intros c. now rewrite !boost_body_at. Qed.
Lemma boost_mu : mu bw = mu w.
Proof. unfold mu, mu_vec. cbn [boost_world with_state w_contacts w_bodies]. f_equal. apply map_ext. intros c. now rewrite !boost_body_at. Qed.
Lemma boost_forces t : world_apply_forces bw t = world_apply_forces w t.
Proof.
  unfold world_apply_forces. cbn [boost_world with_state w_bodies w_heap]. rewrite mapM_map. reflexivity.
Qed.
Lemma boost_v : w_v bw = vadd (w_v w) V. Proof. reflexivity. Qed.
Lemma Jv_boost : mv (Jc w) (w_v bw) = mv (Jc w) (w_v w).
Proof.
  rewrite boost_v, mv_vadd by (rewrite (so_vlen _ _ _ _ HS), uniform_length; reflexivity). rewrite V_Jc. apply vadd_zeros_r. rewrite mv_length. unfold Jc. apply map_length.
Qed.
Lemma Mv_boost dt f : length f = n -> vadd (mv (w_M w) (w_v bw)) (vscale dt f) = vadd (step_rhs w dt f) (mv (w_M w) V).
Proof.
  intros Lf. rewrite boost_v, mv_vadd by (rewrite (so_vlen _ _ _ _ HS), uniform_length; reflexivity). unfold step_rhs. rewrite !vadd_assoc. f_equal. apply vadd_comm.
Qed.
Lemma free_boost inv u : la_inv la (sys w) = Ok inv -> length u = n ->
  firstn n (mv inv (vadd u (mv (w_M w) V) ++ vzeros neq)) = vadd (firstn n (mv inv (u ++ vzeros neq))) V.
Proof.
  intros Hi Lu. destruct (inv_ok _ HL _ _ _ (wf_sys _ _ _ _ HS) Hi) as [[Wi _] Hxu].
  assert (LM : length (mv (w_M w) V) = n). { rewrite mv_length. apply (so_symm _ _ _ _ HS). }
  assert (E : vadd u (mv (w_M w) V) ++ vzeros neq = vadd (u ++ vzeros neq) (mv (w_M w) V ++ vzeros neq)).
  { rewrite vadd_app by lia. f_equal. rewrite vadd_zeros_r; [reflexivity|apply vzeros_length]. }
  assert (E2 : mv inv (mv (w_M w) V ++ vzeros neq) = V ++ vzeros neq).
  { assert (LV : length (V ++ vzeros neq) = (n + neq)%nat) by (rewrite app_length, uniform_length, vzeros_length; reflexivity).
    destruct (Hxu _ LV) as [_ K]. rewrite <- K. f_equal. rewrite (mv_sys _ _ _ _ HS) by (try apply uniform_length; apply vzeros_length). rewrite V_Je, vm_zeros, vsub_zeros_r; [reflexivity|exact LM]. }
  rewrite E, mv_vadd by (rewrite !app_length, LM; lia). rewrite E2.
  rewrite <- (firstn_skipn n (mv inv (u ++ vzeros neq))) at 1. assert (Lf : length (firstn n (mv inv (u ++ vzeros neq))) = n). { rewrite firstn_length, mv_length, Wi. lia. }
  rewrite vadd_app by (rewrite Lf, uniform_length; reflexivity). rewrite firstn_app, vadd_length, Lf, uniform_length, Nat.min_id, Nat.sub_diag, firstn_O, app_nil_r.
  apply firstn_all2. rewrite vadd_length, Lf, uniform_length. lia.
Qed.
Lemma with_zeros (u : vecR) : (if Nat.ltb 0 neq then u ++ vzeros neq else u) = u ++ vzeros neq.
Proof. destruct (Nat.ltb_spec 0 neq); [reflexivity|]. replace neq with 0%nat by lia. unfold vzeros. cbn. now rewrite app_nil_r. Qed.

Lemma boost_solve dt : solve_dynamics la mi bw dt = rmap (fun r => (vadd (fst r) V, snd r)) (solve_dynamics la mi w dt).
Proof.
  unfold solve_dynamics. cbv zeta. rewrite boost_forces, boost_Je. change (w_t bw) with (w_t w). destruct (world_apply_forces w (w_t w)) as [f|er] eqn:Ef; [|reflexivity]. cbn [bind].
  destruct (apply_forces_layout _ _ _ Ef) as [Lf _]. change (w_M bw) with (w_M w). rewrite (Mv_boost dt f Lf).
  change (w_num_constraints bw) with neq. change (w_contacts bw) with (w_contacts w). change (w_cache bw) with (w_cache w). change (w_static_inverse bw) with (w_static_inverse w). change (w_fric_dirs bw) with (w_fric_dirs w).
  replace (length (w_bodies bw)) with (length (w_bodies w)) by (cbn; now rewrite map_length). fold (step_rhs w dt f).
  pose proof (step_rhs_length _ _ _ _ HS dt f Lf) as L0.
  destruct (w_contacts w) as [|c0 cs] eqn:EC.
  - match goal with |- (do ic <- ?m; _) = _ => assert (Hic : forall inv c, m = Ok (inv, c) -> la_inv la (sys w) = Ok inv) end.
    { intros inv c. fold (sys w). destruct (w_cache w) as [i|] eqn:Ecache; intros H.
      - injection H as <- _. apply HV in Ecache. apply Ecache.
      - bind_inv H as i Hi. injection H as <- _. exact Hi. }
    match goal with |- (do ic <- ?m; _) = _ => destruct m as [[inv c]|er] end; [|reflexivity]. cbn [bind rmap fst snd]. specialize (Hic _ _ eq_refl).
    rewrite !with_zeros. apply f_equal. apply f_equal2; [|reflexivity]. now apply free_boost.
  - rewrite <- EC in *.
    assert (Hne : w_contacts w <> []) by (rewrite EC; discriminate).
    assert (EP : contact_problem bw (if Nat.ltb 0 neq then vadd (step_rhs w dt f) (mv (w_M w) V) ++ vzeros neq else vadd (step_rhs w dt f) (mv (w_M w) V)) =
                 rmap (bprob V) (contact_problem w (if Nat.ltb 0 neq then step_rhs w dt f ++ vzeros neq else step_rhs w dt f))).
    { unfold contact_problem. rewrite boost_Jf, boost_Je, boost_Jc, boost_rest, boost_mu, Jv_boost. change (w_contacts bw) with (w_contacts w). replace (length (w_bodies bw)) with (length (w_bodies w)) by (cbn; now rewrite map_length).
      destruct (Jf w) as [jf|er]; [|reflexivity]. cbn [bind rmap]. unfold bprob. cbn [pr_Q pr_p pr_G pr_h pr_A pr_b pr_F]. f_equal.
      change (w_M bw) with (w_M w). change (w_fric_dirs bw) with (w_fric_dirs w). change (w_num_constraints bw) with neq. change (world_E bw) with (world_E w). f_equal.
      rewrite !with_zeros. assert (L1 : length (vadd (step_rhs w dt f) (mv (w_M w) V)) = n). { rewrite vadd_length, L0, mv_length, (wf_length _ _ _ (proj1 (so_symm _ _ _ _ HS))). lia. }
      rewrite !firstn_app, L0, L1, Nat.sub_diag, !firstn_O, !app_nil_r, !firstn_all2 by lia. reflexivity. }
    match type of EP with _ = ?r => match goal with |- bind ?m _ = _ => replace m with r by (symmetry; exact EP) end end. destruct (contact_problem w _) as [pr|er] eqn:Epr; [|reflexivity]. cbn [bind rmap].
    destruct (contact_problem_inv bs js J0 w HS dt f pr Hne Lf Epr) as [E2 ->]. rewrite E2.
    pose proof (step_sized _ _ _ _ HS dt f Lf) as Hsz.
    assert (Hu : Forall (unseen (nc + 2 * nc + nc) neq V) [step_prob w dt f]). { constructor; [|constructor]. split; cbn [step_prob pr_G pr_A]; [apply (V_G 0)|apply V_Je]. }
    assert (Hn : (0 < nc + 2 * nc + nc)%nat) by (rewrite EC; cbn; lia).
    pose proof (forward_boost la HL n (nc + 2 * nc + nc) neq Hn V (uniform_length _ _) (mkOpts (ncst C_1em12) 3 mi) [step_prob w dt f] (Forall_cons _ Hsz (Forall_nil _)) Hu) as FB.
    cbn [map] in FB. rewrite FB. clear FB. destruct (lcp_forward _ _ _ _ _ _) as [r|er] eqn:Er; [|reflexivity]. cbn [rmap bind].
    destruct r as [[[|x xs] sv]|]; try reflexivity. cbn [option_map fst snd map rmap]. do 2 f_equal.
    rewrite vsub_vadd, vopp_vadd, vopp_vopp. reflexivity.
Qed.
Lemma boost_post : post_stabilization la bw = post_stabilization la w.
Proof.
  unfold post_stabilization. cbv zeta. rewrite boost_Je, boost_Jc, boost_rest, Jv_boost. change (w_contacts bw) with (w_contacts w). replace (length (w_bodies bw)) with (length (w_bodies w)) by (cbn; now rewrite map_length).
  change (w_num_constraints bw) with neq. change (w_M bw) with (w_M w). change (w_cache bw) with (w_cache w).
  assert (E : mv (Je w) (w_v bw) = mv (Je w) (w_v w)).
  { rewrite boost_v, mv_vadd by (rewrite (so_vlen _ _ _ _ HS), uniform_length; reflexivity). rewrite V_Je. apply vadd_zeros_r. rewrite mv_length. apply (so_Je _ _ _ _ HS). }
  rewrite E. reflexivity.
Qed.
End Engine.

(** *** steps and histories *)
Lemma v2scale_0 k : v2scale k (0, 0) = (0, 0) :> v2 R.
Proof. pairs. f_equal; ring. Qed.
Lemma boost_cache U d w c : boost_world U d (with_cache w c) = with_cache (boost_world U d w) c.
Proof. reflexivity. Qed.
Section Run.
Variables (U : v2 R) (bs : list (body R)) (js : list (joint R)) (J0 : list jent) (la : lapack R) (mi : nat) (o : oracle R) (hd : handler R).
Hypothesis HL : lapack_ok la.
Hypothesis HU : Forall pushless js \/ U = (0, 0).
Hypothesis Ho : translation_invariant o.
Hypothesis Hs : broadphase_sane o.
Hypothesis He : equivariant hd.
Hypothesis Hf : handler_frame hd.
Hypothesis Hr : handler_respects hd.
Notation eng := (pdipm_engine la mi).
Notation later d w w' := (v2add d (v2scale (w_t w' - w_t w) U)).

Lemma tries_t sp sr w dt k w' dt' : tries o hd sp sr w dt k w' dt' -> w_t w' = w_t w.
Proof.
  intros H. induction H as [w dt w1 w2 M F _|w dt w1 w2 w3 k w' dt' M F _ _ R _ IH]; apply find_contacts_t in F; apply move_all_t in M; [congruence|]. apply rewind_t in R. congruence.
Qed.
Lemma sound_tries w w1 dt k w2 dt' : sound bs js J0 w -> sound bs js J0 w1 -> tries o hd (cat3 (map b_p (w_bodies w))) (rots w) w1 dt k w2 dt' -> sound bs js J0 w2.
Proof.
  intros S S1 H. induction H as [x dt x1 x2 M F _|x dt x1 x2 x3 k x' dt' M F _ _ R _ IH].
  - eapply (sound_find _ _ _ o hd Hf Hr Hs); [eapply sound_move; eauto|exact F].
  - apply IH. eapply (sound_rewind _ _ _ w x2); eauto. eapply (sound_find _ _ _ o hd Hf Hr Hs); [eapply sound_move; eauto|exact F].
Qed.
Lemma boost_step_dt fuel d w dt w' : sound bs js J0 w -> valid la w -> step_dt fuel o hd eng w dt = Ok w' ->
  step_dt fuel o hd eng (boost_world U d w) dt = Ok (boost_world U (later d w w') w').
Proof.
  intros S V H. unfold step_dt in *. cbn [e_solve e_post pdipm_engine] in *. rewrite (boost_solve U d bs js J0 w la mi HL S V HU).
  bind_inv H as sol Es. rewrite Es. destruct sol as [v c]. cbn [rmap bind fst snd].
  bind_inv H as w1 E1. bind_inv H as r Er. destruct r as [w2 dt'].
  pose proof (boost_set_v U U d (with_cache w c) v w1 E1) as B1. cbn [with_cache with_state w_bodies] in B1. rewrite boost_cache in B1. rewrite B1. cbn [bind].
  assert (S1 : sound bs js J0 w1). { eapply sound_set_v; [|exact E1]. now apply sound_cache. }
  assert (L1 : length (w_bodies w1) = length (w_bodies w)). { rewrite (so_len _ _ _ _ S1), (so_len _ _ _ _ S). reflexivity. }
  assert (Esp : cat3 (map b_p (w_bodies (boost_world U d w))) = vadd (cat3 (map b_p (w_bodies w))) (uniform d (length (w_bodies w)))).
  { cbn [boost_world with_state w_bodies]. rewrite map_map. cbn [boost_body b_p]. rewrite <- (map_map b_p (shift3 d)), cat3_shift, map_length. reflexivity. }
  assert (Esr : map (fun '(j, _, _) => (j_rot1 j, j_rot2 j)) (w_joints (boost_world U d w)) = map (fun '(j, _, _) => (j_rot1 j, j_rot2 j)) (w_joints w)).
  { cbn [boost_world with_state w_joints]. rewrite map_map. apply map_ext. intros [[j i1] i2]. reflexivity. }
  rewrite Esp, Esr. rewrite (boost_loop U d o hd Ho He Hf (length (w_bodies w))) by (try exact L1; rewrite cat3_length, map_length; reflexivity).
  rewrite Er. cbn [rmap bind fst snd]. set (d2 := v2add d (v2scale dt' U)).
  bind_inv H as w3 E3. injection H as <-.
  assert (T1 : w_t w1 = w_t w). { apply set_v_t in E1. exact E1. }
  assert (T2 : w_t w2 = w_t w). { apply step_loop_tries in Er. destruct Er as (k & _ & Ht). apply tries_t in Ht. congruence. }
  change (w_post_stab (boost_world U d2 w2)) with (w_post_stab w2).
  destruct (w_post_stab w2) eqn:Eps.
  - bind_inv E3 as dp Ep. bind_inv E3 as wa Ea. bind_inv E3 as wb Eb. bind_inv E3 as wc Ec.
    assert (S2 : sound bs js J0 w2).
    { apply step_loop_tries in Er. destruct Er as (k & _ & Ht).
      exact (sound_tries w _ _ _ _ _ S S1 Ht). }
    rewrite (boost_post U d2 bs js J0 w2 la S2 HU). rewrite Ep. cbn [bind]. rewrite (boost_set_v0 U d2 w2 _ wa Ea). cbn [bind].
    rewrite boost_move_all, Eb, v2scale_0, v2add_0. cbn [rmap bind].
    assert (Lb : length (w_bodies wb) = length (w_bodies w2)).
    { apply move_all_inv in Eb. destruct Eb as [js' ->]. apply set_v_inv in Ea. destruct Ea as [_ ->]. cbn. now rewrite map_length, mapi_length'. }
    change (w_v (boost_world U d2 w2)) with (vadd (w_v w2) (uniform U (length (w_bodies w2)))). rewrite <- Lb. rewrite (boost_set_v U (0, 0) d2 wb _ wc Ec). cbn [bind].
    rewrite boost_find by auto. rewrite E3. cbn [rmap bind].
    assert (T3 : w_t w3 = w_t w). { apply find_contacts_t in E3. apply set_v_t in Ec. apply move_all_t in Eb. apply set_v_t in Ea. congruence. }
    unfold d2. cbn [with_t with_state w_t]. rewrite T3. replace (w_t w + dt' - w_t w) with dt' by ring. unfold with_t, boost_world, with_state. cbn. rewrite T3. reflexivity.
  - injection E3 as <-. cbn [bind]. cbn [with_t with_state w_t]. rewrite T2. replace (w_t w + dt' - w_t w) with dt' by ring. unfold d2, with_t, boost_world, with_state. cbn. rewrite T2. reflexivity.
Qed.
Lemma later_refl d w : later d w w = d.
Proof. replace (w_t w - w_t w) with 0 by ring. destruct d. pairs. f_equal; ring. Qed.
Lemma later_trans d w w1 w2 : later (later d w w1) w1 w2 = later d w w2.
Proof. pairs. f_equal; ring. Qed.
Lemma valid_step fuel w dt w' : valid la w -> step_dt fuel o hd eng w dt = Ok w' -> valid la w'.
Proof. intros V H. destruct (step_dt_uncached la mi fuel o hd w dt Hf V) as [_ E]. now apply E. Qed.
Lemma boost_fixed lfuel end_t fuel : forall d w w', sound bs js J0 w -> valid la w -> fixed_loop fuel lfuel o hd eng end_t w = Ok w' ->
  fixed_loop fuel lfuel o hd eng end_t (boost_world U d w) = Ok (boost_world U (later d w w') w').
Proof.
  induction fuel as [|fuel IH]; intros d w w' S V H; cbn [fixed_loop] in *; [discriminate|]. change (w_t (boost_world U d w)) with (w_t w).
  destruct (nltb (w_t w) end_t).
  - bind_inv H as w1 E1. rewrite (boost_step_dt _ d w _ w1 S V E1). cbn [bind]. rewrite (IH _ w1 w'); auto.
    + now rewrite later_trans.
    + eapply (sound_step_dt bs js J0 o hd Hf Hr Hs); eauto.
    + eapply valid_step; eauto.
  - injection H as <-. now rewrite later_refl.
Qed.
Lemma boost_exec fuel ops : forall d w w', sound bs js J0 w -> valid la w -> exec fuel o hd eng ops w = Ok w' ->
  exec fuel o hd eng (map (boost_op U (length bs)) ops) (boost_world U d w) = Ok (boost_world U (later d w w') w').
Proof.
  induction ops as [|c ops IH]; intros d w w' S V H; cbn [exec map] in *; [injection H as <-; now rewrite later_refl|].
  assert (K : forall w1, sound bs js J0 w1 -> valid la w1 -> exec fuel o hd eng ops w1 = Ok w' ->
    exec fuel o hd eng (map (boost_op U (length bs)) ops) (boost_world U (later d w w1) w1) = Ok (boost_world U (later d w w') w')).
  { intros w1 S1 V1 H1. rewrite (IH _ w1 w' S1 V1 H1). now rewrite later_trans. }
  destruct c as [fx|dt|v]; cbn [boost_op].
  - bind_inv H as w1 E1.
    assert (E : step fuel o hd eng fx (boost_world U d w) = Ok (boost_world U (later d w w1) w1)).
    { unfold step in *. destruct fx; [|now apply boost_step_dt]. now apply boost_fixed. }
    rewrite E. cbn [bind]. apply K; auto.
    + eapply (sound_exec bs js J0 o hd Hf Hr Hs fuel eng [OStep fx]); [exact S|]. cbn [exec]. rewrite E1. reflexivity.
    + destruct (exec_uncached la mi fuel o hd [OStep fx] Hf w V) as [_ X]. apply X. cbn [exec]. unfold step in *. now rewrite E1.
  - bind_inv H as w1 E1. rewrite (boost_step_dt fuel d w dt w1 S V E1). cbn [bind]. apply K; auto.
    + eapply (sound_step_dt bs js J0 o hd Hf Hr Hs); eauto.
    + eapply valid_step; eauto.
  - bind_inv H as w1 E1. rewrite <- (so_len _ _ _ _ S). rewrite (boost_set_v U U d w v w1 E1). cbn [bind]. rewrite (so_len _ _ _ _ S).
    pose proof (set_v_t _ _ _ E1) as T. specialize (K w1). rewrite T in K. replace (v2add d (v2scale (w_t w - w_t w) U)) with d in K by (symmetry; apply later_refl). apply K; auto.
    + eapply sound_set_v; eauto.
    + destruct (exec_uncached la mi fuel o hd [OSetV v] Hf w V) as [_ X]. apply X. cbn [exec]. now rewrite E1.
Qed.
End Run.

(** *** the constructor *)
Lemma boost_index U d bs id : index_of (map (boost_body U d) bs) id = index_of bs id.
Proof. induction bs as [|b bs IH]; [reflexivity|]. cbn [map index_of boost_body b_id]. now rewrite IH. Qed.
Lemma fold_map {A B C} (f : A -> B -> A) (g : C -> B) l a : fold_left f (map g l) a = fold_left (fun a c => f a (g c)) l a.
Proof. revert a. induction l as [|c l IH]; intros a; cbn; auto. Qed.
Lemma boost_M U d bs : world_M (map (boost_body U d) bs) = world_M bs.
Proof.
  unfold world_M. rewrite map_length.
  assert (E : forall k M, fold_left (fun M ib => blk_put M (3 * fst ib) (3 * fst ib) (b_M (snd ib))) (combine (seq k (length bs)) (map (boost_body U d) bs)) M =
                          fold_left (fun M ib => blk_put M (3 * fst ib) (3 * fst ib) (b_M (snd ib))) (combine (seq k (length bs)) bs) M); [|apply E].
  induction bs as [|b bs IH]; intros k M; [reflexivity|]. cbn [length seq map combine fold_left fst snd]. rewrite IH. reflexivity.
Qed.
Lemma boost_init U d o hd heap bs js dt eps tol fd ps st w : translation_invariant o -> equivariant hd -> handler_frame hd ->
  world_init o hd heap bs js dt eps tol fd ps st = Ok w ->
  world_init o hd heap (map (boost_body U d) bs) (map (shift_joint d) js) dt eps tol fd ps st = Ok (boost_world U d w).
Proof.
  intros Ho He Hf H. unfold world_init in *. destruct bs as [|b0 bs0] eqn:Eb; [discriminate|]. rewrite <- Eb in *.
  destruct (map (boost_body U d) bs) as [|c0 cs0] eqn:Ec; [rewrite Eb in Ec; discriminate|]. rewrite <- Ec.
  rewrite (mapM_rmap (fun j => do i1 <- index_of bs (j_b1 j); match j_b2 j with None => Ok (j, i1, None) | Some id => do i2 <- index_of bs id; Ok (j, i1, Some i2) end) _ _ (fun '(j, i1, i2) => (shift_joint d j, i1, i2))).
  2:{ intros j _. cbn [shift_joint j_b1 j_b2]. rewrite boost_index. destruct (index_of bs (j_b1 j)) as [i1|]; [|reflexivity]. cbn [bind rmap]. destruct (j_b2 j) as [id|]; [|reflexivity].
      rewrite boost_index. destruct (index_of bs id); reflexivity. }
  bind_inv H as jl Ej. rewrite Ej. cbn [rmap bind]. bind_inv H as w1 E1. bind_inv H as w2 E2.
  set (w0 := mkWorld bs jl heap _ _ _ _ _ _ _ _ _ _ _ _ _ _) in E1.
  match goal with |- context [set_v ?x _] => set (w0' := x) end.
  assert (E0 : forall v, set_v w0' v = set_v (boost_world U d w0) v).
  { intros v. unfold set_v. unfold w0', w0, boost_world, with_state. cbn [w_bodies w_joints w_heap w_t w_dt w_eps w_tol w_fric_dirs w_post_stab w_strict w_v w_contacts w_static_inverse w_num_constraints w_M w_cache w_clk].
    destruct (Nat.eqb _ _); [|reflexivity]. f_equal. rewrite boost_M, fold_map. f_equal. clear. induction js as [|j js IH]; [reflexivity|]. cbn [map forallb]. now rewrite IH. }
  assert (Ev : cat3 (map b_v (map (boost_body U d) bs)) = vadd (cat3 (map b_v bs)) (uniform U (length bs))).
  { rewrite map_map. cbn [boost_body b_v]. rewrite <- (map_map b_v (shift3 U)), cat3_shift, map_length. reflexivity. }
  rewrite Ev, E0. pose proof (boost_set_v U U d w0 _ w1 E1) as B. cbn [w0 w_bodies] in B. rewrite B. cbn [bind]. rewrite boost_find by auto. rewrite E2. cbn [rmap bind].
  change (no_penetration (boost_world U d w2)) with (no_penetration w2). destruct (st && negb (no_penetration w2))%bool; [discriminate|]. now injection H as <-.
Qed.

Theorem boost_session U d la mi o hd gf fuel heap bs js dt eps tol fd ps st w0 ops w : lapack_ok la ->
  (hd = diff_handler gf o \/ hd = ode_handler o) -> broadphase_sane o -> translation_invariant o -> NoDup (map b_id bs) -> Forall (built bs) js ->
  (Forall pushless js \/ U = (0, 0)) ->
  world_init o hd heap bs js dt eps tol fd ps st = Ok w0 -> exec fuel o hd (pdipm_engine la mi) ops w0 = Ok w ->
  exists w0', world_init o hd heap (map (boost_body U d) bs) (map (shift_joint d) js) dt eps tol fd ps st = Ok w0' /\
    exec fuel o hd (pdipm_engine la mi) (map (boost_op U (length bs)) ops) w0' = Ok (boost_world U (v2add d (v2scale (w_t w) U)) w).
Proof.
  intros HL Hh Hs Ho Hn Hb HU H0 Hx. destruct (callback_frame _ _ _ Hh) as [Hf Hr].
  assert (He : equivariant hd) by (destruct Hh as [-> | ->]; auto using diff_equivariant, ode_equivariant).
  exists (boost_world U d w0). split; [now apply boost_init|].
  pose proof (sound_init o hd bs js _ _ _ _ _ _ _ _ Hf Hr Hs Hn Hb H0) as S. destruct (init_valid la _ _ _ _ _ _ _ _ _ _ _ _ Hf H0) as [V _].
  rewrite (boost_exec U bs js (w_joints w0) la mi o hd HL HU Ho Hs He Hf Hr fuel ops d w0 w S V Hx).
  assert (T : w_t w0 = 0). { apply world_init_inv in H0. tauto. } rewrite T. replace (w_t w - 0) with (w_t w) by ring. reflexivity.
Qed.

(** *** the constructors of bodies and constraints *)
Lemma shift_to_v3 d l : to_v3 (shift_args d l) = result_map (shift3 d) (to_v3 l).
Proof. destruct l as [|a [|b [|c [|]]]]; reflexivity. Qed.
Lemma boost_body_init U d id k pos vel m e mu eps : body_init id k (shift_args d pos) (shift_args U vel) m e mu eps = result_map (boost_body U d) (body_init id k pos vel m e mu eps).
Proof.
  unfold body_init. rewrite !shift_to_v3. destruct (to_v3 pos) as [p|]; [|reflexivity]. destruct (to_v3 vel) as [v|]; reflexivity.
Qed.
Lemma boost_circle_init U d id pos rad vel m e mu eps : circle_init id (shift_args d pos) rad (shift_args U vel) m e mu eps = result_map (boost_body U d) (circle_init id pos rad vel m e mu eps).
Proof. apply boost_body_init. Qed.
Lemma boost_hull_gen U d mkk id rp vs vel m e mu eps :
  hull_init_gen mkk id (v2add rp d) vs (shift_args U vel) m e mu eps = result_map (boost_body U d) (hull_init_gen mkk id rp vs vel m e mu eps).
Proof.
  unfold hull_init_gen. destruct (_ && _)%bool; [|reflexivity]. rewrite <- boost_body_init. f_equal. cbn [shift_args]. pairs. f_equal; [ring|]. f_equal. ring.
Qed.
Lemma boost_rect_init U d id pos dims vel m e mu eps : rect_init id (shift_args d pos) dims (shift_args U vel) m e mu eps = result_map (boost_body U d) (rect_init id pos dims vel m e mu eps).
Proof.
  unfold rect_init. rewrite shift_to_v3. destruct (to_v3 pos) as [p|] eqn:E; [|reflexivity]. cbn [result_map bind shift3 snd]. rewrite boost_hull_gen. destruct (hull_init_gen _ _ _ _ _ _ _ _ _) as [b|]; [|reflexivity]. cbn [result_map bind].
  assert (L : length (shift_args d pos) = length pos) by (destruct pos as [|a [|b' [|c [|]]]]; reflexivity). rewrite L. destruct (Nat.eqb _ _); [|reflexivity]. cbn [result_map]. now rewrite boost_set_p.
Qed.
Lemma boost_joint_init U d b1 ob2 pos : joint_init (boost_body U d b1) (option_map (boost_body U d) ob2) (v2add pos d) = shift_joint d (joint_init b1 ob2 pos).
Proof. unfold joint_init. rewrite boost_pos, sub_shift. destruct (cart_to_polar _). destruct ob2 as [b2|]; cbn [option_map]; rewrite ?boost_pos, ?sub_shift; reflexivity. Qed.
Lemma boost_fixed_init U d b1 b2 : fixed_init (boost_body U d b1) (boost_body U d b2) = shift_joint d (fixed_init b1 b2).
Proof. unfold fixed_init. rewrite !boost_pos, !sub_shift. reflexivity. Qed.
Lemma boost_axis_init k U d b : axis_init k (boost_body U d b) = shift_joint d (axis_init k b).
Proof. reflexivity. Qed.
Lemma boost_total_init U d b : total_init (boost_body U d b) = shift_joint d (total_init b).
Proof. unfold total_init. rewrite !boost_pos, !sub_shift. destruct (cart_to_polar _). reflexivity. Qed.
