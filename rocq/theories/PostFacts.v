(** Post-stabilisation, and where a step puts the bodies *)
From Coq Require Import List Arith ZArith Bool Reals Lra Lia.
From Verif Require Import Num Tensor Utils Bodies Forces Constraints Contacts World Lapack Pdipm Lcp Engines Spec GeoSpec JointSpec EngineSpec
     RBase ResFacts LinAlg LapackSpec KktSpec PdipmSpec WorldFacts HandlerFacts LayoutFacts HistFacts SysFacts RewindFacts JointFacts JeFacts
     CacheFacts BodyReach GeomFacts PdipmFacts PdipmLoop SolverFacts EngineFacts ContactSys EngineBalance MomentumFacts.
Import ListNotations.
Open Scope R_scope.

Lemma app_split {A} (a b c d : list A) : length a = length c -> a ++ b = c ++ d -> a = c /\ b = d.
Proof. revert c. induction a as [|x a IH]; intros [|y c] H E; try discriminate; [auto|]. injection E as -> E. injection H as H. destruct (IH c H E) as [-> ->]. auto. Qed.

Section Engine.
Variables (bs : list (body R)) (js : list (joint R)) (J0 : list jent) (w : world R) (la : lapack R).
Hypothesis HS : sound bs js J0 w.
Hypothesis HL : lapack_ok la.
Hypothesis HV : valid la w.
Notation n := (3 * length (w_bodies w))%nat.
Notation neq := (w_num_constraints w).
Notation nc := (length (w_contacts w)).

(** the correction is produced by impulses at the contacts and in the constraints, and cancels the constraint velocities *)
Lemma post_balance dp : post_stabilization la w = Ok dp -> length dp = n /\
  constraint_velocity w dp = vopp (constraint_velocity w (w_v w)) /\
  exists lam y, length lam = nc /\ length y = neq /\
    forall x, length x = n -> kinetic w x dp = contact_power (w_contacts w) (map (fun l => (l, 0)) lam) x + dot y (constraint_velocity w x).
Proof.
  intros H. pose proof (wf_length _ _ _ (proj1 (so_symm _ _ _ _ HS))) as LM. pose proof (so_vlen _ _ _ _ HS) as Lv.
  pose proof (wf_length _ _ _ (so_Je _ _ _ _ HS)) as LJ.
  assert (G : exists lam y, length dp = n /\ length lam = nc /\ length y = neq /\ mv (w_M w) dp = vadd (vm n lam (Jc w)) (vm n y (Je w)) /\ mv (Je w) dp = vopp (mv (Je w) (w_v w))).
  { unfold post_stabilization in H. cbv zeta in H. destruct (w_contacts w) as [|c0 cs] eqn:EC.
    - bind_inv H as inv Ei. injection H as H. fold (sys w) in Ei.
      assert (Hi : la_inv la (sys w) = Ok inv). { destruct (w_cache w) as [i|] eqn:Ec; [|exact Ei]. injection Ei as ->. now apply HV in Ec. }
      destruct (sys_inv _ _ _ _ HS la HL inv (vzeros n ++ mv (Je w) (w_v w)) Hi) as (x & y & E & Lx & Ly & Eq).
      { rewrite app_length, vzeros_length, mv_length. lia. }
      assert (EF : firstn n (mv inv (vzeros n ++ mv (Je w) (w_v w))) = x) by (rewrite E, firstn_app, Lx, Nat.sub_diag, firstn_O, app_nil_r, firstn_all2 by lia; reflexivity).
      assert (Ed : dp = vopp x) by (rewrite <- H; apply (f_equal vopp); exact EF). clear H. subst dp. clear EF E.
      assert (L1 : length (vsub (mv (w_M w) x) (vm n y (Je w))) = n) by (rewrite vsub_length, mv_length, vm_length; lia).
      destruct (app_split _ _ _ _ (eq_trans L1 (eq_sym (vzeros_length n))) Eq) as [E1 E2].
      exists [], (vopp y). split; [rewrite vopp_length; exact Lx|]. split; [reflexivity|]. split; [now rewrite vopp_length|]. split.
      + rewrite mv_vopp, vm_nil, vm_vopp. vec_eq. apply (f_equal (fun z => vget z i)) in E1. rewrite vget_vsub, vget_zeros in E1 by vlen. lra.
      + now rewrite mv_vopp, E2.
    - rewrite <- EC in *. set (pr := {| pr_Q := w_M w |}) in H. bind_inv H as r Er.
      assert (Hsz : Forall (sized n nc neq) [pr]).
      { apply Forall_cons; [|apply Forall_nil]. constructor; unfold pr; cbn [pr_Q pr_p pr_G pr_h pr_A pr_b pr_F].
        - constructor; [apply (so_symm _ _ _ _ HS)|apply wf_Jc, (so_range _ _ _ _ HS)|apply wf_mzeros|apply (so_Je _ _ _ _ HS)].
        - apply vzeros_length.
        - rewrite vadd_length, vmul_length, vopp_length, mv_length, (restitutions_length w). unfold Jc. rewrite map_length. lia.
        - rewrite mv_length. exact LJ. }
      destruct r as [[[|x xs] sv]|]; try discriminate. injection H as <-.
      assert (H3 : (0 < lo_lim (default_opts : lcp_opts R))%nat) by (cbn; lia).
      destruct (forward_best la HL _ _ _ _ _ _ _ Hsz H3 Er) as (Ex & Lb & _). cbn [length] in Lb.
      destruct (sv_best sv) as [|it [|]] eqn:Eb; try discriminate. injection Ex as -> ->.
      destruct (forward_returned la HL _ _ _ _ _ _ _ Hsz H3 Er 0 it) as (pr' & Ep & P1 & P2 & P3 & zeta & Lz & P4); [now rewrite Eb|].
      injection Ep as <-. unfold pr in P3, P4. cbn [pr_Q pr_p pr_G pr_h pr_A pr_b pr_F] in P3, P4. destruct P1 as [Px _ _ Py].
      exists zeta, (i_y it). split; [now rewrite vopp_length|]. split; [exact Lz|]. split; [exact Py|]. split; [|now rewrite mv_vopp, P3].
      rewrite mv_vopp. vec_eq. apply (f_equal (fun z => vget z i)) in P4. rewrite !vget_vadd, !vget_zeros in P4 by vlen. lra. }
  destruct G as (lam & y & Ld & Ll & Ly & E1 & E2). split; [exact Ld|]. split; [now rewrite <- !(Je_cv _ _ _ _ HS) by auto|].
  exists lam, y. split; [exact Ll|]. split; [exact Ly|]. intros x Hx.
  rewrite <- (kinetic_dot w x dp (so_M _ _ _ _ HS) Hx Ld), E1.
  rewrite !dot_vadd_r by vlen. rewrite !(dot_comm x (vm _ _ _)). rewrite (dot_vm nc n) by (auto; apply wf_Jc, (so_range _ _ _ _ HS)).
  rewrite (dot_vm neq n) by (auto; apply (so_Je _ _ _ _ HS)). rewrite (Je_cv _ _ _ _ HS) by auto. rewrite mv_Jc by (auto; exact (so_range _ _ _ _ HS)).
  f_equal. clear - Ll. revert lam Ll. induction (w_contacts w) as [|c cs IH]; intros [|l lam] Ll; try discriminate; [reflexivity|].
  cbn [map map2]. unfold contact_power in *. cbn [map map2 Rsum fold_right]. rewrite dot_cons, IH by (cbn in Ll; lia). cbn [fst snd]. unfold Rsum. rnum. ring.
Qed.
End Engine.

(** *** where a step puts the bodies *)
Section Steps.
Variables (la : lapack R) (mi fuel : nat) (o : oracle R) (hd : handler R) (bs : list (body R)) (js : list (joint R)) (J0 : list jent).
Hypothesis HL : lapack_ok la.
Hypothesis Hf : handler_frame hd.
Hypothesis Hr : handler_respects hd.
Hypothesis Ho : broadphase_sane o.
Notation eng := (pdipm_engine la mi).

Lemma sound_tries w0 w dt k w' dt' : sound bs js J0 w0 -> sound bs js J0 w ->
  tries o hd (cat3 (map b_p (w_bodies w0))) (rots w0) w dt k w' dt' -> sound bs js J0 w'.
Proof.
  intros S0 S H. induction H as [w dt w1 w2 M F _ | w dt w1 w2 w3 k w' dt' M F _ _ R H IH].
  - exact (sound_find _ _ _ _ _ Hf Hr Ho _ _ (sound_move _ _ _ _ _ _ S M) F).
  - apply IH. exact (sound_rewind _ _ _ _ _ _ S0 (sound_find _ _ _ _ _ Hf Hr Ho _ _ (sound_move _ _ _ _ _ _ S M) F) R).
Qed.

Lemma step_poses w dt w' : sound bs js J0 w -> valid la w -> Forall geom_ok (w_bodies w) -> step_dt fuel o hd eng w dt = Ok w' ->
  exists v c k w2 dp, solve_dynamics la mi w dt = Ok (v, c) /\ sound bs js J0 w2 /\ valid la w2 /\ w_v w2 = v /\
    (w_post_stab w = false /\ dp = vzeros (3 * length (w_bodies w)) \/ w_post_stab w = true /\ post_stabilization la w2 = Ok dp) /\
    w_t w' = w_t w + dt / 2 ^ k /\
    (exists w1, set_v (with_cache w c) v = Ok w1 /\ tries o hd (cat3 (map b_p (w_bodies w))) (rots w) w1 dt k w2 (dt / 2 ^ k)) /\
    forall i b, nth_error (w_bodies w) i = Some b -> exists b', nth_error (w_bodies w') i = Some b' /\
      b_p b' = v3add (v3add (b_p b) (v3scale (dt / 2 ^ k) (v3_at v i))) (v3scale (dt / 2 ^ k / 2) (v3_at dp i)).
Proof.
  intros HS HV HG H. destruct (step_dt_moves _ _ _ _ _ _ _ Hf HG H) as (v & c & k & w1 & w2 & Es & E1 & Ht & HM & _ & Hn & Hp).
  cbn [e_solve e_post pdipm_engine] in Es, Hp.
  destruct (solve_uncached la mi w dt HV) as [_ V0]. specialize (V0 v c Es).
  assert (S1 : sound bs js J0 w1) by (exact (sound_set_v _ _ _ _ _ _ (sound_cache _ _ _ _ c HS) E1)).
  assert (V1 : valid la w1).
  { apply (valid_kinds la (with_cache w c)); auto; [apply (kinds_set_v _ _ _ E1)|apply (set_v_cfg _ _ _ E1)|]. apply set_v_inv in E1. destruct E1 as [_ ->]. reflexivity. }
  assert (Ev1 : w_v w1 = v) by (apply set_v_inv in E1; destruct E1 as [_ ->]; reflexivity).
  pose proof (sound_tries w w1 dt k w2 (dt / 2 ^ k) HS S1 Ht) as S2.
  assert (L1 : length (rots w) = length (w_joints w1)).
  { rewrite map_length. symmetry. apply (kinds_joints w1 (with_cache w c)), (kinds_set_v _ _ _ E1). }
  destruct (tries_valid la o hd _ _ w1 dt k w2 (dt / 2 ^ k) Hf L1 Ht V1) as (_ & V2 & _).
  assert (Ev : w_v w2 = v) by (rewrite <- Ev1; eapply tries_v; eauto).
  assert (P2 : forall i b, nth_error (w_bodies w) i = Some b -> exists b2, nth_error (w_bodies w2) i = Some b2 /\ b_p b2 = v3add (b_p b) (v3scale (dt / 2 ^ k) (v3_at v i))).
  { intros i b Hb. assert (Hwv : nth_error (with_vs (w_bodies w) v) i = Some (with_v b (v3_at v i))) by (unfold with_vs; rewrite mapi_nth, Hb; reflexivity).
    destruct (nth_error_Forall2_l _ _ _ _ _ HM Hwv) as (b2 & Hb2 & E). exists b2. split; [exact Hb2|].
    apply (f_equal b_p) in E. rewrite !forget_p in E. unfold move in E. rewrite set_p_p in E. exact E. }
  assert (Et : w_t w2 = w_t w).
  { destruct (tries_cfg _ _ _ _ _ _ _ _ _ Ht) as [_ ->]. apply set_v_inv in E1. destruct E1 as [_ ->]. reflexivity. }
  destruct (w_post_stab w) eqn:Eps.
  - destruct (Hp eq_refl) as (dp & wa & wb & wc & w3 & Edp & Ea & Eb & Ec & E3 & ->).
    exists v, c, k, w2, dp. repeat (split; [assumption|]). split; [right; auto|].
    split. { apply find_contacts_inv in E3. destruct E3 as (? & ? & ? & ->). apply set_v_inv in Ec, Ea. destruct Ec as [_ ->], Ea as [_ ->]. apply move_all_inv in Eb. destruct Eb as [js' ->]. cbn. now rewrite Et. }
    split; [now exists w1|].
    intros i b Hb. destruct (P2 i b Hb) as (b2 & Hb2 & Pb2).
    apply find_contacts_frame in E3; auto. apply set_v_inv in Ec, Ea. destruct Ec as [_ ->], Ea as [_ ->]. apply move_all_inv in Eb. destruct Eb as [js' ->].
    cbn [w_bodies with_t with_state with_bodies with_joints] in E3 |- *.
    set (L3 := mapi _ _) in E3.
    assert (HL3 : nth_error L3 i = Some (with_v (move (with_v b2 (v3_at (map (fun x => x / 2) dp) i)) (dt / 2 ^ k)) (v3_at (w_v w2) i))).
    { unfold L3. rewrite mapi_nth, nth_error_map, mapi_nth, Hb2. reflexivity. }
    assert (Hlen : length (w_bodies w3) = length L3) by (apply (f_equal (@length _)) in E3; rewrite !map_length in E3; auto).
    destruct (nth_error (w_bodies w3) i) as [b3|] eqn:Hb3.
    2:{ apply nth_error_None in Hb3. assert (i < length L3)%nat by (apply nth_error_Some; congruence). lia. }
    exists b3. split; [reflexivity|]. pose proof (map_forget_nth _ _ _ _ _ E3 Hb3 HL3) as E. apply (f_equal b_p) in E. rewrite !forget_p in E. rewrite E.
    cbn [b_p with_v]. unfold move. rewrite set_p_p. cbn [b_p b_v with_v]. rewrite Pb2. apply f_equal2; [reflexivity|].
    assert (Q : v3_at (map (fun x => x / 2) dp) i = v3scale (1 / 2) (v3_at dp i)).
    { assert (V : forall m, vget (map (fun x => x / 2) dp) m = vget dp m / 2) by (intros m; unfold vget; change (nofZ 0 : R) with 0; clear; revert m; induction dp as [|a l IH]; intros [|m]; cbn; rnum; try lra; apply IH).
      unfold v3_at, v3scale, v2scale. rewrite !V. cbn [fst snd]. rnum. apply f_equal2; [|apply f_equal2]; field. }
    rewrite Q. unfold v3scale, v2scale. cbn [fst snd]. rnum. apply f_equal2; [|apply f_equal2]; field; apply pow_nonzero; lra.
  - rewrite (Hn eq_refl). exists v, c, k, w2, (vzeros (3 * length (w_bodies w))). repeat (split; [assumption|]). split; [left; auto|]. split; [cbn; now rewrite Et|]. split; [now exists w1|]. intros i b Hb.
    destruct (P2 i b Hb) as (b2 & Hb2 & Pb2). exists b2. split; [exact Hb2|]. rewrite Pb2.
    assert (Z : v3_at (vzeros (3 * length (w_bodies w))) i = (0, (0, 0))) by (unfold v3_at; rewrite !vget_zeros; reflexivity). rewrite Z.
    unfold v3add, v3scale, v2add, v2scale. cbn [fst snd]. rnum. apply f_equal2; [|apply f_equal2]; ring.
Qed.
End Steps.
