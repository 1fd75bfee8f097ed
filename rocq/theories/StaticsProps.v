(** Whole runs of bodies coasting beside a structure at rest (proofs for C79) *)
From Coq Require Import List Arith Bool Reals Lra Lia.
From Verif Require Import Num Tensor Utils Bodies Forces Constraints Contacts World Lapack Pdipm Lcp Engines Spec GeoSpec JointSpec FreshSpec EngineSpec WellSpec StaticsSpec
     RBase ResFacts LinAlg LapackSpec KktSpec PdipmSpec WorldFacts HandlerFacts LayoutFacts HistFacts SysFacts RewindFacts JointFacts JeFacts FreshFacts
     CacheFacts BodyReach GeomFacts PdipmFacts PdipmLoop SolverFacts EngineFacts ContactSys EngineBalance MomentumFacts PostFacts HeldFacts FreeFacts DriftFacts ContactLaw EnergyFacts EngineTotal
     EngineProps EngineMore QpFacts WellFacts WellProps SteadyFacts FlightFacts GroupFacts EnergyRun StaticsFacts.
Import ListNotations.
Open Scope R_scope.

Lemma coasted_dt la bs js J0 w0 rest F m a : coasted la bs js J0 w0 rest F m a -> w_dt a = w_dt w0.
Proof. intros [_ _ _ C _ _ _ _]. cfg_fields C. congruence. Qed.
Lemma coasting_0 (w : world R) rest F : (forall i b, nth_error (w_bodies w) i = Some b -> rest i = true -> b_v b = (0, (0, 0))) ->
  coasting w rest F 0 = map (fun b => (b_p b, b_v b)) (w_bodies w).
Proof.
  intros H. apply nth_error_ext. intros i. unfold coasting. rewrite nth_error_map, mapi_nth. destruct (nth_error (w_bodies w) i) as [b|] eqn:E; [|reflexivity].
  cbn [option_map]. apply (f_equal Some). destruct (rest i) eqn:Er; [|reflexivity]. rewrite (H i b E Er). reflexivity.
Qed.
Lemma coast_start la o hd bs js J0 w0 rest F : sound bs js J0 w0 -> valid la w0 -> Forall geom_ok (w_bodies w0) -> contacts_current o hd w0 ->
  jointed w0 rest F -> clear_at o hd w0 (map fst (coasting w0 rest F 0)) -> coasted la bs js J0 w0 rest F 0 w0.
Proof.
  intros S V G HC [_ Hv] Hcl. rewrite (coasting_0 w0 rest F Hv) in Hcl. constructor; auto.
  - apply Forall2_refl', moved_steps.
  - apply Hcl; auto; [apply Forall2_refl', moved_steps|]. rewrite map_map. reflexivity.
  - cbn [INR]. ring.
  - symmetry. now apply coasting_0.
Qed.
Lemma coast_exec la mi fuel o hd bs js J0 w0 rest F : lapack_ok la -> handler_frame hd -> handler_respects hd -> broadphase_sane o ->
  sound bs js J0 w0 -> Forall (fun b : body R => 0 < b_mass b /\ 0 < b_inertia b) bs -> (forall t, world_apply_forces w0 t = Ok (F t)) -> 0 < w_dt w0 -> jointed w0 rest F ->
  forall fixed n, (forall m, (m < n)%nat -> in_balance w0 rest (F (w_t w0 + INR m * w_dt w0))) ->
  (forall m, (m <= n)%nat -> clear_at o hd w0 (map fst (coasting w0 rest F m))) -> length fixed = n ->
  forall j a w, (j <= n)%nat -> coasted la bs js J0 w0 rest F j a -> exec fuel o hd (pdipm_engine la mi) (map (@OStep R) (skipn j fixed)) a = Ok w -> coasted la bs js J0 w0 rest F n w.
Proof.
  intros HL Hf Hr Ho S0 Hm HF Hdt Hst fixed n Hb HC Hn j a w Hj. remember (n - j)%nat as d eqn:Ed. revert j a Hj Ed.
  induction d as [|d IH]; intros j a Hj Ed Fl H.
  - assert (j = n) by lia. subst j. rewrite skipn_all2 in H by lia. cbn in H. injection H as <-. exact Fl.
  - destruct (skipn j fixed) as [|fx rst] eqn:Es; [pose proof (skipn_length j fixed) as Q; rewrite Es in Q; cbn in Q; lia|].
    assert (Er : rst = skipn (S j) fixed).
    { clear - Es. revert fixed Es. induction j as [|j IH]; intros [|x l] Es; cbn in Es |- *; try discriminate; [now injection Es|exact (IH _ Es)]. }
    cbn [map exec] in H. bind_inv H as a1 E1. rewrite Er in H. assert (Hlt : (j < n)%nat) by lia.
    apply (IH (S j) a1); [lia|lia| |exact H].
    pose proof (coasted_dt _ _ _ _ _ _ _ _ _ Fl) as Edt.
    assert (Step : forall a', step_dt fuel o hd (pdipm_engine la mi) a (w_dt w0) = Ok a' -> coasted la bs js J0 w0 rest F (S j) a').
    { intros a' Ha. eapply (coasted_step la mi fuel o hd bs js J0 w0 rest F n); eauto. }
    unfold step in E1. destruct fx; [|rewrite Edt in E1; auto].
    destruct fuel as [|fuel']; [discriminate|]. cbn [fixed_loop] in E1. rewrite Edt in E1. rnum.
    destruct (Rltb_spec (w_t a) (w_t a + w_dt w0)); [|lra]. replace (w_t a + w_dt w0 - w_t a) with (w_dt w0) in E1 by ring.
    bind_inv E1 as a2 E2. apply Step in E2. destruct fuel' as [|fuel'']; [discriminate|]. cbn [fixed_loop] in E1. rnum.
    rewrite (cs_t _ _ _ _ _ _ _ _ _ E2), (cs_t _ _ _ _ _ _ _ _ _ Fl), S_INR in E1. destruct (Rltb_spec (w_t w0 + (INR j + 1) * w_dt w0) (w_t w0 + INR j * w_dt w0 + w_dt w0)); [lra|]. now injection E1 as <-.
Qed.
Theorem session_coast la mi o hd bs js w rest F fuel fixed w' :
  lapack_ok la -> session la mi o hd bs js w -> Forall (fun b : body R => 0 < b_mass b /\ 0 < b_inertia b) bs -> 0 < w_dt w ->
  (forall t, world_apply_forces w t = Ok (F t)) -> jointed w rest F ->
  (forall m, (m < length fixed)%nat -> in_balance w rest (F (w_t w + INR m * w_dt w))) ->
  (forall m, (m <= length fixed)%nat -> clear_at o hd w (map fst (coasting w rest F m))) ->
  exec fuel o hd (pdipm_engine la mi) (map (@OStep R) fixed) w = Ok w' ->
  w_t w' = w_t w + INR (length fixed) * w_dt w /\ w_contacts w' = [] /\
  map (fun b => (b_p b, b_v b)) (w_bodies w') = coasting w rest F (length fixed).
Proof.
  intros HL Hs Hm Hdt HF Hst Hb HC H. destruct (session_facts _ _ _ _ _ _ _ Hs) as (Hf & Hr & Ho & Hg & J0 & S & V).
  pose proof (coast_start la o hd bs js J0 w rest F S V Hg (session_current _ _ _ _ _ _ _ Hs) Hst (HC 0%nat ltac:(lia))) as C0.
  pose proof (coast_exec la mi fuel o hd bs js J0 w rest F HL Hf Hr Ho S Hm HF Hdt Hst fixed (length fixed) Hb HC eq_refl 0%nat w w' ltac:(lia) C0 H) as Fl.
  destruct Fl. auto.
Qed.
(** *** everything at rest *)
Lemma zero_motion bs js J0 (w : world R) : sound bs js J0 w -> constraint_velocity w (vzeros (3 * length (w_bodies w))) = vzeros (w_num_constraints w).
Proof.
  intros HS. apply zeros_forall; [|exact (cv_length _ _ _ _ _ HS (vzeros_length _))]. rewrite cv_entries. apply flat_map_zero. intros [[j i1] i2] Hin.
  apply entry_zero; [|intros i Ei]; unfold v3_at; rewrite !vget_zeros; reflexivity.
Qed.
Lemma equilibrium_balance bs js J0 (w : world R) f : sound bs js J0 w -> w_contacts w = [] -> equilibrium w f -> in_balance w (fun _ => true) f.
Proof.
  intros S HC E x Lx Cx _. assert (A : dot x f <= 0) by (apply E; split; [exact Lx|]; split; [exact Cx|]; rewrite HC; intros ? []).
  assert (Lo : length (vopp x) = (3 * length (w_bodies w))%nat) by (rewrite vopp_length; exact Lx).
  assert (B : dot (vopp x) f <= 0).
  { apply E. split; [exact Lo|]. split; [|rewrite HC; intros ? []].
    assert (Q : vopp x = vsub (vzeros (3 * length (w_bodies w))) x).
    { apply vext; [rewrite vopp_length, vsub_length, vzeros_length; unfold vec in *; lia|]. intros k Hk. rewrite vopp_length in Hk. rewrite vget_vopp, vget_vsub, vget_zeros by (rewrite ?vzeros_length; unfold vec in *; lia). rnum. ring. }
    rewrite Q. apply (cv_sub bs js J0 w S); auto; [apply vzeros_length|].
    apply zeros_forall; [|exact (cv_length _ _ _ _ _ S (vzeros_length _))]. rewrite cv_entries. apply flat_map_zero. intros [[j i1] i2] Hin.
    apply entry_zero; [|intros i Ei]; unfold v3_at; rewrite !vget_zeros; reflexivity. }
  rewrite dot_vopp_l in B. lra.
Qed.
Theorem rest_forever la mi o hd bs js w F fuel fixed w' :
  lapack_ok la -> session la mi o hd bs js w -> Forall (fun b : body R => 0 < b_mass b /\ 0 < b_inertia b) bs -> 0 < w_dt w ->
  at_rest w -> w_contacts w = [] -> clear_at o hd w (map b_p (w_bodies w)) ->
  (forall t, world_apply_forces w t = Ok (F t) /\ equilibrium w (F t)) ->
  exec fuel o hd (pdipm_engine la mi) (map (@OStep R) fixed) w = Ok w' ->
  w_t w' = w_t w + INR (length fixed) * w_dt w /\ at_rest w' /\ w_contacts w' = [] /\ map b_p (w_bodies w') = map b_p (w_bodies w).
Proof.
  intros HL Hs Hm Hdt Hr HC Hcl HF H. destruct (session_facts _ _ _ _ _ _ _ Hs) as (_ & _ & _ & _ & J0 & S & _).
  assert (P : forall m, map fst (coasting w (fun _ => true) F m) = map b_p (w_bodies w)).
  { intros m. apply nth_error_ext. intros i. unfold coasting. rewrite !nth_error_map, mapi_nth. destruct (nth_error (w_bodies w) i); reflexivity. }
  assert (V0 : forall i b, nth_error (w_bodies w) i = Some b -> b_v b = (0, (0, 0))).
  { intros i b Hb. rewrite (aligned_reads _ _ _ (so_v _ _ _ _ S) Hb), Hr. unfold v3_at. rewrite !vget_zeros. reflexivity. }
  destruct (session_coast la mi o hd bs js w (fun _ => true) F fuel fixed w' HL Hs Hm Hdt) as (Q1 & Q2 & Q3); auto.
  - intros t. apply HF.
  - apply structure_jointed. split; [|intros i b Hb _; eauto]. intros j i1 i2 _. split; [reflexivity|]. destruct i2; auto.
  - intros m _. eapply equilibrium_balance; eauto. apply HF.
  - intros m _. now rewrite P.
  - split; [exact Q1|]. split; [|split; [exact Q2|]].
    + destruct (session_facts _ _ _ _ _ _ _ (session_later _ _ _ _ _ _ _ _ _ _ Hs H)) as (_ & _ & _ & _ & J1 & S1 & _). unfold at_rest.
      apply (vec3_ext (length (w_bodies w'))); [exact (so_vlen _ _ _ _ S1)|apply vzeros_length|]. intros i Hi.
      destruct (nth_error (w_bodies w') i) as [b|] eqn:Hb; [|apply nth_error_None in Hb; lia]. rewrite <- (aligned_reads _ _ _ (so_v _ _ _ _ S1) Hb).
      pose proof (f_equal (fun l => nth_error l i) Q3) as Q. cbv beta in Q. unfold coasting in Q. rewrite nth_error_map, Hb, mapi_nth in Q. destruct (nth_error (w_bodies w) i) as [b0|]; [|discriminate Q].
      cbn [option_map] in Q. apply some_inj in Q. unfold v3_at. rewrite !vget_zeros. exact (f_equal snd Q).
    + rewrite <- (P (length fixed)), <- Q3, map_map. reflexivity.
Qed.

(** *** what starts to move *)
Lemma masses_back bs js J0 (w : world R) : sound bs js J0 w -> massive w -> Forall (fun b : body R => 0 < b_mass b /\ 0 < b_inertia b) bs.
Proof.
  intros S Hm. pose proof (so_attrs _ _ _ _ S) as A. unfold massive in Hm. clear S. induction A as [|b b' l l' Hb A IH]; [constructor|]. apply Forall_cons_iff in Hm. destruct Hm as [H1 H2]. constructor; [|now apply IH].
  destruct Hb as (_ & E & E1 & _). rewrite E, E1 in H1. exact H1.
Qed.
Lemma kinetic_zeros (w : world R) x k : kinetic w x (vzeros k) = 0.
Proof. unfold kinetic. apply Rsum_zero. intros i b _. unfold v3_at. rewrite !vget_zeros. unfold component. cbn [fst snd]. ring. Qed.
Lemma carried_equilibrium (w : world R) f z y : carried w f z y -> equilibrium w f.
Proof.
  intros (Lz & Ly & Pz & Hz) x (Lx & Cx & Nx). specialize (Hz x Lx). rewrite Cx, dot_zeros_r in Hz.
  assert (P : 0 <= contact_power (w_contacts w) (map (fun a => (a, 0)) z) x); [|lra]. clear - Nx Pz. unfold contact_power. revert z Pz. induction (w_contacts w) as [|c cs IH]; intros z Pz; destruct z as [|a z]; cbn [map map2 Rsum fold_right]; try lra.
  apply Forall_cons_iff in Pz. destruct Pz as [Pa Pz]. specialize (IH (fun c' Hc' => Nx c' (or_intror Hc')) z Pz). unfold Rsum in IH. cbn [fst snd]. fold (normal_velocity x c).
  pose proof (Nx c (or_introl eq_refl)). assert (0 <= a * normal_velocity x c) by (now apply Rmult_le_pos). lra.
Qed.
Lemma still_carried (w : world R) dt f imps : 0 < dt -> frictionless w -> at_rest w -> world_apply_forces w (w_t w) = Ok f -> response w dt (vzeros (3 * length (w_bodies w))) imps ->
  exists y, carried w f (map (fun im => fst im / dt) imps) y.
Proof.
  intros Hdt Hf Hr Ef (f' & y & Ef' & _ & (Li & Ly & B) & _ & L). rewrite Ef in Ef'. injection Ef' as <-. exists (vscale (/ dt) y). split; [now rewrite map_length|]. split; [now rewrite vscale_length|]. split.
  - apply Forall_map. clear - L Hdt. induction L as [|c im cs l [C1 _ _ _ _] L IH]; constructor; auto. apply Rmult_le_pos; [exact C1|]. left. now apply Rinv_0_lt_compat.
  - intros x Lx. specialize (B x Lx). rewrite Hr, !kinetic_zeros, dot_zeros_l in B.
    assert (P : contact_power (w_contacts w) imps x = dt * contact_power (w_contacts w) (map (fun a => (a, 0)) (map (fun im => fst im / dt) imps)) x).
    { clear B. unfold contact_power. assert (Hf' : forall c, In c (w_contacts w) -> mixed w b_fric c = 0) by exact Hf. clear Hf Li. induction L as [|c im cs l [C1 C2 C3 C4 C5] L IH]; [cbn; ring|]. cbn [map map2 Rsum fold_right fst snd]. unfold Rsum in IH.
      rewrite (IH (fun c' Hc' => Hf' c' (or_intror Hc'))). rewrite (Hf' c (or_introl eq_refl)) in C4.
      assert (T : snd im = 0) by (pose proof (Rabs_pos (snd im)); destruct (Req_dec (snd im) 0) as [|N]; [auto|]; pose proof (Rabs_pos_lt _ N); lra). rewrite T. field. lra. }
    rewrite P in B. rewrite dot_vscale_l. apply (Rmult_eq_reg_l dt); [|lra]. rewrite Rmult_0_r, !Rmult_plus_distr_l, <- Rmult_assoc, Rinv_r, Rmult_1_l by lra. lra.
Qed.
Theorem rest_moves la mi bs js w dt f v imps : engine_world la mi bs js w -> massive w -> frictionless w -> at_rest w -> 0 < dt -> world_apply_forces w (w_t w) = Ok f ->
  response w dt v imps -> (v = vzeros (3 * length (w_bodies w)) <-> equilibrium w f).
Proof.
  intros HW Hm Hf Hr Hdt Ef H. destruct (engine_world_sound _ _ _ _ _ HW) as (J0 & HS & HV). split.
  - intros ->. destruct (still_carried w dt f imps Hdt Hf Hr Ef H) as [y Hy]. eapply carried_equilibrium. exact Hy.
  - intros He. refine (proj2 (rest_response bs js J0 w HS (masses_back _ _ _ _ HS Hm) dt f v imps _ Hf Hr Ef He H)). lra.
Qed.
Theorem virtual_work la mi bs js w f : engine_world la mi bs js w -> massive w -> frictionless w -> at_rest w -> world_apply_forces w (w_t w) = Ok f ->
  (equilibrium w f <-> exists z y, carried w f z y).
Proof.
  intros HW Hm Hf Hr Ef. split.
  - intros He. destruct (engine_world_sound _ _ _ _ _ HW) as (J0 & HS & HV).
    destruct (proj2 (existence la mi bs js w 1 f HW Hm Hf Ef)) as (v & imps & H).
    { exists (vzeros (3 * length (w_bodies w))). split; [apply vzeros_length|]. split; [|intros c _; rewrite Hr].
      2: { assert (Z : normal_velocity (vzeros (3 * length (w_bodies w))) c = 0); [|rewrite Z; lra]. unfold normal_velocity. rewrite relative_zero by (unfold v3_at; rewrite !vget_zeros; reflexivity). unfold component. cbn [fst snd]. ring. }
      apply zeros_forall; [|exact (cv_length _ _ _ _ _ HS (vzeros_length _))]. rewrite cv_entries. apply flat_map_zero. intros [[j i1] i2] Hin.
      apply entry_zero; [|intros i Ei]; unfold v3_at; rewrite !vget_zeros; reflexivity. }
    assert (E : v = vzeros (3 * length (w_bodies w))) by (apply (rest_moves la mi bs js w 1 f v imps); auto; lra). subst v.
    destruct (still_carried w 1 f imps ltac:(lra) Hf Hr Ef H) as [y Hy]. eauto.
  - intros (z & y & H). eapply carried_equilibrium. exact H.
Qed.
