(** Runs of scenes of discs and rectangles that stay apart along the axes (proofs for C100) *)
From Coq Require Import List Arith ZArith Lia Bool Reals Lra.
From Verif Require Import Num Tensor Utils Bodies Forces Constraints Contacts World Lapack Pdipm Engines Game Infer
     Spec GeoSpec BodySpec JointSpec FreshSpec ContactSpec LapackSpec EngineSpec GameSpec StaticsSpec InferSpec DemoSpec StrictSpec RBase ResFacts LinAlg BodyFacts RigidFacts GeomFacts BodyReach WorldFacts HandlerFacts
     LayoutFacts HistFacts SatFacts FreshFacts CollideFacts EngineFacts JointFacts JeFacts HeldFacts MomentumFacts FlightFacts EngineProps EngineMore SceneInit RunTotal FuelFacts CacheFacts GroupFacts EnergyRun
     SysFacts StaticsFacts StaticsProps CoastRun GameFacts GameProps GameStart GameFree InferFacts InferRun BesideRun StrictFacts DemoFacts ScatterFacts.
Import ListNotations.
Open Scope R_scope.

Section Scene.
Variables (gf : nat) (o : oracle R) (tab : list thing) (bs : list (body R)) (js : list (joint R)) (hh : fheap R).
Variables (rest : nat -> bool) (bear : R -> nat -> v3 R) (state : nat -> nat -> v3 R * v3 R) (ext : list (R * R)) (K : nat).
Hypothesis Hg : (18 <= gf)%nat.
Hypothesis Ho : broadphase_sane o.
Hypothesis Hne : tab <> [].
Hypothesis Sc : scene tab bs.
Hypothesis Hb : Forall (built bs) js.
Hypothesis Hlf : loop_free js.
Hypothesis Hjr : forall j, In j js -> rest (j_b1 j) = true /\ j_b2 j = None.
Hypothesis Hload : forall t i th b, nth_error tab i = Some th -> b_forces b = th_forces th -> body_apply_forces hh b t = Ok (bear t i).
Hypothesis Hrest : forall i th, nth_error tab i = Some th -> rest i = true -> th_v th = (0, (0, 0)) /\ (forall t, bear t i = (0, (0, 0))).
Definition gains (th : thing) (f : v3 R) : v3 R := (fst f / form_inertia (th_form th), snd f).
Hypothesis Hst : forall k i th, (k <= K)%nat -> nth_error tab i = Some th -> state k i = if rest i then (th_p th, (0, (0, 0))) else StaticsSpec.coast (1 / 30) 0 (fun t => gains th (bear t i)) (th_p th) (th_v th) k.
Hypothesis Hext : length ext = length tab.
Notation n := (length tab).
Definition shown (k : nat) : list (v3 R * v3 R) := map (state k) (seq 0 n).
Definition weighs (t : R) : vec R := cat3 (map (bear t) (seq 0 n)).
Hypothesis Hbox : forall k, (k <= K)%nat -> boxed tab (map fst (shown k)) ext.
Notation hd := (diff_handler gf o).
Let Hf := diff_handler_frame gf o.
Lemma sc_ne : bs <> [].
Proof. intros E. pose proof (sc_len _ _ Sc) as L. rewrite E in L. destruct tab; [congruence|discriminate]. Qed.
Lemma sc_all (P : body R -> Prop) : (forall i th b, matches i th b -> P b) -> Forall P bs.
Proof. intros H. apply Forall_forall. intros b Hin. destruct (In_nth_error _ _ Hin) as [i Hi]. destruct (sc_match _ _ Sc _ _ Hi) as (th & _ & B). exact (H i th b B). Qed.
Lemma sc_available : Forall available bs.
Proof. apply sc_all. intros i th b D. exact (mt_available _ _ _ D). Qed.
Lemma sc_masses : Forall (fun b : body R => 0 < b_mass b /\ 0 < b_inertia b) bs.
Proof. apply sc_all. intros i th b D. exact (matches_masses _ _ _ D). Qed.
Lemma sc_fit : Forall (fit gf) bs.
Proof. apply sc_all. intros i th b D. exact (matches_fit _ _ _ _ Hg D). Qed.
Lemma sc_nodup : NoDup (map b_id bs).
Proof.
  assert (E : map b_id bs = seq 0 n); [|rewrite E; apply seq_NoDup]. apply nth_error_ext. intros i. rewrite nth_error_map. destruct (nth_error bs i) as [b|] eqn:E.
  - assert (L : (i < n)%nat) by (rewrite <- (sc_len _ _ Sc); apply nth_error_Some; congruence). cbn [option_map]. rewrite (nth_error_nth' _ 0%nat) by (now rewrite seq_length). rewrite seq_nth by exact L. f_equal. destruct (sc_match _ _ Sc _ _ E) as (th & _ & B). exact (mt_id _ _ _ B).
  - apply nth_error_None in E. rewrite (sc_len _ _ Sc) in E. cbn [option_map]. symmetry. apply nth_error_None. now rewrite seq_length.
Qed.
Lemma sc_start dt tol ps st w i b : world_init o hd hh bs js dt EPSILON tol 2 ps st = Ok w -> nth_error (w_bodies w) i = Some b ->
  exists c th, nth_error tab i = Some th /\ matches i th c /\ forget b = forget c.
Proof.
  intros H Hi. pose proof (beside_moved _ _ _ _ _ _ _ _ _ _ _ H) as Mv. destruct (Forall2_nth _ _ _ _ _ Mv Hi) as (c & Hc & _). destruct (sc_match _ _ Sc _ _ Hc) as (th & Ht & B). exists c, th. split; [exact Ht|]. split; [exact B|].
  pose proof (init_forget _ _ _ _ _ _ _ _ _ _ _ _ Hf H) as E. apply (f_equal (fun l => nth_error l i)) in E. rewrite !nth_error_map, Hi, Hc in E. now injection E.
Qed.
Lemma shown_nth k i : (i < n)%nat -> nth_error (shown k) i = Some (state k i).
Proof. intros L. unfold shown. rewrite nth_error_map, (nth_error_nth' _ 0%nat) by (now rewrite seq_length). rewrite seq_nth by exact L. reflexivity. Qed.
Lemma sc_begin i th : nth_error tab i = Some th -> state 0 i = (th_p th, th_v th).
Proof. intros Ht. rewrite (Hst 0 i th ltac:(lia) Ht). destruct (rest i) eqn:Er; [|reflexivity]. now rewrite (proj1 (Hrest _ _ Ht Er)). Qed.
Lemma sc_quiet dt tol st w : world_init o hd hh bs js dt EPSILON tol 2 true st = Ok w -> w_contacts w = [].
Proof.
  intros H. pose proof (beside_moved _ _ _ _ _ _ _ _ _ _ _ H) as Mv. apply (scene_clear gf tab bs o w (map fst (shown 0)) ext Hg Sc Ho Mv); auto.
  - destruct (world_init_inv _ _ _ _ _ _ _ _ _ _ _ _ H) as (_ & -> & _). reflexivity.
  - apply nth_error_ext. intros i. rewrite !nth_error_map. destruct (nth_error (w_bodies w) i) as [b|] eqn:E.
    + destruct (sc_start _ _ _ _ _ _ _ H E) as (c & th & Ht & B & Ef). rewrite shown_nth by (apply nth_error_Some; congruence). cbn [option_map]. rewrite (sc_begin _ _ Ht), (forget_eq_p _ _ Ef), (mt_p _ _ _ B). reflexivity.
    + apply nth_error_None in E. rewrite <- (BodyReach.Forall2_len _ _ _ Mv), (sc_len _ _ Sc) in E. rewrite (proj2 (nth_error_None _ _)) by (unfold shown; now rewrite map_length, seq_length). reflexivity.
  - apply Hbox. lia.
  - eapply init_current; [apply diff_handler_frame|exact H].
Qed.
Lemma sc_starts : exists w, world_init o hd hh bs js STEP EPSILON TOL 2 true true = Ok w.
Proof. apply (scene_starts gf o bs js); [exact Ho|exact sc_ne|exact sc_available|exact sc_fit|exact sc_nodup|exact Hb|]. intros w H. exact (sc_quiet _ _ _ _ H). Qed.

Section Run.
Variable w0 : world R.
Hypothesis Hw : world_init o hd hh bs js STEP EPSILON TOL 2 true true = Ok w0.
Lemma s0_len : length (w_bodies w0) = n.
Proof. rewrite <- (sc_len _ _ Sc). symmetry. eapply BodyReach.Forall2_len. exact (beside_moved _ _ _ _ _ _ _ _ _ _ _ Hw). Qed.
Lemma s0_lt i b : nth_error (w_bodies w0) i = Some b -> (i < n)%nat.
Proof. intros H. rewrite <- s0_len. apply nth_error_Some. congruence. Qed.
Lemma s0_thing i b : nth_error (w_bodies w0) i = Some b -> exists th, nth_error tab i = Some th /\ b_p b = th_p th /\ b_v b = th_v th /\ b_forces b = th_forces th /\ b_mass b = 1 /\ b_inertia b = form_inertia (th_form th) /\
  b_rest b = th_rest th /\ b_fric b = th_fric th /\ match th_form th with Ball r => b_kind b = KCircle r | Plate w h => exists vs l, b_kind b = KRect (w, h) vs l end.
Proof.
  intros Hi. destruct (sc_start _ _ _ _ _ _ _ Hw Hi) as (c & th & Ht & C & E). exists th. split; [exact Ht|]. destruct (forget_keeps _ _ E) as (-> & -> & _ & -> & -> & ->). destruct (forget_surface _ _ E) as [Q1 Q2].
  split; [exact (mt_p _ _ _ C)|]. split; [exact (mt_v _ _ _ C)|]. split; [exact (mt_forces _ _ _ C)|]. split; [exact (mt_mass _ _ _ C)|]. split; [exact (mt_inertia _ _ _ C)|].
  split; [pose proof (mt_rest _ _ _ C); congruence|]. split; [pose proof (mt_fric _ _ _ C); congruence|]. pose proof (mt_kind _ _ _ C) as Kd. destruct (th_form th) as [r|x y]; cbn [form_kind] in Kd.
  - destruct b as [? kx ? ? ? ? ? ? ? ? ?], c as [? ky ? ? ? ? ? ? ? ? ?]. cbn in Kd. subst ky. destruct kx; cbn in E; try discriminate E. injection E. intros. subst. reflexivity.
  - destruct b as [? kx ? ? ? ? ? ? ? ? ?], c as [? ky ? ? ? ? ? ? ? ? ?]. cbn in Kd. subst ky. destruct kx; cbn in E; try discriminate E. injection E. intros. subst. cbn. do 2 eexists. reflexivity.
Qed.
Lemma weighs_at t i : (i < n)%nat -> v3_at (weighs t) i = bear t i.
Proof. intros H. unfold weighs. rewrite GroupFacts.cat3_at by lia. reflexivity. Qed.
Lemma s0_forces t : world_apply_forces w0 t = Ok (weighs t).
Proof.
  unfold weighs, world_apply_forces. assert (E : mapM (fun b => body_apply_forces (w_heap w0) b t) (w_bodies w0) = Ok (map (bear t) (seq 0 n))).
  { apply mapM_Forall2. apply nth_Forall2; [now rewrite map_length, seq_length, s0_len|]. intros i b Hi. exists (bear t i). pose proof (s0_lt i b Hi) as L. split.
    - rewrite nth_error_map, (nth_error_nth' _ 0%nat) by (now rewrite seq_length). rewrite seq_nth by exact L. reflexivity.
    - destruct (beside_clock _ _ _ _ _ _ _ _ _ _ _ Hw) as (_ & _ & _ & _ & ->). destruct (s0_thing i b Hi) as (th & Ht & _ & _ & Fo & _). exact (Hload t i th b Ht Fo). }
  rewrite E. reflexivity.
Qed.
Lemma s0_entries : w_joints w0 = map (fun j => (j, j_b1 j, None)) js.
Proof.
  destruct (world_init_joints _ _ _ _ _ _ _ _ _ _ _ _ Hf Hw) as [F _]. revert F. generalize (w_joints w0). clear - Sc Hjr. revert Hjr. induction js as [|j l IH]; intros Hj es F; inversion F as [|? e ? es' H1 H2]; subst; [reflexivity|].
  cbn [map]. f_equal; [|apply IH; [intros j' Hj'; apply Hj; now right|exact H2]]. destruct e as [[j' i1] i2]. destruct H1 as (-> & (b1 & Hb1 & E1) & E2). destruct (Hj j (or_introl eq_refl)) as [_ Z]. rewrite Z in E2.
  destruct (sc_match _ _ Sc _ _ Hb1) as (th & _ & B). pose proof (mt_id _ _ _ B) as I1. destruct i2 as [i2|]; [tauto|]. repeat f_equal. congruence.
Qed.
Lemma s0_structure : jointed w0 rest weighs.
Proof.
  apply structure_jointed. split.
  - intros j i1 i2 Hin. rewrite s0_entries in Hin. apply in_map_iff in Hin. destruct Hin as (j' & E & Hin). injection E as <- <- <-. split; [exact (proj1 (Hjr _ Hin))|exact Logic.I].
  - intros i b Hi Hr. destruct (s0_thing i b Hi) as (th & Ht & _ & -> & _). exact (proj1 (Hrest _ _ Ht Hr)).
Qed.
Lemma s0_balance t : in_balance w0 rest (weighs t).
Proof.
  intros x Lx _ Hx. assert (Ll : length (weighs t) = (3 * length (w_bodies w0))%nat) by (unfold weighs; rewrite cat3_length, map_length, seq_length, s0_len; reflexivity).
  rewrite (dot_fields w0) by auto. assert (E : forall i b, nth_error (w_bodies w0) i = Some b -> d3 (v3_at x i) (v3_at (weighs t) i) = 0).
  { intros i b Hi. rewrite (weighs_at t i (s0_lt i b Hi)). destruct (s0_thing i b Hi) as (th & Ht & _). destruct (rest i) eqn:Er; [rewrite (proj2 (Hrest _ _ Ht Er))|rewrite (Hx i Er)]; unfold d3; cbn [fst snd]; ring. }
  rewrite (Rsum_mapi_ext _ (fun _ _ => 0)) by exact E. clear. generalize (w_bodies w0). unfold mapi. generalize 0%nat. intros k l. revert k. induction l as [|b l IH]; intros k; [reflexivity|]. cbn. specialize (IH (S k)). unfold Rsum in *. cbn. lra.
Qed.
Lemma s0_coasting k : (k <= K)%nat -> StaticsSpec.coasting w0 rest weighs k = shown k.
Proof.
  intros Hk. destruct (beside_clock _ _ _ _ _ _ _ _ _ _ _ Hw) as (Ed & Et & _). assert (ES : STEP = 1 / 30) by reflexivity. rewrite ES in Ed.
  apply nth_error_ext. intros i. unfold StaticsSpec.coasting. rewrite mapi_nth. destruct (nth_error (w_bodies w0) i) as [b|] eqn:Hi; cbn [option_map].
  - pose proof (s0_lt i b Hi) as L. rewrite (shown_nth k i L). apply f_equal. destruct (s0_thing i b Hi) as (th & Ht & P & V & _ & M & J & _). rewrite (Hst k i th Hk Ht), Ed, Et, P, V. destruct (rest i); [reflexivity|].
    apply coast_ext. intros t. rewrite (weighs_at t i L). unfold acceleration, gains. rewrite M, J. destruct (bear t i) as [a [b1 c]]. unfold v2scale. cbn [fst snd]. rnum. apply f_equal2; [lra|apply f_equal2; field].
  - apply nth_error_None in Hi. rewrite s0_len in Hi. symmetry. apply nth_error_None. unfold shown. now rewrite map_length, seq_length.
Qed.
Lemma s0_away k : (k <= K)%nat -> EngineSpec.clear_at o hd w0 (map fst (StaticsSpec.coasting w0 rest weighs k)).
Proof.
  intros Hk a Mv Eps Hp Cu. rewrite (s0_coasting k Hk) in Hp. apply (scene_clear gf tab bs o a (map fst (shown k)) ext Hg Sc Ho); auto.
  - eapply Forall2_trans'; [apply moved_steps|exact (beside_moved _ _ _ _ _ _ _ _ _ _ _ Hw)|exact Mv].
  - destruct (beside_clock _ _ _ _ _ _ _ _ _ _ _ Hw) as (_ & _ & Q & _). rewrite Eps, Q. reflexivity.
Qed.
Theorem scene_run la mi k fuel lfuel run_time : lapack_ok la -> (0 < mi)%nat -> (k <= K)%nat -> (forall m, (m < k)%nat -> INR m / 30 < run_time) -> run_time <= INR k / 30 -> (k < fuel)%nat ->
  exists w', run_world fuel (S lfuel) o hd (pdipm_engine la mi) run_time w0 = Ok w' /\ map (fun c => (b_p c, b_v c)) (w_bodies w') = shown k /\ w_t w' = INR k / 30 /\ w_contacts w' = [].
Proof.
  intros HL Hmi Hk Hlt Hle Hfu. assert (ES : STEP = 1 / 30) by reflexivity.
  destruct (beside_run gf o bs js Ho sc_available sc_fit sc_nodup Hb hh STEP EPSILON TOL true true w0 rest weighs la mi Hw Hlf sc_masses s0_forces s0_structure HL Hmi k lfuel fuel run_time) as (w' & E & Q1 & Q2 & Q3).
  - intros m _. apply s0_balance.
  - intros m Hm. apply s0_away. lia.
  - intros m Hm. rewrite ES. specialize (Hlt m Hm). lra.
  - rewrite ES. lra.
  - exact Hfu.
  - exists w'. split; [exact E|]. split; [rewrite Q1; now apply s0_coasting|]. split; [rewrite Q2, ES; lra|exact Q3].
Qed.
Lemma s0_shown : map (fun c => (b_p c, b_v c)) (w_bodies w0) = shown 0.
Proof. rewrite <- (s0_coasting 0 ltac:(lia)). symmetry. apply coasting_0. exact (proj2 s0_structure). Qed.
End Run.
End Scene.
