(** Whole steps return: convex bodies, the package's engine, frictionless contacts, joints without loops *)
From Coq Require Import List Arith ZArith Bool Reals Lra Lia Psatz.
From Verif Require Import Num Tensor Utils Bodies Forces Constraints Contacts World Lapack Pdipm Lcp Engines Spec GeoSpec BodySpec JointSpec FreshSpec EngineSpec ContactSpec
     RBase ResFacts LinAlg LapackSpec KktSpec PdipmSpec BodyFacts WorldFacts HandlerFacts LayoutFacts HistFacts RigidFacts SysFacts RewindFacts JointFacts JeFacts FreshFacts TimeFacts
     CacheFacts BodyReach GeomFacts PdipmFacts PdipmLoop SolverFacts EngineFacts ContactSys EngineBalance ContactLaw EngineTotal PostFacts HeldFacts SupportFacts HellyFacts CollideFacts FlightFacts EngineProps IndepFacts.
Import ListNotations.
Open Scope R_scope.

(** *** bodies the collision code handles in every pose *)
Section Rotate.
Variable th : R.
Lemma tri2_rotate (a b c : pt) : tri2 (rotate th a) (rotate th b) (rotate th c) = tri2 a b c.
Proof.
  pose proof (sin2_cos2 th) as SC. unfold Rsqr in SC. unfold tri2, det2, rotate. cbn [fst snd]. set (s := sin th) in *. set (k := cos th) in *.
  transitivity ((s * s + k * k) * ((fst b - fst a) * (snd c - snd a) - (snd b - snd a) * (fst c - fst a))); [ring|rewrite SC; ring].
Qed.
Lemma rotate_inj (a c : pt) : rotate th a = rotate th c -> a = c.
Proof.
  pose proof (sin2_cos2 th) as SC. unfold Rsqr in SC. intros E. unfold rotate in E. set (s := sin th) in *. set (k := cos th) in *. inversion E as [[E1 E2]].
  assert (A1 : (s * s + k * k) * fst a = (s * s + k * k) * fst c) by (transitivity (k * (k * fst a - s * snd a) + s * (s * fst a + k * snd a)); [ring|rewrite E1, E2; ring]).
  assert (A2 : (s * s + k * k) * snd a = (s * s + k * k) * snd c) by (transitivity (k * (s * fst a + k * snd a) - s * (k * fst a - s * snd a)); [ring|rewrite E1, E2; ring]).
  rewrite SC in *. destruct a, c. cbn [fst snd] in *. apply f_equal2; lra.
Qed.
Lemma convex_rotate vs : strictly_convex vs -> strictly_convex (map (rotate th) vs).
Proof.
  intros (H1 & H2 & H3). split; [|split].
  - apply FinFun.Injective_map_NoDup; [exact rotate_inj|exact H1].
  - now rewrite map_length.
  - intros p q He v Hv N1 N2. rewrite edges_map in He. apply in_map_iff in He. destruct He as ([p' q'] & E & He). cbn [fst snd] in E. injection E as <- <-.
    apply in_map_iff in Hv. destruct Hv as (v' & <- & Hv). rewrite tri2_rotate. apply H3; auto; congruence.
Qed.
Lemma dist_rotate (v : pt) : dist (rotate th v) (0, 0) = dist v (0, 0).
Proof.
  pose proof (sin2_cos2 th) as SC. unfold Rsqr in SC. unfold dist, rotate. cbn [fst snd]. f_equal. set (s := sin th) in *. set (k := cos th) in *.
  transitivity ((s * s + k * k) * (fst v * fst v + snd v * snd v)); [ring|rewrite SC; ring].
Qed.
Lemma dot_rotate (v d : pt) : v2dot (rotate th v) d = v2dot v (rotate (- th) d).
Proof. unfold v2dot, rotate. cbn [fst snd]. rnum. rewrite cos_neg, sin_neg. ring. Qed.
End Rotate.

Definition fit (fuel : nat) (b : body R) : Prop :=
  poly_wf b /\ (is_circle b = false -> forall d, exists v, In v (b_verts b) /\ 0 <= v2dot v d) /\ tidy b /\ ContactSpec.in_range b /\ (gjk_rounds b <= fuel)%nat.
Lemma fit_manageable fuel b : fit fuel b -> manageable fuel b.
Proof.
  intros (_ & S & T & I & G). split; [|auto]. intros Hc d. destruct (S Hc d) as (v & Hv & L). destruct (get_support_total (b_verts b) d v Hv) as (p & i & E); [lra|]. eauto.
Qed.
Lemma available_fit fuel b : available b -> tidy b -> ContactSpec.in_range b -> (gjk_rounds b <= fuel)%nat -> fit fuel b.
Proof.
  intros A T I G. split; [apply shape_poly_wf; now apply available_shape|]. split; [|auto]. intros Hc d.
  assert (Hk : match b_kind b with KCircle _ => False | _ => True end) by (unfold is_circle in Hc; destruct (b_kind b); [discriminate|exact Logic.I|exact Logic.I]).
  destruct (reachable_centroid b (RBavailable _ A) Hk) as (_ & Ha & Hce). unfold tidy in T. rewrite Hc in T. now apply centred_reaches; [|apply strictly_convex_convex|].
Qed.
Lemma fit_set_p fuel b p : fit fuel b -> fit fuel (set_p b p).
Proof.
  intros (W & S & T & I & G). destruct (set_p_verts b p W) as (W' & Ev & HC). set (th := fst p - b_rot b) in *.
  assert (Ec : is_circle (set_p b p) = is_circle b) by (unfold same_class in HC; unfold is_circle; destruct (b_kind b), (b_kind (set_p b p)); tauto).
  assert (Er : is_circle b = true -> b_rad (set_p b p) = b_rad b).
  { unfold is_circle, b_rad, set_p. destruct (b_kind b) eqn:Ek; try discriminate. cbn. now rewrite Ek. }
  split; [exact W'|]. split; [|split; [|split]].
  - rewrite Ec, Ev. intros Hc d. destruct (S Hc (rotate (- th) d)) as (v & Hv & L). exists (rotate th v). split; [now apply in_map|]. rewrite dot_rotate. exact L.
  - unfold tidy in *. rewrite Ec, Ev. destruct (is_circle b) eqn:Hc; [now rewrite Er|]. now apply convex_rotate.
  - unfold ContactSpec.in_range in *. rewrite Ec, Ev. destruct (is_circle b) eqn:Hc; [now rewrite Er|]. intros v Hv. apply in_map_iff in Hv. destruct Hv as (u & <- & Hu). rewrite dist_rotate. auto.
  - unfold gjk_rounds in *. rewrite Ev, map_length. exact G.
Qed.
Lemma fit_steps fuel : body_steps (fun b b' => fit fuel b -> fit fuel b').
Proof.
  constructor.
  - auto.
  - intros b v H. exact H.
  - intros b p. apply fit_set_p.
  - intros b b' E (W & S & T & I & G). destruct (proj2 (proj2 (proj2 (proj2 (still_shape b b' (still_forget b b' E)))))) as [Ev _].
    pose proof (still_shape b b' (still_forget b b' E)) as (_ & _ & Ec & Er & _).
    split; [exact (proj1 (bs_forget _ rigid_steps b b' E W))|]. unfold tidy, ContactSpec.in_range, gjk_rounds in *. rewrite <- Ec, <- Er, <- Ev. auto.
Qed.
Lemma fit_all fuel l l' : Forall2 (fun b b' => fit fuel b -> fit fuel b') l l' -> Forall (fit fuel) l -> Forall (fit fuel) l'.
Proof. induction 1 as [|a b l l' H F IH]; intros A; inversion A; subst; constructor; auto. Qed.

(** detection never fails in a simulation whose bodies were fit at the start *)
Lemma detection_always gf o e fuel heap bs js dt eps tol fd ps st w0 ops w : broadphase_sane o ->
  Forall available bs -> Forall (fun b => tidy b /\ ContactSpec.in_range b /\ (gjk_rounds b <= gf)%nat) bs ->
  world_init o (diff_handler gf o) heap bs js dt eps tol fd ps st = Ok w0 -> exec fuel o (diff_handler gf o) e ops w0 = Ok w ->
  exists w', find_contacts o (diff_handler gf o) w = Ok w'.
Proof.
  intros Ho Ha Ht H0 Hx. apply find_contacts_total; [exact Ho|].
  pose proof (world_steps _ (fit_steps gf) _ _ _ _ _ _ _ _ _ _ _ _ _ _ _ _ (diff_handler_frame gf o) H0 Hx) as F.
  assert (A : Forall (fit gf) bs). { rewrite Forall_forall in *. intros b Hb. destruct (Ht b Hb) as (T1 & T2 & T3). apply available_fit; auto. }
  eapply Forall_impl; [|exact (fit_all _ _ _ F A)]. intros b. apply fit_manageable.
Qed.

(** *** the engine's post-stabilisation problem is solvable *)
Section Post.
Variables (bs : list (body R)) (js : list (joint R)) (J0 : list jent) (w : world R) (la : lapack R).
Hypothesis HS : sound bs js J0 w.
Hypothesis HL : lapack_ok la.
Hypothesis HV : valid la w.
Hypothesis Hm : Forall (fun b : body R => 0 < b_mass b /\ 0 < b_inertia b) bs.
Hypothesis HI : EngineSpec.independent w.
Notation n := (3 * length (w_bodies w))%nat.
Notation neq := (w_num_constraints w).
Notation nc := (length (w_contacts w)).

Lemma post_total : exists dp, post_stabilization la w = Ok dp.
Proof.
  pose proof (wf_length _ _ _ (proj1 (so_symm _ _ _ _ HS))) as LM. pose proof (so_vlen _ _ _ _ HS) as Lv.
  pose proof (wf_length _ _ _ (so_Je _ _ _ _ HS)) as LJ. unfold post_stabilization. cbv zeta.
  destruct (w_contacts w) as [|c0 cs] eqn:EC.
  - fold (sys w). destruct (inv_total _ HL _ _ (wf_sys _ _ _ _ HS) (sys_nonsingular _ _ _ _ HS Hm HI)) as [inv Ei].
    destruct (w_cache w) as [i|]; [cbn [bind]; eauto|]. rewrite Ei. cbn [bind]. eauto.
  - rewrite <- EC in *. set (pr := {| pr_Q := w_M w |}).
    assert (Hsz : Forall (sized n nc neq) [pr]).
    { apply Forall_cons; [|apply Forall_nil]. constructor; unfold pr; cbn [pr_Q pr_p pr_G pr_h pr_A pr_b pr_F].
      - constructor; [apply (so_symm _ _ _ _ HS)|apply wf_Jc, (so_range _ _ _ _ HS)|apply wf_mzeros|apply (so_Je _ _ _ _ HS)].
      - apply vzeros_length.
      - rewrite vadd_length, vmul_length, vopp_length, mv_length, (restitutions_length w). unfold Jc. rewrite map_length. lia.
      - rewrite mv_length. exact LJ. }
    assert (Hp : Forall (SolverFacts.posed n nc neq) [pr]).
    { apply Forall_cons; [|apply Forall_nil]. constructor; unfold pr; cbn [pr_Q pr_p pr_G pr_h pr_A pr_b pr_F].
      - exact (M_pos _ _ _ _ HS Hm).
      - exact (A_rank _ _ _ _ HS HI).
      - intros z Lz. rewrite mv_mzeros, dot_zeros_r. lra. }
    assert (Hn : (0 < nc)%nat) by (rewrite EC; cbn; lia).
    destruct (lcp_forward_total la HL n nc neq Hn default_opts [pr]) as (xs & sv & E); auto.
    { cbn. lia. }
    rewrite E. cbn [bind].
    assert (H3 : (0 < lo_lim (default_opts : lcp_opts R))%nat) by (cbn; lia).
    destruct (forward_best la HL _ _ _ _ _ _ _ Hsz H3 E) as (Ex & Lb & _). cbn [length] in Lb. destruct (sv_best sv) as [|it l]; [discriminate|]. rewrite Ex. cbn [map]. eauto.
Qed.
End Post.

(** *** steps *)
Section Run.
Variables (la : lapack R) (mi gf : nat) (o : oracle R) (bs : list (body R)) (js : list (joint R)) (J0 : list jent).
Hypothesis HL : lapack_ok la.
Hypothesis Hmi : (0 < mi)%nat.
Hypothesis Ho : broadphase_sane o.
Hypothesis Hm : Forall (fun b : body R => 0 < b_mass b /\ 0 < b_inertia b) bs.
Hypothesis Hfr : Forall (fun b : body R => b_fric b = 0) bs.
Hypothesis Hlf : loop_free js.
Notation hd := (diff_handler gf o).
Notation eng := (pdipm_engine la mi).
Let Hf := diff_handler_frame gf o.
Let Hr := diff_handler_respects gf o.

Record calm (w : world R) : Prop := {
  ca_sound : sound bs js J0 w;
  ca_valid : valid la w;
  ca_fit : Forall (fit gf) (w_bodies w);
  ca_forces : forall t, exists f, world_apply_forces w t = Ok f;
  ca_dirs : w_fric_dirs w = 2%nat }.

Lemma ca_ind w : calm w -> EngineSpec.independent w.
Proof. intros Hc. exact (loop_free_independent bs js J0 w (ca_sound _ Hc) Hlf). Qed.
Lemma calm_same w w' : calm w -> sound bs js J0 w' -> kinds w' = kinds w -> cfg w' = cfg w -> w_cache w' = w_cache w -> Forall (fit gf) (w_bodies w') -> calm w'.
Proof.
  intros [S V F E D] S' K C Ca F'. pose proof (valid_kinds la _ _ K C Ca V) as V'. cfg_fields C. constructor; auto.
  - intros t. destruct (E t) as [f Ef]. exists f. rewrite <- Ef. apply apply_forces_same; [congruence|]. exact (attrs_common _ _ _ (so_attrs _ _ _ _ S) (so_attrs _ _ _ _ S')).
  - congruence.
Qed.
Lemma body_at_zero w (f : body R -> R) i : Forall (fun b => f b = 0) (w_bodies w) -> body_at (w_bodies w) f i = 0.
Proof.
  intros H. unfold body_at. destruct (nth_error (w_bodies w) i) as [b|] eqn:E; [|reflexivity]. rewrite Forall_forall in H. apply H. eapply nth_error_In; eauto.
Qed.
Lemma calm_frictionless w c : calm w -> mixed w b_fric c = 0.
Proof.
  intros [S _ _ _ _]. assert (F : Forall (fun b => b_fric b = 0) (w_bodies w)).
  { pose proof (so_attrs _ _ _ _ S) as A. clear - A Hfr. induction A as [|a b l l' H A IH]; [constructor|]. inversion Hfr; subst. constructor; [|now apply IH]. unfold same_attrs in H. intuition congruence. }
  unfold mixed. rewrite !body_at_zero by exact F. lra.
Qed.
Lemma calm_solve w dt : calm w -> exists v c, solve_dynamics la mi w dt = Ok (v, c) /\ length v = (3 * length (w_bodies w))%nat.
Proof.
  intros Hc. destruct (ca_forces _ Hc (w_t w)) as [f Ef].
  destruct (solve_total bs js J0 w la mi (ca_sound _ Hc) HL Hm (ca_ind _ Hc) dt f Hmi Ef (ca_dirs _ Hc)) as (v & c & E); [intros; now apply calm_frictionless|].
  exists v, c. split; [exact E|]. destruct (solve_balance bs js J0 w la mi (ca_sound _ Hc) HL (ca_valid _ Hc) dt v c E) as (f' & imps & y & _ & Lv & _). exact Lv.
Qed.
Lemma calm_joints w : sound bs js J0 w -> joints_ok w.
Proof.
  intros S. destruct (so_found _ _ _ _ S) as (_ & _ & _ & [_ HJ] & _). unfold joints_ok. rewrite Forall_forall. intros [[j i1] i2] Hin.
  destruct (Forall2_In_r _ _ _ _ HJ Hin) as ([[j0 k1] k2] & _ & -> & -> & a1 & b1 & b2 & _ & Hb & _).
  apply joint_bodies_Ok in Hb. destruct Hb as [H1 H2]. split; [apply nth_error_Some; congruence|]. destruct k2 as [i|]; [|exact Logic.I]. destruct H2 as (x & _ & H2). apply nth_error_Some. congruence.
Qed.
Lemma calm_joint_count w w' : sound bs js J0 w -> sound bs js J0 w' -> length (w_joints w) = length (w_joints w').
Proof.
  intros S S'. destruct (so_found _ _ _ _ S) as (_ & _ & _ & [_ HJ] & _). destruct (so_found _ _ _ _ S') as (_ & _ & _ & [_ HJ'] & _).
  rewrite <- (Forall2_len _ _ _ HJ), <- (Forall2_len _ _ _ HJ'). reflexivity.
Qed.
Lemma calm_returns : returns_on calm o hd eng.
Proof.
  constructor.
  - intros w Hc. split; [apply (calm_joints w (ca_sound _ Hc))|apply (so_vlen _ _ _ _ (ca_sound _ Hc))].
  - intros w dt Hc. now apply calm_solve.
  - intros w Hc _. cbn [e_post pdipm_engine]. destruct (post_total bs js J0 w la (ca_sound _ Hc) HL Hm (ca_ind _ Hc)) as [dp E]. exists dp. split; [exact E|].
    now apply (post_balance bs js J0 w la (ca_sound _ Hc) HL (ca_valid _ Hc)).
  - intros w Hc. destruct (find_contacts_total gf o w Ho) as [w' E].
    { eapply Forall_impl; [|exact (ca_fit _ Hc)]. intros b. apply fit_manageable. }
    exists w'. split; [exact E|]. apply (calm_same w); auto.
    + exact (sound_find _ _ _ _ _ Hf Hr Ho _ _ (ca_sound _ Hc) E).
    + exact (kinds_find _ _ _ _ Hf E).
    + exact (find_contacts_cfg _ _ _ _ E).
    + apply find_contacts_inv in E. destruct E as (?&?&?& ->). reflexivity.
    + refine (fit_all _ _ _ _ (ca_fit _ Hc)). apply Forall2_forget'; [apply fit_steps|]. eapply find_contacts_frame; eauto.
  - intros w dt w' Hc E. apply (calm_same w); auto.
    + exact (sound_move _ _ _ _ _ _ (ca_sound _ Hc) E).
    + exact (kinds_move _ _ _ E).
    + exact (move_all_cfg _ _ _ E).
    + apply move_all_inv in E. destruct E as [? ->]. reflexivity.
    + refine (fit_all _ _ _ _ (ca_fit _ Hc)). apply move_all_inv in E. destruct E as [? ->]. cbn. apply HistFacts.Forall2_map_r. intros. now apply fit_set_p.
  - intros w1 w w' H1 Hc E. apply (calm_same w); auto.
    + exact (sound_rewind _ _ _ _ _ _ (ca_sound _ H1) (ca_sound _ Hc) E).
    + refine (kinds_rewind _ _ _ _ _ E). rewrite map_length. apply calm_joint_count; apply ca_sound; auto.
    + exact (rewind_cfg _ _ _ _ E).
    + apply rewind_inv in E. destruct E as [? ->]. reflexivity.
    + refine (fit_all _ _ _ _ (ca_fit _ Hc)). apply rewind_inv in E. destruct E as [? ->]. cbn. apply Forall2_mapi. intros. now apply fit_set_p.
  - intros w v w' Hc E. apply (calm_same w); auto.
    + exact (sound_set_v _ _ _ _ _ _ (ca_sound _ Hc) E).
    + exact (kinds_set_v _ _ _ E).
    + exact (set_v_cfg _ _ _ E).
    + apply set_v_inv in E. destruct E as [_ ->]. reflexivity.
    + refine (fit_all _ _ _ _ (ca_fit _ Hc)). eapply set_v_bodies; eauto. apply fit_steps.
  - intros w dt v c Hc E. destruct Hc as [S V F Fo D]. constructor; auto.
    + now apply sound_cache.
    + destruct (solve_uncached la mi w dt V) as [_ G]. exact (G v c E).
  - intros w t Hc. apply (calm_same w); auto; try reflexivity; [|exact (ca_fit _ Hc)]. apply sound_t, (ca_sound _ Hc).
Qed.
Lemma sound_kinds w w' : sound bs js J0 w -> sound bs js J0 w' -> kinds w' = kinds w.
Proof.
  intros S S'. unfold kinds. f_equal; [now rewrite (so_len _ _ _ _ S), (so_len _ _ _ _ S')|].
  destruct (so_found _ _ _ _ S) as (_ & _ & _ & [_ HJ] & _). destruct (so_found _ _ _ _ S') as (_ & _ & _ & [_ HJ'] & _).
  assert (G : forall l (J : list jent) (K : list jent), Forall2 (jinv bs l) J K ->
    map (fun '(j, i1, i2) => (j_kind j, i1, i2)) K = map (fun '(j, i1, i2) => (j_kind j, i1, i2)) J).
  { clear. intros l J K H. induction H as [|[[j0 i1] i2] [[j k1] k2] J K H HJ IH]; [reflexivity|]. cbn [map]. rewrite IH. destruct H as (-> & -> & a1 & b1 & b2 & _ & _ & E & _). now rewrite E. }
  rewrite (G _ _ _ HJ), (G _ _ _ HJ'). reflexivity.
Qed.
Lemma calm_exec fuel ops w w' : calm w -> exec fuel o hd eng ops w = Ok w' -> calm w'.
Proof.
  intros Hc Hx. pose proof (ca_sound _ Hc) as S. pose proof (sound_exec bs js J0 o hd Hf Hr Ho fuel _ ops w w' S Hx) as S'.
  destruct (exec_uncached la mi fuel o hd ops Hf w (ca_valid _ Hc)) as [_ V]. specialize (V w' Hx). pose proof (exec_cfg _ _ _ _ _ _ _ Hx) as C.
  pose proof (sound_kinds _ _ S S') as K.
  assert (F : Forall (fit gf) (w_bodies w')) by exact (fit_all _ _ _ (exec_bodies _ (fit_steps gf) _ _ _ _ _ _ _ Hf Hx) (ca_fit _ Hc)).
  assert (Q : calm (with_cache w' (w_cache w))).
  { apply (calm_same w); auto. now apply sound_cache. }
  destruct Q as [_ _ Q3 Q4 Q5]. constructor; auto.
Qed.
End Run.

(** *** from the constructor *)
Section Smooth.
Variables (la : lapack R) (mi gf : nat) (o : oracle R) (bs : list (body R)) (js : list (joint R)) (w0 : world R).
Hypothesis HL : lapack_ok la.
Hypothesis Hmi : (0 < mi)%nat.
Hypothesis Ho : broadphase_sane o.
Hypothesis HS : smooth gf bs js w0.
Variables (heap : fheap R) (dt eps tol : R) (fd : nat) (ps st : bool).
Hypothesis H0 : world_init o (diff_handler gf o) heap bs js dt eps tol fd ps st = Ok w0.
Notation hd := (diff_handler gf o).
Notation eng := (pdipm_engine la mi).

Lemma smooth_calm : calm la gf bs js (w_joints w0) w0.
Proof.
  destruct HS as [A1 A2 A3 A4 A5 A6 A7 A8 A9 A10 A11].
  pose proof (sound_init o hd bs js heap dt eps tol fd ps st w0 (diff_handler_frame gf o) (diff_handler_respects gf o) Ho A1 A2 H0) as S.
  constructor; auto.
  - now destruct (init_valid la _ _ _ _ _ _ _ _ _ _ _ _ (diff_handler_frame gf o) H0) as [V _].
  - refine (fit_all _ _ _ (world_init_bodies _ (fit_steps gf) _ _ _ _ _ _ _ _ _ _ _ _ (diff_handler_frame gf o) H0) _).
    rewrite Forall_forall in *. intros b Hb. destruct (A4 b Hb) as (T1 & T2 & T3). apply available_fit; auto.
Qed.
(** every history from a smooth start can be continued, by any number of steps *)
Lemma smooth_steps fuel ops w fixed : (9 <= fuel)%nat -> exec fuel o hd eng ops w0 = Ok w ->
  exists w', exec fuel o hd eng (map OStep fixed) w = Ok w'.
Proof.
  intros Hfu Hx. destruct HS as [A1 A2 A3 A4 A5 A6 A7 A8 A9 A10 A11]. pose proof (exec_cfg _ _ _ _ _ _ _ Hx) as C. cfg_fields C.
  destruct (nonstrict_exec (calm la gf bs js (w_joints w0)) fuel o hd eng fixed (calm_returns la mi gf o bs js (w_joints w0) HL Hmi Ho A5 A6 A7) Hfu w) as (w' & E & _).
  - exact (calm_exec la mi gf o bs js (w_joints w0) Ho fuel ops w0 w smooth_calm Hx).
  - congruence.
  - now rewrite Hdt.
  - eauto.
Qed.
(** and run_world ends *)
Lemma smooth_run lfuel n ops w run_time : (4 <= lfuel)%nat -> exec lfuel o hd eng ops w0 = Ok w ->
  8 * (run_time - w_t w) / w_dt w0 <= INR n -> w_t w < run_time + w_dt w0 ->
  exists w', run_world (S n) lfuel o hd eng run_time w = Ok w' /\ run_time <= w_t w' < run_time + w_dt w0.
Proof.
  intros Hfu Hx Hn Ht. destruct HS as [A1 A2 A3 A4 A5 A6 A7 A8 A9 A10 A11]. pose proof (exec_cfg _ _ _ _ _ _ _ Hx) as C. cfg_fields C.
  destruct (nonstrict_run (calm la gf bs js (w_joints w0)) o hd eng run_time (calm_returns la mi gf o bs js (w_joints w0) HL Hmi Ho A5 A6 A7) n lfuel w) as (w' & E & _ & T).
  - exact (calm_exec la mi gf o bs js (w_joints w0) Ho lfuel ops w0 w smooth_calm Hx).
  - congruence.
  - now rewrite Hdt.
  - exact Hfu.
  - rewrite Hdt. apply Rmult_le_compat_r with (r := w_dt w0) in Hn; [|lra]. unfold Rdiv in *. rewrite Rmult_assoc, Rinv_l in Hn by lra. lra.
  - now rewrite Hdt.
  - exists w'. rewrite Hdt in T. auto.
Qed.
End Smooth.
