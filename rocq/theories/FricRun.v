(** Whole steps return in worlds with friction *)
From Coq Require Import List Arith ZArith Bool Reals Lra Lia Psatz.
From Verif Require Import Num Tensor Utils Bodies Forces Constraints Contacts World Lapack Pdipm Lcp Engines Spec GeoSpec BodySpec JointSpec FreshSpec EngineSpec ContactSpec ImpactSpec SceneSpec RegSpec FricSpec
     RBase ResFacts LinAlg LapackSpec KktSpec PdipmSpec BodyFacts WorldFacts HandlerFacts LayoutFacts HistFacts RigidFacts SysFacts RewindFacts JointFacts JeFacts FreshFacts TimeFacts
     CacheFacts BodyReach GeomFacts PdipmFacts PdipmLoop SolverFacts EngineFacts ContactSys EngineBalance ContactLaw EngineTotal PostFacts HeldFacts SupportFacts HellyFacts CollideFacts FlightFacts EngineProps IndepFacts
     RunTotal MomentumFacts FreeFacts ImpactProps FricFacts.
Import ListNotations.
Open Scope R_scope.

(** what never changes of a body *)
Definition alike (b b' : body R) : Prop :=
  b_id b' = b_id b /\ is_circle b' = is_circle b /\ g_no_contact (b_geom b') = g_no_contact (b_geom b).
Lemma alike_steps : body_steps alike.
Proof.
  constructor.
  - unfold alike. intros a b c H1 H2. intuition congruence.
  - intros b v. repeat split.
  - intros b p. pose proof (bs_p _ (same_attrs_steps (T := R)) b p) as H. unfold same_attrs in H. unfold alike. intuition. unfold is_circle, set_p. destruct (b_kind b) eqn:Ek; [cbn; now rewrite Ek|destruct (neqb _ _); cbn; now rewrite ?Ek|destruct (neqb _ _); cbn; now rewrite ?Ek].
  - intros b b' E. pose proof (bs_forget _ (same_attrs_steps (T := R)) b b' E) as H. unfold same_attrs in H. pose proof (still_shape b b' (still_forget b b' E)) as (_ & _ & Ec & _). unfold alike. intuition.
Qed.

Section Pieces.
Variables (la : lapack R) (gf : nat) (o : oracle R) (bs : list (body R)) (js : list (joint R)) (J0 : list jent).
Variable sol : world R -> R -> res (vec R * option (mat R)).
Variable P : world R -> Prop.
Hypothesis HL : lapack_ok la.
Hypothesis Ho : broadphase_sane o.
Hypothesis Hm : Forall (fun b : body R => 0 < b_mass b /\ 0 < b_inertia b) bs.
Hypothesis Hlf : loop_free js.
Notation hd := (diff_handler gf o).
Notation calm := (calm la gf bs js J0).
Hypothesis Pkeep : forall w w', P w -> w_contacts w' = w_contacts w -> cfg w' = cfg w -> Forall2 alike (w_bodies w) (w_bodies w') -> P w'.
Hypothesis Pfind : forall w w', calm w -> P w -> find_contacts o hd w = Ok w' -> P w'.
Hypothesis Psol : forall w dt, calm w -> P w -> exists v c, sol w dt = Ok (v, c) /\ length v = (3 * length (w_bodies w))%nat /\ valid la (with_cache w c).
Let Hf := diff_handler_frame gf o.
Let Hr := diff_handler_respects gf o.
Lemma pieces_return : returns_on (fun w => calm w /\ P w) o hd (mkEngine sol (post_stabilization la)).
Proof.
  constructor.
  - intros w [Hc _]. split; [apply (calm_joints bs js J0 w (ca_sound _ _ _ _ _ _ Hc))|apply (so_vlen _ _ _ _ (ca_sound _ _ _ _ _ _ Hc))].
  - intros w dt [Hc Hp]. destruct (Psol w dt Hc Hp) as (v & c & E & L & _). cbn [e_solve]. eauto.
  - intros w [Hc _] _. cbn [e_post]. destruct (post_total bs js J0 w la (ca_sound _ _ _ _ _ _ Hc) HL Hm (ca_ind la gf bs js J0 Hlf _ Hc)) as [dp E]. exists dp. split; [exact E|].
    now apply (post_balance bs js J0 w la (ca_sound _ _ _ _ _ _ Hc) HL (ca_valid _ _ _ _ _ _ Hc)).
  - intros w [Hc Hp]. destruct (find_contacts_total gf o w Ho) as [w' E].
    { eapply Forall_impl; [|exact (ca_fit _ _ _ _ _ _ Hc)]. intros b. apply fit_manageable. }
    exists w'. split; [exact E|]. split; [|exact (Pfind w w' Hc Hp E)]. apply (calm_same la gf bs js J0 w); auto.
    + exact (sound_find _ _ _ _ _ Hf Hr Ho _ _ (ca_sound _ _ _ _ _ _ Hc) E).
    + exact (kinds_find _ _ _ _ Hf E).
    + exact (find_contacts_cfg _ _ _ _ E).
    + apply find_contacts_inv in E. destruct E as (?&?&?& ->). reflexivity.
    + refine (fit_all _ _ _ _ (ca_fit _ _ _ _ _ _ Hc)). apply Forall2_forget'; [apply fit_steps|]. eapply find_contacts_frame; eauto.
  - intros w dt w' [Hc Hp] E. split.
    + apply (calm_same la gf bs js J0 w); auto.
      * exact (sound_move _ _ _ _ _ _ (ca_sound _ _ _ _ _ _ Hc) E).
      * exact (kinds_move _ _ _ E).
      * exact (move_all_cfg _ _ _ E).
      * apply move_all_inv in E. destruct E as [? ->]. reflexivity.
      * refine (fit_all _ _ _ _ (ca_fit _ _ _ _ _ _ Hc)). apply move_all_inv in E. destruct E as [? ->]. cbn. apply HistFacts.Forall2_map_r. intros. now apply fit_set_p.
    + apply (Pkeep w); auto; [|exact (move_all_cfg _ _ _ E)|]; apply move_all_inv in E; destruct E as [? ->]; [reflexivity|]. cbn. apply HistFacts.Forall2_map_r. intros. apply (bs_p _ alike_steps).
  - intros w1 w w' [H1 _] [Hc Hp] E. split.
    + apply (calm_same la gf bs js J0 w); auto.
      * exact (sound_rewind _ _ _ _ _ _ (ca_sound _ _ _ _ _ _ H1) (ca_sound _ _ _ _ _ _ Hc) E).
      * refine (kinds_rewind _ _ _ _ _ E). rewrite map_length. apply (calm_joint_count bs js J0); eapply ca_sound; eauto.
      * exact (rewind_cfg _ _ _ _ E).
      * apply rewind_inv in E. destruct E as [? ->]. reflexivity.
      * refine (fit_all _ _ _ _ (ca_fit _ _ _ _ _ _ Hc)). apply rewind_inv in E. destruct E as [? ->]. cbn. apply Forall2_mapi. intros. now apply fit_set_p.
    + apply (Pkeep w); auto; [|exact (rewind_cfg _ _ _ _ E)|]; apply rewind_inv in E; destruct E as [? ->]; [reflexivity|]. cbn. apply Forall2_mapi. intros. apply (bs_p _ alike_steps).
  - intros w v w' [Hc Hp] E. split.
    + apply (calm_same la gf bs js J0 w); auto.
      * exact (sound_set_v _ _ _ _ _ _ (ca_sound _ _ _ _ _ _ Hc) E).
      * exact (kinds_set_v _ _ _ E).
      * exact (set_v_cfg _ _ _ E).
      * apply set_v_inv in E. destruct E as [_ ->]. reflexivity.
      * refine (fit_all _ _ _ _ (ca_fit _ _ _ _ _ _ Hc)). eapply set_v_bodies; eauto. apply fit_steps.
    + apply (Pkeep w); auto; [|exact (set_v_cfg _ _ _ E)|eapply set_v_bodies; eauto using alike_steps]. apply set_v_inv in E. destruct E as [_ ->]. reflexivity.
  - intros w dt v c [Hc Hp] E. cbn [e_solve] in E. destruct (Psol w dt Hc Hp) as (v' & c' & E' & _ & V). rewrite E in E'. injection E' as <- <-. split.
    + destruct Hc as [S0 V0 F Fo D]. constructor; auto. now apply sound_cache.
    + apply (Pkeep w); auto. apply (Forall2_refl' _ alike_steps).
  - intros w t [Hc Hp]. split.
    + apply (calm_same la gf bs js J0 w); auto; try reflexivity; [|exact (ca_fit _ _ _ _ _ _ Hc)]. apply sound_t, (ca_sound _ _ _ _ _ _ Hc).
    + apply (Pkeep w); auto. apply (Forall2_refl' _ alike_steps).
Qed.
End Pieces.

(** *** one step *)
Section Step.
Variables (la : lapack R) (mi gf : nat) (o : oracle R) (bs : list (body R)) (js : list (joint R)) (J0 : list jent).
Hypothesis HL : lapack_ok la.
Hypothesis Hmi : (0 < mi)%nat.
Hypothesis Ho : broadphase_sane o.
Hypothesis Hm : Forall (fun b : body R => 0 < b_mass b /\ 0 < b_inertia b) bs.
Hypothesis Hfr : Forall (fun b : body R => 0 <= b_fric b) bs.
Hypothesis Hlf : loop_free js.
Notation hd := (diff_handler gf o).
Notation eng := (pdipm_engine la mi).
Notation calm := (calm la gf bs js J0).

Lemma mixed_nonneg w c : calm w -> 0 <= mixed w b_fric c.
Proof.
  intros Hc. pose proof (so_attrs _ _ _ _ (ca_sound _ _ _ _ _ _ Hc)) as A.
  assert (F : forall i, 0 <= body_at (w_bodies w) b_fric i).
  { intros i. unfold body_at. destruct (nth_error (w_bodies w) i) as [b|] eqn:E; [|rnum; apply Rle_refl]. apply nth_error_In in E. destruct (Forall2_In_r _ _ _ _ A E) as (b0 & H0 & HA). rewrite Forall_forall in Hfr. specialize (Hfr b0 H0). unfold same_attrs in HA. destruct HA as (_ & _ & _ & -> & _). exact Hfr. }
  unfold mixed. pose proof (F (c_i1 c)). pose proof (F (c_i2 c)). lra.
Qed.
Lemma apart_solve w dt : calm w -> apart w -> (forall c, In c (w_contacts w) -> no_wedge w c) ->
  exists v c, solve_dynamics la mi w dt = Ok (v, c) /\ length v = (3 * length (w_bodies w))%nat /\ valid la (with_cache w c).
Proof.
  intros Hc HA HW. destruct (ca_forces _ _ _ _ _ _ Hc (w_t w)) as [f Ef]. pose proof (ca_sound _ _ _ _ _ _ Hc) as HS. pose proof (ca_ind la gf bs js J0 Hlf _ Hc) as HI.
  destruct (solve_regular bs js J0 w la mi HS HL Hm HI dt f Hmi Ef (ca_dirs _ _ _ _ _ _ Hc)) as (v & c & E).
  { apply (step_regular bs js J0 w la HS HL Hm HI); auto. intros c _. now apply mixed_nonneg. }
  exists v, c. split; [exact E|]. destruct (solve_balance bs js J0 w la mi HS HL (ca_valid _ _ _ _ _ _ Hc) dt v c E) as (f' & imps & y & _ & Lv & _). split; [exact Lv|].
  destruct (solve_uncached la mi w dt (ca_valid _ _ _ _ _ _ Hc)) as [_ G]. exact (G v c E).
Qed.
Lemma apart_step w fuel dt : calm w -> apart w -> (forall c, In c (w_contacts w) -> no_wedge w c) ->
  w_strict w = false -> 0 < dt <= w_dt w -> (4 <= fuel)%nat -> exists w', step_dt fuel o hd eng w dt = Ok w' /\ calm w' /\ cfg w' = cfg w.
Proof.
  intros Hc HA HW Hs Hd Hfu. destruct (apart_solve w dt Hc HA HW) as (v & c & E & Lv & V).
  set (sol := fun (_ : world R) (_ : R) => Ok (v, c) : res (vec R * option (mat R))).
  assert (Eq : step_dt fuel o hd eng w dt = step_dt fuel o hd (mkEngine sol (post_stabilization la)) w dt).
  { unfold step_dt. cbn [e_solve e_post pdipm_engine]. rewrite E. reflexivity. }
  rewrite Eq. clear Eq.
  destruct (nonstrict_step_dt (fun w' => calm w' /\ cfg w' = cfg w) fuel o hd (mkEngine sol (post_stabilization la)) w dt) as (w' & k & E' & [C' _] & F' & _); auto; [|lra|eauto].
  apply (pieces_return la gf o bs js J0 sol (fun w' => cfg w' = cfg w)); auto.
  - intros a b Ha _ Hb _. congruence.
  - intros a b _ Ha H. rewrite (find_contacts_cfg _ _ _ _ H). exact Ha.
  - intros a d Ha Ca. exists v, c. split; [reflexivity|]. pose proof (ca_sound _ _ _ _ _ _ Ha) as Sa. pose proof (ca_sound _ _ _ _ _ _ Hc) as Sw. split; [rewrite (so_len _ _ _ _ Sa), <- (so_len _ _ _ _ Sw); exact Lv|].
    refine (valid_kinds la (with_cache w c) (with_cache a c) _ _ eq_refl V); [exact (sound_kinds bs js J0 w a Sw Sa)|exact Ca].
Qed.
End Step.

(** *** discs *)
Lemma Forall2_In_left {A B} (P : A -> B -> Prop) l l' a : Forall2 P l l' -> In a l -> exists b, In b l' /\ P a b.
Proof. induction 1 as [|x y l l' H F IH]; intros Ha; [destruct Ha|]. destruct Ha as [->|Ha]; [exists y; cbn; auto|]. destruct (IH Ha) as (b & ? & ?). exists b. cbn. auto. Qed.
(** the arms of a circle's contacts are along the normal *)
Definition arms (w : world R) : Prop := forall c b1 b2, In c (w_contacts w) -> nth_error (w_bodies w) (c_i1 c) = Some b1 -> nth_error (w_bodies w) (c_i2 c) = Some b2 ->
  (is_circle b1 = true -> central (c_normal c) (c_p1 c)) /\ (is_circle b2 = true -> central (c_normal c) (c_p2 c)).
Section Discs.
Variables (bs : list (body R)) (js : list (joint R)) (J0 : list jent) (w : world R).
Hypothesis HS : sound bs js J0 w.
Hypothesis Hm : Forall (fun b : body R => 0 < b_mass b /\ 0 < b_inertia b) bs.
Notation n := (3 * length (w_bodies w))%nat.

Lemma body_of i b : nth_error (w_bodies w) i = Some b -> exists b0, nth_error bs i = Some b0 /\ same_attrs b0 b.
Proof.
  intros H. pose proof (so_attrs _ _ _ _ HS) as A. destruct (nth_error bs i) as [b0|] eqn:E.
  - exists b0. split; [reflexivity|]. revert i H E. clear - A. induction A as [|x y l l' Hxy A IH]; intros [|i] H E; try discriminate; [injection H as ->; injection E as ->; exact Hxy|eauto].
  - apply nth_error_None in E. rewrite <- (so_len _ _ _ _ HS) in E. apply nth_error_None in E. congruence.
Qed.
Lemma pinned_still i b x : nth_error (w_bodies w) i = Some b -> pinned js (b_id b) -> length x = n -> constraint_velocity w x = repeat 0 (w_num_constraints w) -> v3_at x i = (0, (0, 0)).
Proof.
  intros Hb (j & Hj & K & E1) Lx Cx. destruct (body_of i b Hb) as (b0 & H0 & A0). assert (Ei : b_id b = b_id b0) by apply A0.
  pose proof (entries_stand _ _ _ _ HS) as ES. destruct (Forall2_In_left _ _ _ _ ES Hj) as (e & He & (Ke & _ & (c & Hc & Ec) & _ & _)).
  destruct (so_found _ _ _ _ HS) as (Hn & _). assert (Q : efirst e = i) by (apply (index_of bs _ _ c b0 Hn); auto; congruence).
  assert (Z : Forall (fun a => a = 0) (entry_vel w x e)).
  { apply Forall_forall. intros a Ha. assert (In a (constraint_velocity w x)) as I by (rewrite cv_entries; apply in_flat_map; eauto). rewrite Cx in I. exact (repeat_spec _ _ _ I). }
  destruct e as [[j' i1] i2]. cbn in Q. unfold ekind in Ke. cbn [fst] in Ke. subst i1. unfold entry_vel in Z. rewrite Hb, Ke, K in Z. cbn [measured] in Z.
  apply Forall_cons_iff in Z. destruct Z as [Z1 Z]. apply Forall_cons_iff in Z. destruct Z as [Z2 Z]. apply Forall_cons_iff in Z. destruct Z as [Z3 _].
  destruct (v3_at x i) as [a [p q]]. cbn [fst snd] in *. subst. reflexivity.
Qed.
(** the velocity a push at contact [c] gives a loose body *)
Lemma loose_moves i b c l t x u : nth_error (w_bodies w) i = Some b -> loose js (b_id b) -> pushed w c l t x ->
  b_inertia b * (fst u * fst (v3_at x i)) + b_mass b * component (snd u) (snd (v3_at x i)) =
  l * normal_velocity (alone w i u) c + t * slip_velocity (alone w i u) c.
Proof.
  intros Hb Lo (_ & _ & y & Ly & H). assert (Hi : (i < length (w_bodies w))%nat) by (apply nth_error_Some; congruence).
  specialize (H (alone w i u) (alone_length w i u)).
  assert (Zero : forall k, k <> i -> v3_at (alone w i u) k = (0, (0, 0))).
  { intros k Hk. destruct (Nat.lt_ge_cases k (length (w_bodies w))) as [L|L].
    - rewrite alone_at by exact L. apply Nat.eqb_neq in Hk. now rewrite Hk.
    - unfold v3_at, vget. rewrite !nth_overflow by (rewrite alone_length; lia). reflexivity. }
  assert (Kin : kinetic w (alone w i u) x = b_inertia b * (fst u * fst (v3_at x i)) + b_mass b * component (snd u) (snd (v3_at x i))).
  { unfold kinetic. rewrite (Rsum_single _ _ i b Hb).
    - rewrite alone_at, Nat.eqb_refl by exact Hi. reflexivity.
    - intros k Hk a. rewrite Zero by exact Hk. unfold component. cbn [fst snd]. ring. }
  assert (Cv : dot y (constraint_velocity w (alone w i u)) = 0).
  { apply constraint_velocity_zero. intros j i1 i2 Hin. pose proof (entries_stand _ _ _ _ HS) as ES. destruct (Forall2_In_r _ _ _ _ ES Hin) as (j' & Hj' & (_ & _ & _ & T & _)).
    destruct (body_of i b Hb) as (b0 & H0 & A0). assert (Ei : b_id b = b_id b0) by apply A0. specialize (Lo j' Hj'). rewrite Ei in Lo. rewrite <- (T i b0 H0) in Lo. cbn in Lo.
    assert (U1 : i1 <> i) by tauto. assert (U2 : i2 <> Some i) by tauto.
    assert (P0 : forall p : v2 R, point_velocity (0, (0, 0)) p = (0, 0)) by (intros [p q]; unfold point_velocity; cbn [fst snd]; rnum; apply f_equal2; ring).
    unfold entry_vel. destruct (nth_error (w_bodies w) i1) as [b1|]; [|constructor]. rewrite Zero by auto.
    assert (O : forall a, i2 = Some a -> v3_at (alone w i u) a = (0, (0, 0))) by (intros a ->; apply Zero; congruence).
    unfold measured. destruct (j_kind j); destruct i2 as [a|]; try (rewrite (O a eq_refl)); try destruct (nth_error (w_bodies w) a) as [b2|]; rewrite ?P0;
      unfold v2l, v2sub; cbn [fst snd app]; rnum; repeat (apply Forall_cons; [ring|]); apply Forall_nil. }
  rewrite Kin, Cv in H. rewrite H. ring.
Qed.

Lemma untouched_loose i b c l t x : nth_error (w_bodies w) i = Some b -> loose js (b_id b) -> pushed w c l t x -> c_i1 c <> i -> c_i2 c <> i -> v3_at x i = (0, (0, 0)).
Proof.
  intros Hb Lo Hp N1 N2. destruct (body_of i b Hb) as (b0 & H0 & A0). assert (HM : 0 < b_mass b /\ 0 < b_inertia b).
  { rewrite Forall_forall in Hm. specialize (Hm b0 (nth_error_In _ _ H0)). destruct A0 as (_ & -> & -> & _). exact Hm. }
  assert (Zero : forall u k, k <> i -> v3_at (alone w i u) k = (0, (0, 0))).
  { intros u k Hk. destruct (Nat.lt_ge_cases k (length (w_bodies w))) as [L|L].
    - rewrite alone_at by exact L. apply Nat.eqb_neq in Hk. now rewrite Hk.
    - unfold v3_at, vget. rewrite !nth_overflow by (rewrite alone_length; lia). reflexivity. }
  assert (E : forall u, b_inertia b * (fst u * fst (v3_at x i)) + b_mass b * component (snd u) (snd (v3_at x i)) = 0).
  { intros u. rewrite (loose_moves i b c l t x u Hb Lo Hp). unfold normal_velocity, slip_velocity, relative_velocity. rewrite !Zero by auto. unfold component, v2sub, point_velocity. cbn [fst snd]. rnum. ring. }
  pose proof (E (1, (0, 0))) as E1. pose proof (E (0, (1, 0))) as E2. pose proof (E (0, (0, 1))) as E3. unfold component in *. cbn [fst snd] in *. destruct (v3_at x i) as [a [p q]]. cbn [fst snd] in *.
  assert (a = 0) by (apply (Rmult_eq_reg_l (b_inertia b)); lra). assert (p = 0) by (apply (Rmult_eq_reg_l (b_mass b)); lra). assert (q = 0) by (apply (Rmult_eq_reg_l (b_mass b)); lra). subst. reflexivity.
Qed.
(** a push along the normal moves a disc along the normal *)
Lemma disc_answer (second : bool) c i b x : (if second then c_i2 c else c_i1 c) = i -> c_i1 c <> c_i2 c -> nth_error (w_bodies w) i = Some b -> simple js b ->
  (is_circle b = true -> central (c_normal c) (if second then c_p2 c else c_p1 c)) -> pushed w c 1 0 x ->
  exists k, 0 <= k /\ v3_at x i = (0, v2scale (if second then - k else k) (c_normal c)).
Proof.
  intros Ei Ne Hb [[Hc Lo]|Pi] Ce Hp.
  2: { exists 0. split; [lra|]. destruct (Hp) as (Lx & Cx & _). rewrite (pinned_still i b x Hb Pi Lx Cx). unfold v2scale. cbn [fst snd]. rnum. destruct second; repeat apply f_equal2; ring. }
  specialize (Ce Hc). destruct (body_of i b Hb) as (b0 & H0 & A0). assert (HM : 0 < b_mass b /\ 0 < b_inertia b).
  { rewrite Forall_forall in Hm. specialize (Hm b0 (nth_error_In _ _ H0)). destruct A0 as (_ & -> & -> & _). exact Hm. }
  assert (Hi : (i < length (w_bodies w))%nat) by (apply nth_error_Some; congruence).
  assert (Zero : forall u k, k <> i -> v3_at (alone w i u) k = (0, (0, 0))).
  { intros u k Hk. destruct (Nat.lt_ge_cases k (length (w_bodies w))) as [L|L].
    - rewrite alone_at by exact L. apply Nat.eqb_neq in Hk. now rewrite Hk.
    - unfold v3_at, vget. rewrite !nth_overflow by (rewrite alone_length; lia). reflexivity. }
  assert (One : forall u, v3_at (alone w i u) i = u) by (intros u; rewrite alone_at, Nat.eqb_refl by exact Hi; reflexivity).
  pose proof (fun u => loose_moves i b c 1 0 x u Hb Lo Hp) as E. unfold normal_velocity, slip_velocity, relative_velocity in E.
  exists (/ b_mass b). split; [apply Rlt_le, Rinv_0_lt_compat, HM|].
  pose proof (E (1, (0, 0))) as E1. pose proof (E (0, (1, 0))) as E2. pose proof (E (0, (0, 1))) as E3. clear E.
  unfold central, cross_2d in Ce. revert Ce. rnum. intros Ce. destruct (v3_at x i) as [a [p q]], (c_normal c) as [nx ny].
  assert (F : b_inertia b * a = 0 /\ b_mass b * p = (if second then - nx else nx) /\ b_mass b * q = (if second then - ny else ny)).
  { destruct second; subst i; rewrite One, Zero in * by auto; unfold component, v2sub, point_velocity in *; cbn [fst snd] in *; rnum; lra. }
  destruct F as (F1 & F2 & F3). unfold v2scale. cbn [fst snd]. rnum.
  assert (Ha : a = 0) by (apply (Rmult_eq_reg_l (b_inertia b)); lra). destruct HM as [HM _].
  apply f_equal2; [exact Ha|]. apply f_equal2; apply (Rmult_eq_reg_l (b_mass b)); try lra; [rewrite F2|rewrite F3]; destruct second; field; lra.
Qed.
Lemma discs_no_wedge c : sparse js w -> arms w -> In c (w_contacts w) -> no_wedge w c.
Proof.
  intros [Hs _] Ha Hc x Hp. pose proof (so_range _ _ _ _ HS) as Hr. rewrite Forall_forall in Hr. destruct (Hr c Hc) as (Ne & R1 & R2).
  destruct (nth_error (w_bodies w) (c_i1 c)) as [b1|] eqn:E1; [|apply nth_error_None in E1; lia]. destruct (nth_error (w_bodies w) (c_i2 c)) as [b2|] eqn:E2; [|apply nth_error_None in E2; lia].
  destruct (Ha c b1 b2 Hc E1 E2) as [A1 A2].
  destruct (disc_answer false c (c_i1 c) b1 x eq_refl Ne E1 (Hs c b1 Hc (or_introl E1)) A1 Hp) as (k1 & K1 & V1).
  destruct (disc_answer true c (c_i2 c) b2 x eq_refl Ne E2 (Hs c b2 Hc (or_intror E2)) A2 Hp) as (k2 & K2 & V2).
  unfold normal_velocity, slip_velocity, relative_velocity. rewrite V1, V2. destruct (c_normal c) as [nx ny]. unfold component, tangent, v2sub, point_velocity, v2scale. cbn [fst snd]. rnum.
  match goal with |- _ * Rabs ?a <= ?b => replace a with 0 by ring; replace b with ((k1 + k2) * (nx * nx + ny * ny)) by ring end. rewrite Rabs_R0, Rmult_0_r.
  apply Rmult_le_pos; [lra|]. pose proof (Rle_0_sqr nx). pose proof (Rle_0_sqr ny). unfold Rsqr in *. lra.
Qed.
Lemma discs_apart : sparse js w -> apart w.
Proof.
  intros [Hs Ho] i j c d l t x Hi Hj Nij Hp. pose proof (nth_error_In _ _ Hj) as Hd. pose proof (so_range _ _ _ _ HS) as Hr. rewrite Forall_forall in Hr. destruct (Hr d Hd) as (_ & R1 & R2).
  assert (Z : forall k, (k < length (w_bodies w))%nat -> c_i1 d = k \/ c_i2 d = k -> v3_at x k = (0, (0, 0))).
  { intros k Hk Hkd. destruct (nth_error (w_bodies w) k) as [b|] eqn:Eb; [|apply nth_error_None in Eb; lia].
    destruct (Hp) as (Lx & Cx & _). assert (G : pinned js (b_id b) -> v3_at x k = (0, (0, 0))) by (intros Pi; exact (pinned_still k b x Eb Pi Lx Cx)).
    assert (Sb : simple js b) by (apply (Hs d b Hd); destruct Hkd as [<-|<-]; auto). destruct Sb as [[_ Lo]|Pi]; [|auto].
    destruct (Nat.eq_dec (c_i1 c) k) as [Q1|Q1]; [apply G, (Ho i j c d k b); auto|]. destruct (Nat.eq_dec (c_i2 c) k) as [Q2|Q2]; [apply G, (Ho i j c d k b); auto|].
    exact (untouched_loose k b c l t x Eb Lo Hp Q1 Q2). }
  unfold normal_velocity, slip_velocity, relative_velocity. rewrite !Z by auto. unfold component, v2sub, point_velocity. cbn [fst snd]. rnum. split; ring.
Qed.
End Discs.

(** *** contact detection with at most one partner for each disc *)
Lemma flat_at {A C} (calls : list (A * list C)) i c : nth_error (flat_map snd calls) i = Some c ->
  exists a r k, nth_error calls a = Some k /\ nth_error (snd k) r = Some c /\ i = (length (flat_map snd (firstn a calls)) + r)%nat.
Proof.
  revert i. induction calls as [|k calls IH]; intros i H; [destruct i; discriminate|]. cbn [flat_map] in H. destruct (Nat.lt_ge_cases i (length (snd k))) as [L|L].
  - rewrite nth_error_app1 in H by exact L. exists 0%nat, i, k. cbn. auto.
  - rewrite nth_error_app2 in H by exact L. destruct (IH _ H) as (a & r & k' & H1 & H2 & H3). exists (S a), r, k'. split; [exact H1|]. split; [exact H2|]. cbn [firstn flat_map]. rewrite app_length. lia.
Qed.
Lemma handler_one gf o eps clk bs i j b1 b2 new bs' clk' : nth_error bs i = Some b1 -> nth_error bs j = Some b2 -> diff_handler (T := R) gf o eps clk bs i j = Ok (new, bs', clk') ->
  is_circle b1 = true \/ is_circle b2 = true -> (length new <= 1)%nat.
Proof.
  intros H1 H2 H Hc. apply get_body_Ok in H1, H2. unfold diff_handler in H. rewrite H1, H2 in H. cbn [bind] in H.
  destruct (existsb _ _); [inversion H; subst; cbn; lia|].
  destruct (is_circle b1) eqn:C1; destruct (is_circle b2) eqn:C2; cbn [andb orb] in H; [| | |destruct Hc; discriminate].
  - inversion H; subst. unfold mk_contacts. rewrite map_length. unfold circle_circle. cbv zeta. destruct (nltb _ _); cbn; lia.
  - destruct (Nat.eqb _ _); [discriminate|]. bind_inv H as r E. destruct r as [op hu']. inversion H; subst. unfold mk_contacts. rewrite map_length. destruct op; cbn; lia.
  - destruct (Nat.eqb _ _); [discriminate|]. bind_inv H as r E. destruct r as [op hu']. inversion H; subst. unfold mk_contacts. rewrite map_length. destruct op; cbn; lia.
Qed.
Lemma handler_allows gf o eps clk bs i j b1 b2 new bs' clk' c : nth_error bs i = Some b1 -> nth_error bs j = Some b2 -> diff_handler (T := R) gf o eps clk bs i j = Ok (new, bs', clk') ->
  In c new -> ~ excluded b1 b2.
Proof.
  intros H1 H2 H Hc X. apply get_body_Ok in H1, H2. unfold diff_handler in H. rewrite H1, H2 in H. cbn [bind] in H.
  assert (E : existsb (Nat.eqb (b_id b1)) (g_no_contact (b_geom b2)) = true) by (apply existsb_exists; exists (b_id b1); split; [exact X|apply Nat.eqb_refl]).
  rewrite E in H. inversion H; subst. destruct Hc.
Qed.
Lemma excluded_alike a b a' b' : alike a a' -> alike b b' -> excluded a' b' <-> excluded a b.
Proof. intros (I1 & _ & _) (_ & _ & N2). unfold excluded. now rewrite I1, N2. Qed.

Section Current.
Variables (gf : nat) (o : oracle R) (bs : list (body R)) (js : list (joint R)) (w : world R).
Hypothesis Ho : broadphase_sane o.
Hypothesis Hon : broadphase_once o.
Hypothesis Hn : NoDup (map b_id bs).
Hypothesis Hp : paired js bs.
Hypothesis Ha : Forall2 alike bs (w_bodies w).
Hypothesis Hcur : contacts_current o (diff_handler gf o) w.
Lemma origin i b : nth_error (w_bodies w) i = Some b -> exists b0, nth_error bs i = Some b0 /\ alike b0 b.
Proof.
  intros H. revert i H. clear - Ha. induction Ha as [|x y l l' Hxy A IH]; intros [|i] H; try discriminate; [injection H as ->; exists x; auto|]. exact (IH A i H).
Qed.
Lemma current_arms : arms w.
Proof. intros c b1 b2 Hc H1 H2. exact (current_central gf o w c b1 b2 Hcur Hc H1 H2). Qed.
Lemma simple_alike b0 b : alike b0 b -> simple js b0 -> simple js b.
Proof. intros (I & C & _) [[H1 H2]|H]; [left|right]; rewrite I, ?C; auto. Qed.
Lemma current_sparse : sparse js w.
Proof.
  destruct Hp as [Hsi Hpa]. split.
  - intros c b _ Hb. assert (H : exists i, nth_error (w_bodies w) i = Some b) by (destruct Hb; eauto). destruct H as [i H]. destruct (origin i b H) as (b0 & H0 & A0).
    apply (simple_alike b0 b A0), Hsi. eapply nth_error_In; eauto.
  - intros i j c d k b Hi Hj Nij Hc Hd Hb. destruct Hcur as (clk & calls & Hcalls & Hw & Hrep). rewrite Hw in Hi, Hj.
    destruct (origin k b Hb) as (b0 & H0 & A0). pose proof (nth_error_In _ _ H0) as I0. destruct (Hsi b0 I0) as [[Ci Lo]|Pi]; [exfalso|destruct A0 as (-> & _); exact Pi].
    destruct (flat_at _ _ _ Hi) as (a1 & r1 & [[p1 q1] new1] & K1 & N1 & L1). destruct (flat_at _ _ _ Hj) as (a2 & r2 & [[p2 q2] new2] & K2 & N2 & L2). cbn [snd] in N1, N2.
    (* one report *)
    assert (Rep : forall p q new r e, In ((p, q), new) calls -> nth_error new r = Some e -> c_i1 e = k \/ c_i2 e = k -> exists m b', (p = k /\ q = m \/ p = m /\ q = k) /\ m <> k /\
      nth_error bs m = Some b' /\ may_touch b0 b' /\ (length new <= 1)%nat).
    { intros p q new r e Hin Hr He. destruct (Hrep p q new Hin) as (clk1 & bs0 & bs1 & clk2 & Hst & Hdh). pose proof (nth_error_In _ _ Hr) as Ine.
      destruct (diff_handler_idx _ _ _ _ _ _ _ _ _ _ _ Hdh Ine) as [Q1 Q2].
      assert (Hpq : In (p, q) (o_collide o clk (map b_geom (w_bodies w)))) by (rewrite <- Hcalls; apply in_map_iff; exists ((p, q), new); auto).
      destruct (Ho _ _ _ _ Hpq) as (Np & Rp & Rq). rewrite map_length in Rp, Rq.
      destruct (nth_error (w_bodies w) p) as [bp|] eqn:Ep; [|apply nth_error_None in Ep; lia]. destruct (nth_error (w_bodies w) q) as [bq|] eqn:Eq; [|apply nth_error_None in Eq; lia].
      destruct (origin p bp Ep) as (cp & Hcp & Ap). destruct (origin q bq Eq) as (cq & Hcq & Aq).
      destruct (still_nth _ _ _ _ Hst Ep) as (sp & Sp & Tp). destruct (still_nth _ _ _ _ Hst Eq) as (sq & Sq & Tq).
      pose proof (still_shape _ _ Tp) as (_ & _ & Cp & _). pose proof (still_shape _ _ Tq) as (_ & _ & Cq & _).
      assert (X : ~ excluded cp cq).
      { intros X. apply (handler_allows _ _ _ _ _ _ _ _ _ _ _ _ e Sp Sq Hdh Ine). rewrite <- (excluded_alike _ _ _ _ Ap Aq) in X.
        assert (G : forall s t : body R, still s = still t -> b_id s = b_id t /\ g_no_contact (b_geom s) = g_no_contact (b_geom t)).
        { intros s t E. unfold still in E. split.
          - transitivity (b_id (with_v (forget s) v3zero)); [|rewrite E]; unfold forget; [destruct s as [? [] ? ? ? ? ? ? ? ? ?]|destruct t as [? [] ? ? ? ? ? ? ? ? ?]]; reflexivity.
          - transitivity (g_no_contact (b_geom (with_v (forget s) v3zero))); [|rewrite E]; unfold forget; [destruct s as [? [] ? ? ? ? ? ? ? ? ?]|destruct t as [? [] ? ? ? ? ? ? ? ? ?]]; reflexivity. }
        destruct (G _ _ Tp) as [G1 _]. destruct (G _ _ Tq) as [_ G2]. unfold excluded in *. rewrite G1, G2. exact X. }
      assert (One : is_circle sp = true \/ is_circle sq = true -> (length new <= 1)%nat) by (apply (handler_one _ _ _ _ _ _ _ _ _ _ _ _ Sp Sq Hdh)).
      rewrite Q1, Q2 in He. destruct He as [-> | ->].
      - exists q, cq. rewrite H0 in Hcp. injection Hcp as <-. split; [auto|]. split; [auto|]. split; [exact Hcq|]. split; [intros [X1 _]; tauto|]. apply One. left. destruct Ap as (_ & Ap & _). congruence.
      - exists p, cp. rewrite H0 in Hcq. injection Hcq as <-. split; [auto|]. split; [auto|]. split; [exact Hcp|]. split; [intros [_ X1]; tauto|]. apply One. right. destruct Aq as (_ & Aq & _). congruence. }
    destruct (Rep _ _ _ _ _ (nth_error_In _ _ K1) N1 Hc) as (m1 & d1 & P1 & M1 & D1 & T1 & O1).
    destruct (Rep _ _ _ _ _ (nth_error_In _ _ K2) N2 Hd) as (m2 & d2 & P2 & M2 & D2 & T2 & O2).
    assert (Lr1 : r1 = 0%nat). { assert (r1 < length new1)%nat by (apply nth_error_Some; congruence). lia. }
    assert (Lr2 : r2 = 0%nat). { assert (r2 < length new2)%nat by (apply nth_error_Some; congruence). lia. }
    assert (Em : m1 = m2).
    { apply (index_of bs m1 m2 d1 d2 Hn D1 D2). apply (Hpa b0 d1 d2 I0 (nth_error_In _ _ D1) (nth_error_In _ _ D2) Lo); auto; intros E; [apply M1|apply M2]; symmetry; eapply (index_of bs); eauto. }
    assert (Ea : a1 = a2).
    { set (key := fun '(i, j) => (Nat.min i j, Nat.max i j)) in *. pose proof (Hon clk (map b_geom (w_bodies w))) as ND. rewrite <- Hcalls, map_map in ND.
      pose proof (proj1 (NoDup_nth_error _) ND) as NE. apply NE.
      - rewrite map_length. apply nth_error_Some. congruence.
      - rewrite !nth_error_map, K1, K2. cbn. f_equal. destruct P1 as [[-> ->]|[-> ->]], P2 as [[-> ->]|[-> ->]]; subst; f_equal; lia. }
    subst. congruence.
Qed.
End Current.

(** *** from the constructor *)
Section Rough.
Variables (la : lapack R) (mi gf : nat) (o : oracle R) (bs : list (body R)) (js : list (joint R)) (w0 : world R).
Hypothesis HL : lapack_ok la.
Hypothesis Hmi : (0 < mi)%nat.
Hypothesis Ho : broadphase_sane o.
Hypothesis HR : rough gf bs js w0.
Variables (heap : fheap R) (dt eps tol : R) (fd : nat) (ps st : bool).
Hypothesis H0 : world_init o (diff_handler gf o) heap bs js dt eps tol fd ps st = Ok w0.
Notation hd := (diff_handler gf o).
Notation eng := (pdipm_engine la mi).
Let Hf := diff_handler_frame gf o.

Lemma rough_calm : calm la gf bs js (w_joints w0) w0.
Proof.
  destruct HR as [A1 A2 A3 A4 A5 A6 A7 A8 A9 A10 A11].
  pose proof (sound_init o hd bs js heap dt eps tol fd ps st w0 Hf (diff_handler_respects gf o) Ho A1 A2 H0) as S.
  constructor; auto.
  - now destruct (init_valid la _ _ _ _ _ _ _ _ _ _ _ _ Hf H0) as [V _].
  - refine (fit_all _ _ _ (world_init_bodies _ (fit_steps gf) _ _ _ _ _ _ _ _ _ _ _ _ Hf H0) _).
    rewrite Forall_forall in *. intros b Hb. destruct (A4 b Hb) as (T1 & T2 & T3). apply available_fit; auto.
Qed.
Lemma rough_later fuel ops w : exec fuel o hd eng ops w0 = Ok w ->
  calm la gf bs js (w_joints w0) w /\ Forall2 alike bs (w_bodies w) /\ contacts_current o hd w /\ w_strict w = false /\ w_dt w = w_dt w0.
Proof.
  intros Hx. pose proof (exec_cfg _ _ _ _ _ _ _ Hx) as C. cfg_fields C. split; [|split; [|split; [|split]]].
  - exact (calm_exec la mi gf o bs js (w_joints w0) Ho fuel ops w0 w rough_calm Hx).
  - exact (world_steps _ alike_steps _ _ _ _ _ _ _ _ _ _ _ _ _ _ _ _ Hf H0 Hx).
  - eapply exec_current; [exact Hf| |exact Hx]. eapply init_current; [exact Hf|exact H0].
  - rewrite <- (ro_strict _ _ _ _ HR). congruence.
  - congruence.
Qed.
(** a step from a state whose contacts are apart and do not wedge *)
Lemma rough_step fuel ops w fuel' d : exec fuel o hd eng ops w0 = Ok w -> apart w -> (forall c, In c (w_contacts w) -> no_wedge w c) ->
  0 < d <= w_dt w0 -> (4 <= fuel')%nat -> exists w', step_dt fuel' o hd eng w d = Ok w'.
Proof.
  intros Hx HA HW Hd Hfu. destruct (rough_later fuel ops w Hx) as (Hc & _ & _ & Hs & Hdt). destruct HR as [A1 A2 A3 A4 A5 A6 A7 A8 A9 A10 A11].
  destruct (apart_step la mi gf o bs js (w_joints w0) HL Hmi Ho A5 A6 A7 w fuel' d Hc HA HW Hs) as (w' & E & _); [lra|exact Hfu|eauto].
Qed.
Lemma sparse_apart fuel ops w : exec fuel o hd eng ops w0 = Ok w -> sparse js w -> apart w /\ forall c, In c (w_contacts w) -> no_wedge w c.
Proof.
  intros Hx HP. destruct (rough_later fuel ops w Hx) as (Hc & _ & Hcur & _). pose proof (ca_sound _ _ _ _ _ _ Hc) as HS. pose proof (ro_masses _ _ _ _ HR) as Hm.
  split; [exact (discs_apart bs js _ w HS Hm HP)|]. intros c Hin. apply (discs_no_wedge bs js _ w HS Hm c HP); [|exact Hin]. intros c' b1 b2 Hc' E1 E2. exact (current_central gf o w c' b1 b2 Hcur Hc' E1 E2).
Qed.
(** with one contact the condition is exact *)
Lemma one_exact fuel ops w c u pr : exec fuel o hd eng ops w0 = Ok w -> w_contacts w = [c] -> contact_problem w u = Ok pr ->
  regular (3 * length (w_bodies w)) 4 (w_num_constraints w) (pr_Q pr) (pr_G pr) (pr_F pr) (pr_A pr) <-> no_wedge w c.
Proof.
  intros Hx EC Hpr. destruct (rough_later fuel ops w Hx) as (Hc & _). pose proof (ca_sound _ _ _ _ _ _ Hc) as HS. pose proof (ca_dirs _ _ _ _ _ _ Hc) as H2.
  pose proof (ca_ind la gf bs js _ (ro_loops _ _ _ _ HR) _ Hc) as HI. pose proof (ro_masses _ _ _ _ HR) as Hm.
  assert (Hmu : 0 <= mixed w b_fric c) by (exact (mixed_nonneg la gf bs js _ (ro_friction _ _ _ _ HR) w c Hc)).
  assert (E : rposed (3 * length (w_bodies w)) (length (w_contacts w) + 2 * length (w_contacts w) + length (w_contacts w)) (w_num_constraints w) (step_prob w 0 []) <->
    regular (3 * length (w_bodies w)) 4 (w_num_constraints w) (pr_Q pr) (pr_G pr) (pr_F pr) (pr_A pr)).
  { assert (EJ : Jf w = Ok (jf_all w)) by (unfold Jf; rewrite EC, H2; rewrite <- EC; reflexivity).
    unfold contact_problem in Hpr. rewrite EJ in Hpr. cbn [bind] in Hpr. injection Hpr as <-. cbn [pr_Q pr_G pr_F pr_A]. unfold rposed. cbn [step_prob pr_Q pr_G pr_F pr_A].
    assert (En : length (w_contacts w) = 1%nat) by now rewrite EC. unfold world_E, mu, mu_vec. rewrite H2. rewrite En at 1 2 3. reflexivity. }
  rewrite <- E. split.
  - exact (regular_no_wedge bs js _ w la HS HL Hm HI 0 [] c EC Hmu).
  - intros HW. apply (step_regular bs js _ w la HS HL Hm HI).
    + intros i j c1 d l t x Hi Hj N _. rewrite EC in Hi, Hj. destruct i as [|[|]], j as [|[|]]; try discriminate; congruence.
    + intros c' Hc'. rewrite EC in Hc'. destruct Hc' as [<-|[]]. exact Hmu.
    + intros c' Hc'. rewrite EC in Hc'. destruct Hc' as [<-|[]]. exact HW.
Qed.
Section Paired.
Hypothesis Hon : broadphase_once o.
Hypothesis Hp : paired js bs.
Lemma paired_returns : returns_on (fun w => calm la gf bs js (w_joints w0) w /\ (Forall2 alike bs (w_bodies w) /\ sparse js w /\ arms w)) o hd eng.
Proof.
  destruct HR as [A1 A2 A3 A4 A5 A6 A7 A8 A9 A10 A11].
  apply (pieces_return la gf o bs js (w_joints w0) (solve_dynamics la mi) (fun w => Forall2 alike bs (w_bodies w) /\ sparse js w /\ arms w)); auto.
  - intros w w' (B1 & [B2 B3] & B4) Ec _ HA.
    assert (G : forall i b', nth_error (w_bodies w') i = Some b' -> exists b, nth_error (w_bodies w) i = Some b /\ alike b b').
    { clear - HA. induction HA as [|x y l l' Hxy A IH]; intros [|i] b' H; try discriminate; [injection H as ->; exists x; auto|]. exact (IH i b' H). }
    split; [|split; [split|]].
    + clear - B1 HA. revert HA. generalize (w_bodies w') as m. induction B1 as [|x y l l' Hxy A IH]; intros m HA; inversion HA as [|y' z l2 m2 Q1 Q2]; subst; constructor; [|now apply IH]. exact (bs_trans _ alike_steps _ _ _ Hxy Q1).
    + intros c b Hin Hb. rewrite Ec in Hin. destruct Hb as [Hb|Hb]; destruct (G _ _ Hb) as (b0 & Hb0 & A0); apply (simple_alike js b0 b A0), (B2 c b0 Hin); auto.
    + intros i j c d k b Hi Hj Nij K1 K2 Hb. rewrite Ec in Hi, Hj. destruct (G _ _ Hb) as (b0 & Hb0 & A0). destruct A0 as (-> & _). exact (B3 i j c d k b0 Hi Hj Nij K1 K2 Hb0).
    + intros c b1 b2 Hin E1 E2. rewrite Ec in Hin. destruct (G _ _ E1) as (a1 & Ha1 & (_ & C1 & _)). destruct (G _ _ E2) as (a2 & Ha2 & (_ & C2 & _)). rewrite C1, C2. eapply B4; eauto.
  - intros w w' Hc (B1 & _ & _) E.
    assert (B : Forall2 alike bs (w_bodies w')).
    { assert (Q : Forall2 alike (w_bodies w) (w_bodies w')) by (apply Forall2_forget'; [apply alike_steps|]; eapply find_contacts_frame; eauto).
      clear - B1 Q. revert Q. generalize (w_bodies w') as m. induction B1 as [|x y l l' Hxy A IH]; intros m HA; inversion HA as [|y' z l2 m2 Q1 Q2]; subst; constructor; [|now apply IH]. exact (bs_trans _ alike_steps _ _ _ Hxy Q1). }
    pose proof (find_contacts_current _ _ _ _ Hf E) as Hcur. split; [exact B|]. split; [|exact (current_arms gf o w' Hcur)].
    exact (current_sparse gf o bs js w' Ho Hon A1 Hp B Hcur).
  - intros w d Hc (B1 & B2 & B3). pose proof (ca_sound _ _ _ _ _ _ Hc) as HS.
    apply (apart_solve la mi gf bs js (w_joints w0) HL Hmi A5 A6 A7 w d Hc); [exact (discs_apart bs js _ w HS A5 B2)|]. intros c Hin. exact (discs_no_wedge bs js _ w HS A5 c B2 B3 Hin).
Qed.
Lemma paired_state fuel ops w : exec fuel o hd eng ops w0 = Ok w -> calm la gf bs js (w_joints w0) w /\ (Forall2 alike bs (w_bodies w) /\ sparse js w /\ arms w).
Proof.
  intros Hx. destruct (rough_later fuel ops w Hx) as (Hc & HA & Hcur & _). split; [exact Hc|]. split; [exact HA|]. split; [|exact (current_arms gf o w Hcur)].
  exact (current_sparse gf o bs js w Ho Hon (ro_ids _ _ _ _ HR) Hp HA Hcur).
Qed.
Lemma paired_steps fuel ops w fixed : (9 <= fuel)%nat -> exec fuel o hd eng ops w0 = Ok w -> exists w', exec fuel o hd eng (map OStep fixed) w = Ok w'.
Proof.
  intros Hfu Hx. destruct (rough_later fuel ops w Hx) as (_ & _ & _ & Hs & Hdt).
  destruct (nonstrict_exec _ fuel o hd eng fixed paired_returns Hfu w) as (w' & E & _); [exact (paired_state fuel ops w Hx)|exact Hs|rewrite Hdt; exact (ro_dt _ _ _ _ HR)|eauto].
Qed.
Lemma paired_run lfuel n ops w run_time : (4 <= lfuel)%nat -> exec lfuel o hd eng ops w0 = Ok w ->
  8 * (run_time - w_t w) / w_dt w0 <= INR n -> w_t w < run_time + w_dt w0 ->
  exists w', run_world (S n) lfuel o hd eng run_time w = Ok w' /\ run_time <= w_t w' < run_time + w_dt w0.
Proof.
  intros Hfu Hx Hn Ht. destruct (rough_later lfuel ops w Hx) as (_ & _ & _ & Hs & Hdt). pose proof (ro_dt _ _ _ _ HR) as A9.
  destruct (nonstrict_run _ o hd eng run_time paired_returns n lfuel w) as (w' & E & _ & T).
  - exact (paired_state lfuel ops w Hx).
  - exact Hs.
  - now rewrite Hdt.
  - exact Hfu.
  - rewrite Hdt. apply Rmult_le_compat_r with (r := w_dt w0) in Hn; [|lra]. unfold Rdiv in *. rewrite Rmult_assoc, Rinv_l in Hn by lra. lra.
  - now rewrite Hdt.
  - exists w'. rewrite Hdt in T. auto.
Qed.
End Paired.
End Rough.
