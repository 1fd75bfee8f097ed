(** What World's constructor accepts, and how deep contacts are (proofs for C96 and C97) *)
From Coq Require Import List Arith ZArith Bool Reals Lra Lia.
From Verif Require RealEx.
From Verif Require Import Num Tensor Utils Bodies Forces Constraints Contacts World Lapack Pdipm Engines
     Spec GeoSpec BodySpec JointSpec FreshSpec ContactSpec EngineSpec StrictSpec AcceptSpec RBase ResFacts BodyFacts RigidFacts GeomFacts BodyReach WorldFacts HandlerFacts
     LayoutFacts HistFacts SatFacts FreshFacts CollideFacts ContactFacts JointFacts PlaneFacts SupportFacts ClipFacts GjkFacts SceneInit RunTotal GameProps GameStart OverlapFacts StrictFacts OverlapCover PropBody TunnelFacts DepthFacts.
Import ListNotations.
Open Scope R_scope.

(** *** rectangles *)
Lemma squared_rotate th vs : squared vs -> squared (map (rotate th) vs).
Proof.
  assert (Dp : forall a b c d : pt, (fst (rotate th a) - fst (rotate th b)) * (fst (rotate th c) - fst (rotate th d)) + (snd (rotate th a) - snd (rotate th b)) * (snd (rotate th c) - snd (rotate th d)) = (fst a - fst b) * (fst c - fst d) + (snd a - snd b) * (snd c - snd d)).
  { intros. pose proof (sin2_cos2 th) as SC. unfold Rsqr in SC. unfold rotate. cbn [fst snd]. set (s := sin th) in *. set (k := cos th) in *.
    transitivity ((s * s + k * k) * ((fst a - fst b) * (fst c - fst d) + (snd a - snd b) * (snd c - snd d))); [ring|rewrite SC; ring]. }
  assert (Inj : forall a b : pt, rotate th a = rotate th b -> a = b).
  { intros a b E. assert (Z : dist (rotate th a) (rotate th b) = 0) by (now apply dist_zero). apply dist_zero. unfold dist in *. rewrite <- Z. f_equal. symmetry. apply Dp. }
  intros [H1 H2]. split.
  - intros u v w Hu Hw. rewrite edges_map in Hu, Hw. apply in_map_iff in Hu, Hw. destruct Hu as ([u' v'] & E & Hu), Hw as ([v'' w'] & E' & Hw). cbn [fst snd] in E, E'.
    assert (u = rotate th u' /\ v = rotate th v' /\ v = rotate th v'' /\ w = rotate th w') as (-> & -> & Ev & ->) by (repeat split; congruence). apply Inj in Ev. subst v''. rewrite Dp. now apply H1.
  - intros p q He v Hv. rewrite edges_map in He. apply in_map_iff in He. destruct He as ([p' q'] & E & He). cbn [fst snd] in E. apply in_map_iff in Hv. destruct Hv as (v' & <- & Hv).
    assert (p = rotate th p' /\ q = rotate th q') as (-> & ->) by (split; congruence). rewrite Dp. now apply H2.
Qed.
Lemma corners_squared w h : 0 < w -> 0 < h -> squared (corners w h).
Proof.
  intros Hw Hh. unfold corners.
  assert (Hx' : 0 < w / 2) by lra. assert (Hy' : 0 < h / 2) by lra. set (x' := w / 2) in *. set (y' := h / 2) in *. clearbody x' y'.
  assert (P : 0 < x' * x') by nra. assert (Q : 0 < y' * y') by nra. split.
  - intros u v z Hu Hz. cbn [edges combine app] in Hu, Hz.
    repeat (destruct Hu as [Hu|Hu]; [injection Hu as <- <-; repeat (destruct Hz as [Hz|Hz]; [injection Hz; intros; subst; cbn [fst snd]; first [ring|exfalso; lra]|]); destruct Hz|]). destruct Hu.
  - intros p q He v Hv. cbn [edges combine app] in He.
    repeat (destruct He as [He|He]; [injection He as <- <-; repeat (destruct Hv as [<-|Hv]; [cbn [fst snd]; lra|]); destruct Hv|]). destruct He.
Qed.
Lemma rect_squared (b : body R) d vs l : reachable_body b -> b_kind b = KRect d vs l -> 0 < fst d -> 0 < snd d -> squared (b_verts b).
Proof.
  intros Hr Hk H1 H2. destruct (reachable_shape b Hr) as [_ Hs]. unfold b_verts. rewrite Hk in *. destruct Hs as [_ ->]. apply squared_rotate. now apply corners_squared.
Qed.

(** *** the depth of the contacts of a pair *)
Lemma plain_facts t (b1 b2 : body R) : reachable_body b1 -> reachable_body b2 -> solid b1 -> solid b2 -> plain_pair t b1 b2 ->
  tidy b1 /\ tidy b2 /\ measured t b1 b2 /\ (is_circle b1 = true \/ is_circle b2 = true \/ squared (b_verts b1) /\ squared (b_verts b2)).
Proof.
  intros R1 R2 S1 S2 H.
  assert (G : forall (b : body R) d vs l, reachable_body b -> solid b -> b_kind b = KRect d vs l -> is_circle b = false /\ strictly_convex (b_verts b) /\ inscribed (b_verts b) /\ squared (b_verts b)).
  { intros b d vs l Rb Sb Hk. unfold solid in Sb. rewrite Hk in Sb. destruct (rect_tidy b d vs l Rb Hk (proj1 Sb) (proj2 Sb)) as [A B]. pose proof (rect_squared b d vs l Rb Hk (proj1 Sb) (proj2 Sb)) as C. unfold is_circle. rewrite Hk. auto. }
  assert (GC : forall (b : body R) r, solid b -> b_kind b = KCircle r -> is_circle b = true /\ b_rad b = r /\ 0 < r).
  { intros b r Sb Hk. unfold solid in Sb. unfold is_circle, b_rad. rewrite Hk in *. auto. }
  unfold plain_pair in H. destruct (b_kind b1) as [r1| |d1 v1 l1] eqn:K1, (b_kind b2) as [r2| |d2 v2 l2] eqn:K2; try contradiction.
  - destruct (GC _ _ S1 K1) as (A1 & A2 & A3). destruct (GC _ _ S2 K2) as (B1 & B2 & B3). unfold tidy, measured. rewrite A1, B1, A2, B2. repeat split; auto; lra.
  - destruct (GC _ _ S1 K1) as (A1 & A2 & A3). destruct (G _ _ _ _ R2 S2 K2) as (B1 & B2 & _). unfold tidy, measured. rewrite A1, B1, A2. repeat split; auto; try lra; apply B2.
  - destruct (GC _ _ S2 K2) as (A1 & A2 & A3). destruct (G _ _ _ _ R1 S1 K1) as (B1 & B2 & _). unfold tidy, measured. rewrite A1, B1, A2. repeat split; auto; try lra; apply B2.
  - destruct (G _ _ _ _ R1 S1 K1) as (A1 & A2 & A3 & A4). destruct (G _ _ _ _ R2 S2 K2) as (B1 & B2 & B3 & B4). unfold tidy, measured. rewrite A1, B1. split; [exact A2|]. split; [exact B2|]. auto.
Qed.
Lemma handler_depth_plain fuel o eps clk bs i1 i2 b1 b2 cs bs' clk' c t : nth_error bs i1 = Some b1 -> nth_error bs i2 = Some b2 -> tidy b1 -> tidy b2 -> measured t b1 b2 -> 0 <= t ->
  is_circle b1 = true \/ is_circle b2 = true \/ squared (b_verts b1) /\ squared (b_verts b2) -> overlap_at_most t b1 b2 ->
  diff_handler (T := R) fuel o eps clk bs i1 i2 = Ok (cs, bs', clk') -> In c cs -> c_pen c <= t.
Proof.
  intros H1 H2 T1 T2 Hm Ht Hs Ho H Hin.
  destruct (is_circle b1) eqn:C1; [apply (handler_depth _ _ _ _ _ _ _ _ _ _ _ _ c t H1 H2 T1 T2 (or_introl C1) Ho H Hin)|].
  destruct (is_circle b2) eqn:C2; [apply (handler_depth _ _ _ _ _ _ _ _ _ _ _ _ c t H1 H2 T1 T2 (or_intror C2) Ho H Hin)|].
  destruct Hs as [Hs|[Hs|[Q1 Q2]]]; try discriminate. unfold measured in Hm. rewrite C1, C2 in Hm. unfold tidy in T1, T2. rewrite C1 in T1. rewrite C2 in T2.
  unfold diff_handler in H. unfold get_body in H. rewrite H1, H2 in H. cbn [bind] in H. destruct (existsb _ _); [inversion H; subst; destruct Hin|]. rewrite C1, C2 in H. cbn [andb orb] in H.
  bind_inv H as r E. destruct r as [[ps b1'] b2']. inversion H; subst; clear H. apply in_mk_contacts in Hin. destruct Hin as (n & p1 & p2 & pen & Hin & ->). cbn [c_pen].
  apply (hull_hull_depth b1 b2 eps ps b1' b2' t n p1 p2 pen); auto; apply Hm.
Qed.
Lemma still_measured t (a1 b1 a2 b2 : body R) : still a1 = still b1 -> still a2 = still b2 -> measured t b1 b2 -> measured t a1 a2.
Proof.
  intros E1 E2. destruct (still_shape _ _ E1) as (_ & _ & Q1 & R1 & V1 & _). destruct (still_shape _ _ E2) as (_ & _ & Q2 & R2 & V2 & _). unfold measured. now rewrite Q1, Q2, V1, V2, R1, R2.
Qed.
Lemma report_depth gf o w c b1 b2 t : contacts_current o (diff_handler gf o) w -> broadphase_sane o -> In c (w_contacts w) -> nth_error (w_bodies w) (c_i1 c) = Some b1 -> nth_error (w_bodies w) (c_i2 c) = Some b2 ->
  tidy b1 -> tidy b2 -> measured t b1 b2 -> 0 <= t -> is_circle b1 = true \/ is_circle b2 = true \/ squared (b_verts b1) /\ squared (b_verts b2) -> overlap_at_most t b1 b2 -> c_pen c <= t.
Proof.
  intros Cu Ho Hc B1 B2 T1 T2 Hm Ht Hs Hov. destruct (current_report _ _ _ _ Cu Hc Ho) as (_ & _ & _ & new & Hin & (clk & bs0 & bs1 & clk1 & Hst & Hd)).
  destruct (still_nth _ _ _ _ Hst B1) as (a1 & A1 & E1). destruct (still_nth _ _ _ _ Hst B2) as (a2 & A2 & E2).
  destruct (still_shape _ _ E1) as (_ & _ & Q1 & _ & V1 & _). destruct (still_shape _ _ E2) as (_ & _ & Q2 & _ & V2 & _).
  refine (handler_depth_plain _ _ _ _ _ _ _ _ _ _ _ _ c t A1 A2 (still_tidy _ _ (eq_sym E1) T1) (still_tidy _ _ (eq_sym E2) T2) (still_measured _ _ _ _ _ E1 E2 Hm) Ht _ (still_overlap _ _ _ _ _ E1 E2 Hov) Hd Hin).
  now rewrite Q1, Q2, V1, V2.
Qed.
(** a contact is never between bodies one of which excludes the other *)
Lemma report_excluded gf o w c b1 b2 : contacts_current o (diff_handler gf o) w -> broadphase_sane o -> In c (w_contacts w) -> nth_error (w_bodies w) (c_i1 c) = Some b1 -> nth_error (w_bodies w) (c_i2 c) = Some b2 -> ~ excluded b1 b2.
Proof.
  intros Cu Ho Hc B1 B2 X. destruct (current_report _ _ _ _ Cu Hc Ho) as (_ & _ & _ & new & Hin & (clk & bs0 & bs1 & clk1 & Hst & Hd)).
  destruct (still_nth _ _ _ _ Hst B1) as (a1 & A1 & E1). destruct (still_nth _ _ _ _ Hst B2) as (a2 & A2 & E2).
  destruct (still_shape _ _ E1) as (I1 & _). destruct (still_shape _ _ E2) as (_ & _ & _ & _ & _ & G2). unfold excluded in X. rewrite <- I1, <- G2 in X.
  unfold diff_handler in Hd. unfold get_body in Hd. rewrite A1, A2 in Hd. cbn [bind] in Hd. destruct (existsb _ _) eqn:Ex; [inversion Hd; subst; destruct Hin|].
  assert (T : existsb (Nat.eqb (b_id a1)) (g_no_contact (b_geom a2)) = true) by (apply existsb_exists; exists (b_id a1); split; [exact X|apply Nat.eqb_refl]). congruence.
Qed.
Lemma cover_pair fuel o w i j b1 b2 t : contacts_current o (diff_handler fuel o) w ->
  (forall k, In (i, j) (o_collide o k (map b_geom (w_bodies w))) \/ In (j, i) (o_collide o k (map b_geom (w_bodies w)))) ->
  nth_error (w_bodies w) i = Some b1 -> nth_error (w_bodies w) j = Some b2 -> ~ excluded b1 b2 -> ~ excluded b2 b1 ->
  tidy b1 -> tidy b2 -> measured t b1 b2 -> 0 <= w_eps w -> 0 <= t -> (forall c, In c (w_contacts w) -> joins c i j -> c_pen c <= t) -> overlap_at_most t b1 b2.
Proof.
  intros (k & calls & Hk & Hw & Hr) Hp H1 H2 X1 X2 T1 T2 Hm He Ht Hc.
  assert (G : forall i' j' b1 b2, (forall c, In c (w_contacts w) -> c_i1 c = i' -> c_i2 c = j' -> c_pen c <= t) -> In (i', j') (o_collide o k (map b_geom (w_bodies w))) -> nth_error (w_bodies w) i' = Some b1 -> nth_error (w_bodies w) j' = Some b2 ->
    ~ excluded b1 b2 -> tidy b1 -> tidy b2 -> measured t b1 b2 -> overlap_at_most t b1 b2).
  { clear - Hk Hw Hr He Ht. intros i j b1 b2 Hc Hin H1 H2 Hx T1 T2 Hm. rewrite <- Hk in Hin. apply in_map_iff in Hin. destruct Hin as ([[i' j'] new] & E & Hin). cbn [fst] in E. inversion E; subst i' j'; clear E.
    destruct (Hr i j new Hin) as (clk & bs0 & bs1 & clk1 & Hs & Hd). destruct (still_nth _ _ _ _ Hs H1) as (a1 & A1 & S1). destruct (still_nth _ _ _ _ Hs H2) as (a2 & A2 & S2).
    assert (S1' := eq_sym S1). assert (S2' := eq_sym S2).
    destruct (still_shape _ _ S1') as (I1 & _ & Q1 & R1 & V1 & G1). destruct (still_shape _ _ S2') as (I2 & _ & Q2 & R2 & V2 & G2).
    apply (still_overlap t b1 a1 b2 a2); auto. eapply (handler_cover fuel o (w_eps w) clk bs0 i j a1 a2); eauto using still_tidy.
    - unfold excluded in *. now rewrite <- I1, <- G2.
    - unfold measured in *. rewrite <- Q1, <- Q2, <- V1, <- V2, <- R1, <- R2. exact Hm.
    - intros c Hin'. destruct (diff_handler_idx _ _ _ _ _ _ _ _ _ _ c Hd Hin') as [Y1 Y2]. apply Hc; auto. rewrite Hw. apply in_flat_map. eexists. split; [exact Hin|exact Hin']. }
  destruct (Hp k) as [Hin|Hin]; [apply (G i j); auto; intros c H Y1 Y2; apply Hc; [exact H|left; auto]|]. apply overlap_sym. apply (G j i); auto; [intros c H Y1 Y2; apply Hc; [exact H|right; auto]|now apply measured_sym].
Qed.
Lemma now_current gf o w : simulated gf o w -> contacts_current o (diff_handler gf o) w.
Proof. intros (fuel & e & heap & bodies & cons & dt & eps & tol & fd & ps & st & w0 & ops & _ & H0 & Hx). eapply exec_current; [apply diff_handler_frame| |exact Hx]. eapply init_current; [apply diff_handler_frame|exact H0]. Qed.
Theorem depth_exact gf o w i j b1 b2 t : simulated gf o w -> broadphase_sane o -> broadphase_complete o -> i <> j ->
  nth_error (w_bodies w) i = Some b1 -> nth_error (w_bodies w) j = Some b2 -> padded w b1 b2 -> ~ excluded b1 b2 -> ~ excluded b2 b1 -> plain_pair t b1 b2 -> 0 <= t ->
  ((forall c, In c (w_contacts w) -> joins c i j -> c_pen c <= t) <-> overlap_at_most t b1 b2).
Proof.
  intros Hsim Hsane Hc Hij H1 H2 Hp X1 X2 Hpl Ht. pose proof Hsim as (fuel & e & heap & bodies & cons & dt & eps & tol & fd & ps & st & w0 & ops & Hb & H0 & Hx).
  assert (Rb : forall b, In b (w_bodies w) -> reachable_body b) by (intros b Hin; eapply RBworld; eauto; apply diff_handler_frame).
  pose proof (Rb _ (nth_error_In _ _ H1)) as R1. pose proof (Rb _ (nth_error_In _ _ H2)) as R2. pose proof Hp as (S1 & S2 & E1 & E2 & E3).
  destruct (plain_facts t b1 b2 R1 R2 S1 S2 Hpl) as (T1 & T2 & Hm & Hs).
  assert (Cu : contacts_current o (diff_handler gf o) w). { eapply exec_current; [apply diff_handler_frame| |exact Hx]. eapply init_current; [apply diff_handler_frame|exact H0]. }
  split.
  - intros Hpen. pose proof (reachable_supported _ R1 T1) as U1. pose proof (reachable_supported _ R2 T2) as U2.
    destruct (apart_cover b1 b2 T1 T2 U1 U2) as [(q & P1 & P2)|O]; [|eapply overlap_le; eauto].
    apply (cover_pair gf o w i j b1 b2 t); auto; [|lra].
    eapply C11_no_pair_missed; eauto; [apply diff_handler_frame|tauto|]. rewrite (proj2 (dist_zero q q) eq_refl). apply E3.
  - intros Hov c Hin [[J1 J2]|[J1 J2]].
    + subst i j. apply (report_depth gf o w c b1 b2 t); auto.
    + subst i j. apply (report_depth gf o w c b2 b1 t); auto; [now apply measured_sym|tauto|now apply overlap_sym].
Qed.

(** *** the constructor *)
Lemma index_of_missing (bs : list (body R)) id : ~ In id (map b_id bs) -> index_of bs id = Err EValue.
Proof.
  induction bs as [|b bs IH]; [reflexivity|]. cbn [map In index_of]. intros H. destruct (Nat.eqb_spec (b_id b) id) as [E|E]; [exfalso; auto|]. rewrite IH by auto. reflexivity.
Qed.
Lemma index_of_present (bs : list (body R)) id : In id (map b_id bs) -> exists i, index_of bs id = Ok i.
Proof. intros H. apply in_map_iff in H. destruct H as (b & <- & H). destruct (index_of_total bs b H) as (i & _ & E & _). eauto. Qed.
Lemma init_missing o hd heap bs js dt eps tol fd ps st : bs <> [] -> (exists j, In j js /\ ~ at_hand bs j) -> world_init (T := R) o hd heap bs js dt eps tol fd ps st = Err EValue.
Proof.
  intros Hne (j & Hj & Hn). unfold world_init. destruct bs as [|b0 bs0] eqn:Eb; [congruence|]. rewrite <- Eb in *. clear Eb Hne.
  match goal with |- context [mapM ?f js] => assert (E : mapM f js = Err EValue) end; [|rewrite E; reflexivity].
  assert (In_dec : forall id, {In id (map b_id bs)} + {~ In id (map b_id bs)}) by (intros; apply in_dec; apply Nat.eq_dec).
  induction js as [|x l IH]; [destruct Hj|]. cbn [mapM]. destruct (In_dec (j_b1 x)) as [I1|I1]; [|rewrite (index_of_missing _ _ I1); reflexivity].
  destruct (index_of_present _ _ I1) as [i1 E1]. rewrite E1. cbn [bind].
  assert (K : at_hand bs x -> (do bs1 <- mapM (fun j0 : joint R => do i0 <- index_of bs (j_b1 j0); match j_b2 j0 with Some id => do i2 <- index_of bs id; Ok (j0, i0, Some i2) | None => Ok (j0, i0, None) end) l; Ok (match j_b2 x with Some id => match index_of bs id with Ok i2 => (x, i1, Some i2) | Err _ => (x, i1, None) end | None => (x, i1, None) end :: bs1)) = Err EValue).
  { intros A. destruct Hj as [->|Hj]; [contradiction|]. rewrite (IH Hj). reflexivity. }
  destruct (j_b2 x) as [id|] eqn:E2.
  - destruct (In_dec id) as [I2|I2]; [|rewrite (index_of_missing _ _ I2); reflexivity]. destruct (index_of_present _ _ I2) as [i2 Ei2]. rewrite Ei2 in *. cbn [bind]. apply K. split; [exact I1|]. intros id' E. congruence.
  - cbn [bind]. apply K. split; [exact I1|]. intros id' E. congruence.
Qed.
Lemma init_relaxed gf o heap bs js dt eps tol fd ps : broadphase_sane o -> bs <> [] -> Forall (fit gf) bs -> Forall (at_hand bs) js ->
  exists w, world_init o (diff_handler gf o) heap bs js dt eps tol fd ps false = Ok w.
Proof.
  intros Ho Hne Hfit Hjs. unfold world_init. destruct bs as [|b0 bs0] eqn:Eb; [congruence|]. rewrite <- Eb in *.
  match goal with |- context [mapM ?f js] => assert (EJ : exists l, mapM f js = Ok l) end.
  { apply mapM_exists. intros j Hj. rewrite Forall_forall in Hjs. destruct (Hjs j Hj) as [I1 I2]. destruct (index_of_present _ _ I1) as [i1 ->]. cbn [bind].
    destruct (j_b2 j) as [id|]; [|eauto]. destruct (index_of_present _ _ (I2 id eq_refl)) as [i2 ->]. cbn [bind]. eauto. }
  destruct EJ as [l EJ]. rewrite EJ. cbn [bind]. unfold set_v. rewrite cat3_length, map_length. cbn [w_bodies]. rewrite Nat.eqb_refl. cbn [bind].
  match goal with |- context [find_contacts _ _ ?x] => assert (FC : exists w2, find_contacts o (diff_handler gf o) x = Ok w2) end.
  { apply find_contacts_total; [exact Ho|]. cbn [w_bodies with_state]. apply Forall_forall. intros b Hin. destruct (In_nth_error _ _ Hin) as [i Hi]. rewrite mapi_nth in Hi.
    destruct (nth_error bs i) as [c|] eqn:Ec; [|discriminate]. cbn [option_map] in Hi. injection Hi as <-. rewrite Forall_forall in Hfit.
    destruct (fit_manageable gf c (Hfit c (nth_error_In _ _ Ec))) as (M1 & M2 & M3 & M4). split; [exact M1|]. split; [exact M2|]. split; [exact M3|exact M4]. }
  destruct FC as [w2 ->]. cbn [bind andb]. eauto.
Qed.
Lemma init_relaxed_tidy gf o heap bs js dt eps tol fd ps : broadphase_sane o -> bs <> [] ->
  (forall b, In b bs -> available b /\ tidy b /\ ContactSpec.in_range b /\ (gjk_rounds b <= gf)%nat) -> Forall (at_hand bs) js ->
  exists w, world_init o (diff_handler gf o) heap bs js dt eps tol fd ps false = Ok w.
Proof. intros Ho Hne H. apply init_relaxed; auto. rewrite Forall_forall. intros b Hb. destruct (H b Hb) as (A & T & I & G). now apply available_fit. Qed.
Lemma find_contacts_alike o hd (wa wb w2 : world R) : w_eps wb = w_eps wa -> w_bodies wb = w_bodies wa -> w_clk wb = w_clk wa -> find_contacts o hd wa = Ok w2 ->
  exists w3, find_contacts o hd wb = Ok w3 /\ w_contacts w3 = w_contacts w2 /\ w_bodies w3 = w_bodies w2 /\ w_tol w3 = w_tol wb /\ w_strict w3 = w_strict wb /\ w_joints w3 = w_joints wb /\ w_v w3 = w_v wb /\ w_t w3 = w_t wb.
Proof.
  intros E1 E2 E3 H. unfold find_contacts in *. cbv zeta in *. rewrite E1, E2, E3. bind_inv H as r Er. rewrite Er. cbn [bind]. destruct r as [[cs bs'] clk]. injection H as <-. eexists. split; [reflexivity|]. cbn. auto 10.
Qed.
(** the strict constructor returns what the other one returns, or raises *)
Lemma init_strict_same o hd heap bs js dt eps tol fd ps (w : world R) : world_init o hd heap bs js dt eps tol fd ps false = Ok w ->
  ((forall c, In c (w_contacts w) -> c_pen c <= tol) ->
     exists w', world_init o hd heap bs js dt eps tol fd ps true = Ok w' /\ w_strict w' = true /\ w_bodies w' = w_bodies w /\ w_joints w' = w_joints w /\ w_contacts w' = w_contacts w /\ w_v w' = w_v w /\ w_t w' = w_t w) /\
  ((exists c, In c (w_contacts w) /\ tol < c_pen c) -> world_init o hd heap bs js dt eps tol fd ps true = Err EAssert).
Proof.
  intros H. unfold world_init in *. destruct bs as [|b0 bs]; [discriminate|]. bind_inv H as js' Ej. rewrite Ej. cbn [bind]. bind_inv H as w1 E1. bind_inv H as w2 E2. cbn [andb] in H. injection H as <-.
  unfold set_v in *. cbn [w_bodies] in *. destruct (Nat.eqb _ _); [|discriminate]. cbn [bind]. injection E1 as <-.
  match type of E2 with find_contacts _ _ ?a = _ => match goal with |- context [find_contacts o hd ?x] => destruct (find_contacts_alike o hd a x w2 eq_refl eq_refl eq_refl E2) as (w3 & E3 & Ec & Eb & F1 & F2 & F3 & F4 & F5) end end.
  rewrite E3. cbn [bind andb]. assert (T3 : w_tol w3 = tol) by exact F1. assert (S3 : w_strict w3 = true) by exact F2.
  assert (Q : w_joints w2 = js' /\ w_t w2 = nofZ 0 /\ w_v w2 = cat3 (map b_v (b0 :: bs))). { unfold find_contacts in E2. cbv zeta in E2. bind_inv E2 as r Er. destruct r as [[cs bs'] clk]. injection E2 as <-. auto. }
  destruct Q as (Q1 & Q2 & Q3). unfold no_penetration. rewrite Ec, T3. rnum. set (cs := w_contacts w2). split.
  - intros Hc. replace (forallb (fun c => Rleb (c_pen c) tol) cs) with true; [cbn [negb]; exists w3; split; [reflexivity|]; rewrite Q1, Q2, Q3; split; [exact S3|]; split; [exact Eb|]; split; [exact F3|]; split; [exact Ec|]; split; [exact F4|exact F5]|].
    symmetry. apply forallb_forall. intros c Hin. apply Rleb_true. now apply Hc.
  - intros (c & Hin & Hl). replace (forallb (fun c => Rleb (c_pen c) tol) cs) with false; [reflexivity|].
    symmetry. apply not_true_is_false. intros F. rewrite forallb_forall in F. specialize (F c Hin). apply Rleb_true in F. lra.
Qed.

(** *** scenes of Circles and Rects *)
Lemma forget_plain t (a1 b1 a2 b2 : body R) : forget a1 = forget b1 -> forget a2 = forget b2 -> plain_pair t b1 b2 -> plain_pair t a1 a2.
Proof.
  intros E1 E2. assert (K : forall a b : body R, forget a = forget b -> match b_kind a, b_kind b with KCircle r, KCircle r' => r = r' | KHull _ _, KHull _ _ => True | KRect _ _ _, KRect _ _ _ => True | _, _ => False end).
  { intros a b E. destruct a as [? k ? ? ? ? ? ? ? ? ?], b as [? k' ? ? ? ? ? ? ? ? ?]. destruct k, k'; cbn in *; try discriminate E; try exact Logic.I. now injection E. }
  apply K in E1. apply K in E2. unfold plain_pair. destruct (b_kind a1), (b_kind b1), (b_kind a2), (b_kind b2); try tauto; subst; auto.
Qed.
Lemma forget_pad (a b : body R) : forget a = forget b -> solid b -> 0 <= b_eps b -> solid a /\ b_eps a = b_eps b.
Proof.
  intros E S Hp. split; [|now rewrite <- (forget_eps a), E, forget_eps]. unfold solid in *. destruct a as [? k ? ? ? ? ? ? ? ? ?], b as [? k' ? ? ? ? ? ? ? ? ?]. destruct k, k'; cbn in *; try discriminate E; try exact Logic.I; injection E; intros; subst; auto.
Qed.
Lemma plain_tidy gf eps (b : body R) : available b -> plain_body gf eps b -> tidy b.
Proof.
  intros A (S & _ & _ & _ & _ & K). unfold tidy, is_circle, b_rad. unfold solid in S. destruct (b_kind b) as [r| |d vs l] eqn:Ek; [lra|contradiction|].
  destruct S as [S1 S2]. apply (rect_tidy b d vs l (RBavailable _ A) Ek S1 S2).
Qed.
Lemma plain_fit gf eps (bs : list (body R)) : Forall available bs -> Forall (plain_body gf eps) bs -> Forall (fit gf) bs.
Proof.
  intros A P. rewrite Forall_forall in *. intros b Hb. pose proof (P b Hb) as Pb. apply available_fit; [now apply A|apply (plain_tidy gf eps); auto|apply Pb|apply Pb].
Qed.
Section Scene.
Variables (gf : nat) (o : oracle R) (heap : fheap R) (bs : list (body R)) (js : list (joint R)) (dt eps tol : R) (fd : nat) (ps : bool).
Hypothesis Ho : broadphase_sane o.
Hypothesis Hc : broadphase_complete o.
Hypothesis Hne : bs <> [].
Hypothesis Hav : Forall available bs.
Hypothesis Hpl : Forall (plain_body gf eps) bs.
Hypothesis Hpp : forall i j b1 b2, i <> j -> nth_error bs i = Some b1 -> nth_error bs j = Some b2 -> ~ excluded b1 b2 -> plain_pair tol b1 b2.
Hypothesis Hex : forall b1 b2, In b1 bs -> In b2 bs -> excluded b1 b2 -> excluded b2 b1.
Hypothesis Hjs : Forall (at_hand bs) js.
Hypothesis He : 0 <= eps.
Hypothesis Ht : 0 <= tol.
Notation hd := (diff_handler gf o).
Lemma scene_world : exists w, world_init o hd heap bs js dt eps tol fd ps false = Ok w /\ simulated gf o w /\ w_eps w = eps /\ map forget (w_bodies w) = map forget bs.
Proof.
  destruct (init_relaxed gf o heap bs js dt eps tol fd ps Ho Hne (plain_fit gf eps bs Hav Hpl) Hjs) as [w W]. exists w. split; [exact W|]. split.
  - exists 0%nat, RealEx.free_engine, heap, bs, js, dt, eps, tol, fd, ps, false, w, []. split; [exact Hav|]. split; [exact W|reflexivity].
  - split; [apply world_init_inv in W; tauto|]. eapply init_forget; [apply diff_handler_frame|exact W].
Qed.
Lemma scene_body (w : world R) i b : map forget (w_bodies w) = map forget bs -> nth_error (w_bodies w) i = Some b -> exists c, nth_error bs i = Some c /\ forget b = forget c.
Proof. intros E H. apply (f_equal (fun l => nth_error l i)) in E. rewrite !nth_error_map, H in E. destruct (nth_error bs i) as [c|]; [|discriminate]. exists c. split; [reflexivity|]. now injection E. Qed.
Lemma scene_body' (w : world R) i c : map forget (w_bodies w) = map forget bs -> nth_error bs i = Some c -> exists b, nth_error (w_bodies w) i = Some b /\ forget b = forget c.
Proof. intros E H. apply (f_equal (fun l => nth_error l i)) in E. rewrite !nth_error_map, H in E. destruct (nth_error (w_bodies w) i) as [b|]; [|discriminate]. exists b. split; [reflexivity|]. now injection E. Qed.
(** a pair of the world *)
Lemma scene_pair (w : world R) i j b1 b2 c1 c2 : simulated gf o w -> w_eps w = eps -> i <> j -> nth_error (w_bodies w) i = Some b1 -> nth_error (w_bodies w) j = Some b2 ->
  nth_error bs i = Some c1 -> nth_error bs j = Some c2 -> forget b1 = forget c1 -> forget b2 = forget c2 -> ~ excluded c1 c2 ->
  ((forall c, In c (w_contacts w) -> joins c i j -> c_pen c <= tol) <-> overlap_at_most tol c1 c2).
Proof.
  intros Hs We Hij B1 B2 C1 C2 E1 E2 X. pose proof Hpl as HP. rewrite Forall_forall in HP. destruct (HP _ (nth_error_In _ _ C1)) as (S1 & _ & _ & P1 & Q1 & _). destruct (HP _ (nth_error_In _ _ C2)) as (S2 & _ & _ & P2 & Q2 & _).
  destruct (forget_pad _ _ E1 S1 P1) as [S1' Ep1]. destruct (forget_pad _ _ E2 S2 P2) as [S2' Ep2]. pose proof (still_forget _ _ E1) as Z1. pose proof (still_forget _ _ E2) as Z2.
  destruct (still_shape _ _ Z1) as (I1 & _ & _ & _ & _ & G1). destruct (still_shape _ _ Z2) as (I2 & _ & _ & _ & _ & G2).
  assert (X1 : ~ excluded b1 b2) by (unfold excluded in *; now rewrite I1, G2). assert (X2 : ~ excluded b2 b1).
  { intros X'. apply X. apply Hex; [eapply nth_error_In; eauto|eapply nth_error_In; eauto|]. unfold excluded in *. now rewrite <- I2, <- G1. }
  rewrite (depth_exact gf o w i j b1 b2 tol Hs Ho Hc Hij B1 B2); auto.
  - split; apply still_overlap; auto.
  - unfold padded. rewrite We, Ep1, Ep2. split; [exact S1'|]. split; [exact S2'|]. split; [exact P1|]. split; [exact P2|]. lra.
  - eapply forget_plain; eauto.
Qed.
Theorem accept_exact :
  ((forall i j b1 b2, i <> j -> nth_error bs i = Some b1 -> nth_error bs j = Some b2 -> ~ excluded b1 b2 -> overlap_at_most tol b1 b2) ->
     exists w, world_init o hd heap bs js dt eps tol fd ps true = Ok w) /\
  ((exists i j b1 b2, i <> j /\ nth_error bs i = Some b1 /\ nth_error bs j = Some b2 /\ ~ excluded b1 b2 /\ ~ overlap_at_most tol b1 b2) ->
     world_init o hd heap bs js dt eps tol fd ps true = Err EAssert).
Proof.
  destruct scene_world as (w & W & Hs & We & Ef). destruct (init_strict_same _ _ _ _ _ _ _ _ _ _ _ W) as [A1 A2]. split.
  - intros H. destruct A1 as (w' & W' & _); [|eauto]. intros c Hin. pose proof (now_current gf o w Hs) as Cu. destruct (current_report _ _ _ _ Cu Hin Ho) as (N & L1 & L2 & _).
    destruct (nth_error (w_bodies w) (c_i1 c)) as [b1|] eqn:B1; [|apply nth_error_None in B1; lia]. destruct (nth_error (w_bodies w) (c_i2 c)) as [b2|] eqn:B2; [|apply nth_error_None in B2; lia].
    destruct (scene_body _ _ _ Ef B1) as (c1 & C1 & E1). destruct (scene_body _ _ _ Ef B2) as (c2 & C2 & E2).
    pose proof (report_excluded _ _ _ _ _ _ Cu Ho Hin B1 B2) as X. destruct (still_shape _ _ (still_forget _ _ E1)) as (I1 & _). destruct (still_shape _ _ (still_forget _ _ E2)) as (_ & _ & _ & _ & _ & G2).
    assert (X' : ~ excluded c1 c2) by (unfold excluded in *; now rewrite <- I1, <- G2).
    apply (scene_pair w _ _ b1 b2 c1 c2 Hs We N B1 B2 C1 C2 E1 E2 X' ); [apply (H _ _ _ _ N C1 C2 X')|exact Hin|left; auto].
  - intros (i & j & c1 & c2 & N & C1 & C2 & X & NO). apply A2. destruct (scene_body' _ _ _ Ef C1) as (b1 & B1 & E1). destruct (scene_body' _ _ _ Ef C2) as (b2 & B2 & E2).
    destruct (forallb (fun c : contact R => Rleb (c_pen c) tol) (w_contacts w)) eqn:F.
    + exfalso. apply NO. apply (scene_pair w i j b1 b2 c1 c2 Hs We N B1 B2 C1 C2 E1 E2 X). intros c Hin _. rewrite forallb_forall in F. apply Rleb_true. now apply F.
    + destruct (existsb (fun c : contact R => negb (Rleb (c_pen c) tol)) (w_contacts w)) eqn:G.
      * apply existsb_exists in G. destruct G as (c & Hin & G). exists c. split; [exact Hin|]. apply Bool.negb_true_iff, Rleb_false in G. exact G.
      * exfalso. assert (T : forallb (fun c : contact R => Rleb (c_pen c) tol) (w_contacts w) = true); [|congruence]. apply forallb_forall. intros c Hin.
        destruct (Rleb (c_pen c) tol) eqn:Q; [reflexivity|]. assert (existsb (fun c : contact R => negb (Rleb (c_pen c) tol)) (w_contacts w) = true); [|congruence]. apply existsb_exists. exists c. split; [exact Hin|now rewrite Q].
Qed.
End Scene.
