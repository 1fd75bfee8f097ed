(** How far joints drift in a step (C61) *)
From Coq Require Import List Arith ZArith Bool Reals Lra Lia Psatz.
From Verif Require Import Num Tensor Utils Bodies Forces Constraints Contacts World Lapack Pdipm Lcp Engines Spec GeoSpec JointSpec EngineSpec DriftSpec
     RBase ResFacts LinAlg LapackSpec KktSpec PdipmSpec WorldFacts HandlerFacts LayoutFacts HistFacts SysFacts RewindFacts JointFacts JeFacts
     CacheFacts BodyReach GeomFacts PdipmFacts PdipmLoop SolverFacts EngineFacts ContactSys EngineBalance MomentumFacts PostFacts HeldFacts EngineProps EngineTotal.
Import ListNotations.
Open Scope R_scope.

(** *** the arc and its tangent *)
Lemma sin_abs_le x : 0 <= x -> - x <= sin x <= x.
Proof.
  intros H. destruct (Req_dec x 0) as [->|N]; [rewrite sin_0; lra|]. assert (P : 0 < x) by lra. split; [|left; now apply sin_lt_x].
  destruct (Rle_dec x PI) as [L|L]; [pose proof (sin_ge_0 x H L); lra|]. pose proof (SIN_bound x). pose proof PI_RGT_0. pose proof PI2_1. assert (2 < PI) by (pose proof PI2_1; unfold PI in *; lra). lra.
Qed.
Lemma cos_below x : 2 * (1 - cos x) <= x * x.
Proof.
  assert (E : 1 - cos x = 2 * (sin (x / 2) * sin (x / 2))). { replace x with (2 * (x / 2)) at 1 by field. rewrite cos_2a_sin. ring. }
  rewrite E. assert (S : sin (x / 2) * sin (x / 2) <= (x / 2) * (x / 2)); [|lra].
  destruct (Rle_dec 0 (x / 2)) as [P|P].
  - destruct (sin_abs_le _ P). nra.
  - assert (Q : 0 <= - (x / 2)) by lra. destruct (sin_abs_le _ Q) as [A B]. rewrite sin_neg in A, B. nra.
Qed.
Definition gap (x : R) : R := x * x * x * x / 4 - (2 - 2 * cos x + x * x - 2 * x * sin x).
Lemma gap_pos x : 0 <= x -> 0 <= gap x.
Proof.
  intros H. destruct (Req_dec x 0) as [->|N]; [unfold gap; rewrite cos_0, sin_0; lra|]. assert (P : 0 < x) by lra.
  assert (D : forall c, 0 <= c <= x -> derivable_pt_lim gap c (c * (c * c - 2 * (1 - cos c)))).
  { intros c _. unfold gap.
    replace (c * (c * c - 2 * (1 - cos c))) with ((((1 * c + c * 1) * c + (c * c) * 1) * c + (c * c * c) * 1) * / 4 - ((0 - (0 * cos c + 2 * - sin c)) + (1 * c + c * 1) - ((0 * c + 2 * 1) * sin c + (2 * c) * cos c))) by field.
    assert (I : derivable_pt_lim id c 1) by apply derivable_pt_lim_id. assert (K : forall a, derivable_pt_lim (fct_cte a) c 0) by (intros; apply derivable_pt_lim_const).
    pose proof (derivable_pt_lim_sin c) as Sn. pose proof (derivable_pt_lim_cos c) as Cs.
    pose proof (derivable_pt_lim_mult _ _ _ _ _ I I) as I2. pose proof (derivable_pt_lim_mult _ _ _ _ _ I2 I) as I3. pose proof (derivable_pt_lim_mult _ _ _ _ _ I3 I) as I4.
    pose proof (derivable_pt_lim_scal _ (/4) _ _ I4) as T1.
    pose proof (derivable_pt_lim_mult _ _ _ _ _ (K 2) Cs) as C2. pose proof (derivable_pt_lim_minus _ _ _ _ _ (K 2) C2) as T2. pose proof (derivable_pt_lim_plus _ _ _ _ _ T2 I2) as T3.
    pose proof (derivable_pt_lim_mult _ _ _ _ _ (K 2) I) as X2. pose proof (derivable_pt_lim_mult _ _ _ _ _ X2 Sn) as X3. pose proof (derivable_pt_lim_minus _ _ _ _ _ T3 X3) as T4.
    pose proof (derivable_pt_lim_minus _ _ _ _ _ T1 T4) as T5. unfold mult_fct, plus_fct, minus_fct, fct_cte, id, mult_real_fct in *.
    match type of T5 with derivable_pt_lim _ _ ?l => match goal with |- derivable_pt_lim _ _ ?m => replace m with l by ring end end.
    intros eps He. destruct (T5 eps He) as [dl Hd]. exists dl. intros h Hh Hl. specialize (Hd h Hh Hl). match type of Hd with Rabs ?u < _ => match goal with |- Rabs ?t < _ => replace t with u; [exact Hd|] end end. unfold Rdiv. ring. }
  destruct (MVT_cor2 gap (fun c => c * (c * c - 2 * (1 - cos c))) 0 x P D) as (c & E & Hc).
  assert (G0 : gap 0 = 0) by (unfold gap; rewrite cos_0; lra). rewrite G0 in E. pose proof (cos_below c). assert (0 <= c * (c * c - 2 * (1 - cos c))) by (apply Rmult_le_pos; lra). nra.
Qed.
Lemma gap_even x : gap (- x) = gap x.
Proof. unfold gap. rewrite cos_neg, sin_neg. field. Qed.
Lemma gap_nonneg x : 0 <= gap x.
Proof. destruct (Rle_dec 0 x); [now apply gap_pos|]. rewrite <- gap_even. apply gap_pos. lra. Qed.

Lemma len_sq q : len q * len q = fst q * fst q + snd q * snd q.
Proof. unfold len, dist. cbn [fst snd]. rewrite sqrt_sqrt; nra. Qed.
Lemma len_pos q : 0 <= len q.
Proof. apply sqrt_pos. Qed.
Lemma dist_len a b : dist a b = len (v2sub a b).
Proof. unfold len, dist, v2sub. cbn [fst snd]. rnum. f_equal. ring. Qed.
Lemma sq_le a b : 0 <= a -> 0 <= b -> a * a <= b * b -> a <= b.
Proof. intros. nra. Qed.
Lemma arc_error_len th q : len (arc_error th q) <= len q * (th * th / 2).
Proof.
  pose proof (cos2 th) as CS. unfold Rsqr in CS. assert (S2 : sin th * sin th + cos th * cos th = 1) by lra.
  apply sq_le; [apply len_pos|apply Rmult_le_pos; [apply len_pos|nra]|].
  rewrite len_sq. replace (len q * (th * th / 2) * (len q * (th * th / 2))) with ((len q * len q) * (th * th * th * th / 4)) by field. rewrite len_sq.
  unfold arc_error, rotate, along_tangent, v2sub. cbn [fst snd]. rnum. destruct q as [a b]. cbn [fst snd]. pose proof (gap_nonneg th) as G. unfold gap in G.
  assert (E : (cos th * a - sin th * b - (a - th * b)) * (cos th * a - sin th * b - (a - th * b)) + (sin th * a + cos th * b - (b + th * a)) * (sin th * a + cos th * b - (b + th * a))
           = (a * a + b * b) * (sin th * sin th + cos th * cos th + 1 - 2 * cos th + th * th - 2 * th * sin th)) by ring.
  rewrite E, S2. apply Rmult_le_compat_l; [nra|lra].
Qed.
Lemma len_rotate th q : len (rotate th q) = len q.
Proof.
  apply Rsqr_inj; [apply len_pos|apply len_pos|]. unfold Rsqr. rewrite !len_sq. unfold rotate. cbn [fst snd]. pose proof (sin2_cos2 th) as S2. unfold Rsqr in S2.
  replace ((cos th * fst q - sin th * snd q) * (cos th * fst q - sin th * snd q) + (sin th * fst q + cos th * snd q) * (sin th * fst q + cos th * snd q)) with ((fst q * fst q + snd q * snd q) * (sin th * sin th + cos th * cos th)) by ring. rewrite S2. ring.
Qed.
Lemma len_tangent th q : len (along_tangent th q) = sqrt (1 + th * th) * len q.
Proof.
  apply Rsqr_inj; [apply len_pos|apply Rmult_le_pos; [apply sqrt_pos|apply len_pos]|]. unfold Rsqr.
  replace (sqrt (1 + th * th) * len q * (sqrt (1 + th * th) * len q)) with ((sqrt (1 + th * th) * sqrt (1 + th * th)) * (len q * len q)) by ring. rewrite sqrt_sqrt by nra. rewrite !len_sq. unfold along_tangent. cbn [fst snd]. ring.
Qed.
Lemma len_triangle p q : len (v2add p q) <= len p + len q.
Proof.
  apply sq_le; [apply len_pos|pose proof (len_pos p); pose proof (len_pos q); lra|]. pose proof (len_pos p) as P. pose proof (len_pos q) as Q. pose proof (len_sq p) as A. pose proof (len_sq q) as B. rewrite len_sq.
  unfold v2add. cbn [fst snd]. rnum. destruct p as [a b], q as [c d]. cbn [fst snd] in *.
  assert (C : (a * c + b * d) * (a * c + b * d) <= (len (a, b) * len (c, d)) * (len (a, b) * len (c, d))). { replace (len (a, b) * len (c, d) * (len (a, b) * len (c, d))) with ((len (a, b) * len (a, b)) * (len (c, d) * len (c, d))) by ring. rewrite A, B. pose proof (Rle_0_sqr (a * d - b * c)) as Q2. unfold Rsqr in Q2. lra. }
  assert (D : a * c + b * d <= len (a, b) * len (c, d)). { assert (0 <= len (a, b) * len (c, d)) by now apply Rmult_le_pos. destruct (Rle_dec 0 (a * c + b * d)); [apply sq_le; auto|lra]. }
  nra.
Qed.

(** *** one step *)
Section Step.
Variables (la : lapack R) (mi fuel : nat) (o : oracle R) (hd : handler R) (bs : list (body R)) (js : list (joint R)) (J0 : list jent).
Hypothesis HL : lapack_ok la.
Hypothesis Hf : handler_frame hd.
Hypothesis Hr : handler_respects hd.
Hypothesis Ho : broadphase_sane o.
Notation eng := (pdipm_engine la mi).

Lemma entry_of_joint w j0 : sound bs js J0 w -> In j0 js -> exists j i1 i2 a1 b1 ob2, In (j, i1, i2) (w_joints w) /\ entry_of bs j0 (j0, i1, i2) /\
  nth_error bs i1 = Some a1 /\ nth_error (w_bodies w) i1 = Some b1 /\ match i2 with None => ob2 = None | Some i => exists b, ob2 = Some b /\ nth_error (w_bodies w) i = Some b end /\ jok j0 j a1 b1 ob2.
Proof.
  intros HS Hin. destruct (so_found _ _ _ _ HS) as (Hnd & _ & He & [_ Hj] & _). apply In_nth_error in Hin. destruct Hin as [k Hk].
  destruct (nth_error_Forall2_l _ _ _ _ _ He Hk) as ([[j1 m1] m2] & Hn0 & E). destruct E as (-> & E).
  destruct (nth_error_Forall2_l _ _ _ _ _ Hj Hn0) as ([[j' k1] k2] & Hn1 & (-> & -> & a1 & b1 & b2 & Ha & Hb & Hok)). apply joint_bodies_Ok in Hb. destruct Hb as [Hb1 Hb2].
  exists j', m1, m2, a1, b1, b2. split; [eapply nth_error_In; eauto|]. split; [split; [reflexivity|exact E]|]. auto.
Qed.
(** angle and position after the step *)
Definition swept (h : R) (u : v3 R) (b b' : body R) : Prop := b_rot b' = b_rot b + h * fst u /\ b_pos b' = v2add (b_pos b) (v2scale h (snd u)).
Lemma drift_step w dt w' : sound bs js J0 w -> valid la w -> Forall geom_ok (w_bodies w) -> w_post_stab w = false -> step_dt fuel o hd eng w dt = Ok w' ->
  exists h v, constraint_velocity w v = vzeros (w_num_constraints w) /\ forall i b b', nth_error (w_bodies w) i = Some b -> nth_error (w_bodies w') i = Some b' -> swept h (v3_at v i) b b'.
Proof.
  intros HS HV HG HP H. destruct (step_poses la mi fuel o hd bs js J0 Hf Hr Ho w dt w' HS HV HG H) as (v & c & k & w2 & dp & Es & S2 & V2 & Ev & Hdp & Et & _ & HQ).
  destruct (solve_balance bs js J0 w la mi HS HL HV dt v c Es) as (f & imps & y & _ & _ & _ & EC). exists (dt / 2 ^ k), v. split; [exact EC|].
  intros i b b' Hb Hb'. destruct (HQ i b Hb) as (b1 & Hb1 & Pb1). rewrite Hb' in Hb1. injection Hb1 as <-. destruct Hdp as [[_ ->]|[X _]]; [|congruence].
  assert (Z : v3_at (vzeros (3 * length (w_bodies w))) i = (0, (0, 0))) by (unfold v3_at; rewrite !vget_zeros; reflexivity). rewrite Z in Pb1.
  unfold swept, b_rot, b_pos. rewrite Pb1. unfold v3add, v3scale, v2add, v2scale. cbn [fst snd]. rnum. split; [ring|]. apply f_equal2; ring.
Qed.
Lemma still_entry w v e : sound bs js J0 w -> constraint_velocity w v = vzeros (w_num_constraints w) -> In e (w_joints w) -> Forall (fun a => a = 0) (entry_vel w v e).
Proof.
  intros HS E He. rewrite cv_entries in E. apply Forall_forall. intros a Ha. assert (In a (flat_map (entry_vel w v) (w_joints w))) as Q by (apply in_flat_map; eauto). rewrite E in Q. exact (repeat_spec _ _ _ Q).
Qed.
Lemma NoDup_index i j (b c : body R) : NoDup (map b_id bs) -> nth_error bs i = Some b -> nth_error bs j = Some c -> b_id b = b_id c -> i = j.
Proof. intros Hn Hi Hj E. apply (NoDup_nth_error (map b_id bs)); [exact Hn|rewrite map_length; apply nth_error_Some; congruence|]. rewrite !nth_error_map, Hi, Hj. cbn. congruence. Qed.

Lemma pin_step w dt w' c1 pos i b b' : sound bs js J0 w -> valid la w -> Forall geom_ok (w_bodies w) -> w_post_stab w = false -> step_dt fuel o hd eng w dt = Ok w' ->
  In (joint_init c1 None pos) js -> nth_error bs i = Some c1 -> nth_error (w_bodies w) i = Some b -> nth_error (w_bodies w') i = Some b' ->
  material c1 b' pos = v2add (material c1 b pos) (arc_error (b_rot b' - b_rot b) (v2sub (material c1 b pos) (b_pos b))).
Proof.
  intros HS HV HG HP H Hin Hc Hb Hb'. destruct (drift_step w dt w' HS HV HG HP H) as (h & v & EC & HW).
  destruct (entry_of_joint w _ HS Hin) as (j & i1 & i2 & a1 & b1 & ob2 & He & Ee & Ha & Hb1 & Hb2 & Hok).
  pose proof (still_entry w v _ HS EC He) as Z. destruct (joint_init_fields c1 None pos) as (K & I1 & I2 & P). destruct Ee as (_ & (d1 & Hd1 & Ed1) & E2).
  destruct (so_found _ _ _ _ HS) as (Hnd & _). assert (i1 = i) by (eapply NoDup_index; eauto; congruence). subst i1.
  rewrite I2 in E2. cbn in E2. destruct i2; [contradiction|]. subst ob2. destruct Hok as (K' & _ & _ & _ & Hok). rewrite K in *. destruct Hok as (O1 & O2 & O3 & _).
  rewrite Hb in Hb1. injection Hb1 as <-. rewrite Hc in Ha. injection Ha as <-.
  unfold entry_vel in Z. rewrite Hb, K' in Z. unfold measured, v2l, point_velocity in Z. apply Forall_cons_iff in Z. destruct Z as [Z1 Z]. apply Forall_cons_iff in Z. destruct Z as [Z2 _].
  rewrite O3, O2, O1, polar_rotate, P in Z1, Z2. destruct (HW i b b' Hb Hb') as [W1 W2]. unfold material, arc_error, along_tangent. rewrite W1, W2. set (q := v2sub pos (b_pos c1)) in *.
  assert (RR : rotate (b_rot b + h * fst (v3_at v i) - b_rot c1) q = rotate (h * fst (v3_at v i)) (rotate (b_rot b - b_rot c1) q)).
  { unfold rotate. cbn [fst snd]. replace (b_rot b + h * fst (v3_at v i) - b_rot c1) with ((h * fst (v3_at v i)) + (b_rot b - b_rot c1)) by ring. rewrite cos_plus, sin_plus. apply f_equal2; ring. }
  rewrite RR. set (g := rotate (b_rot b - b_rot c1) q) in *.
  assert (EQ : v2sub (v2add (b_pos b) g) (b_pos b) = g) by (destruct g; unfold v2sub, v2add; cbn; rnum; apply f_equal2; ring). rewrite EQ in Z1, Z2 |- *.
  replace (b_rot b + h * fst (v3_at v i) - b_rot b) with (h * fst (v3_at v i)) by ring. set (th := h * fst (v3_at v i)). set (rg := rotate th g).
  unfold v2add, v2sub, v2scale. cbn [fst snd]. rnum. set (om := fst (v3_at v i)) in *. set (vx := fst (snd (v3_at v i))) in *. set (vy := snd (snd (v3_at v i))) in *.
  cbn [fst snd] in Z1, Z2. assert (X1 : vx = om * snd g) by lra. assert (X2 : vy = - (om * fst g)) by lra. rewrite X1, X2. unfold th. apply f_equal2; ring.
Qed.

Lemma hinge_step w dt w' c1 c2 pos i1 i2 b1 b2 b1' b2' : sound bs js J0 w -> valid la w -> Forall geom_ok (w_bodies w) -> w_post_stab w = false -> step_dt fuel o hd eng w dt = Ok w' ->
  In (joint_init c1 (Some c2) pos) js -> nth_error bs i1 = Some c1 -> nth_error bs i2 = Some c2 ->
  nth_error (w_bodies w) i1 = Some b1 -> nth_error (w_bodies w') i1 = Some b1' -> nth_error (w_bodies w) i2 = Some b2 -> nth_error (w_bodies w') i2 = Some b2' ->
  v2sub (material c1 b1' pos) (b_pos b2') =
  v2add (along_tangent (b_rot b2' - b_rot b2) (v2sub (material c1 b1 pos) (b_pos b2))) (arc_error (b_rot b1' - b_rot b1) (v2sub (material c1 b1 pos) (b_pos b1))).
Proof.
  intros HS HV HG HP H Hin Hc1 Hc2 Hb1 Hb1' Hb2 Hb2'. destruct (drift_step w dt w' HS HV HG HP H) as (h & v & EC & HW).
  destruct (entry_of_joint w _ HS Hin) as (j & m1 & m2 & a1 & d1 & ob2 & He & Ee & Ha & Hd1 & Hd2 & Hok).
  pose proof (still_entry w v _ HS EC He) as Z. destruct (joint_init_fields c1 (Some c2) pos) as (K & I1 & I2 & P). destruct Ee as (_ & (x1 & Hx1 & Ex1) & E2).
  destruct (so_found _ _ _ _ HS) as (Hnd & _). assert (m1 = i1) by (eapply NoDup_index; eauto; congruence). subst m1.
  rewrite I2 in E2. cbn in E2. destruct m2 as [m2|]; [|contradiction]. destruct E2 as (x2 & Hx2 & Ex2). assert (m2 = i2) by (eapply NoDup_index; eauto; congruence). subst m2.
  destruct Hd2 as (d2 & -> & Hd2). rewrite Hb2 in Hd2. injection Hd2 as <-. destruct Hok as (K' & _ & _ & _ & Hok). rewrite K in *. destruct Hok as (O1 & O2 & O3 & _).
  rewrite Hb1 in Hd1. injection Hd1 as <-. rewrite Hc1 in Ha. injection Ha as <-.
  unfold entry_vel in Z. rewrite Hb1, Hb2, K' in Z. unfold measured, v2l, point_velocity, v2sub in Z. cbn [fst snd] in Z. apply Forall_cons_iff in Z. destruct Z as [Z1 Z]. apply Forall_cons_iff in Z. destruct Z as [Z2 _].
  rewrite O3, O2, O1, polar_rotate, P in Z1, Z2. destruct (HW i1 b1 b1' Hb1 Hb1') as [W1 W2]. destruct (HW i2 b2 b2' Hb2 Hb2') as [W3 W4]. unfold material, arc_error, along_tangent. rewrite W1, W2, W3, W4. fold (v2sub pos (b_pos c1)) in Z1, Z2. set (q := v2sub pos (b_pos c1)) in *.
  assert (RR : rotate (b_rot b1 + h * fst (v3_at v i1) - b_rot c1) q = rotate (h * fst (v3_at v i1)) (rotate (b_rot b1 - b_rot c1) q)).
  { unfold rotate. cbn [fst snd]. replace (b_rot b1 + h * fst (v3_at v i1) - b_rot c1) with ((h * fst (v3_at v i1)) + (b_rot b1 - b_rot c1)) by ring. rewrite cos_plus, sin_plus. apply f_equal2; ring. }
  rewrite RR. replace (b_rot b1 - b_rot c1) with (b_rot b1 - b_rot c1) in Z1, Z2 by reflexivity. set (g := rotate (b_rot b1 - b_rot c1) q) in *.
  replace (b_rot b1 + h * fst (v3_at v i1) - b_rot b1) with (h * fst (v3_at v i1)) by ring. replace (b_rot b2 + h * fst (v3_at v i2) - b_rot b2) with (h * fst (v3_at v i2)) by ring.
  set (rg := rotate (h * fst (v3_at v i1)) (v2sub (v2add (b_pos b1) g) (b_pos b1))).
  assert (EQ : v2sub (v2add (b_pos b1) g) (b_pos b1) = g) by (destruct g; unfold v2sub, v2add; cbn; rnum; apply f_equal2; ring). unfold rg. rewrite EQ. clear rg. set (rg := rotate (h * fst (v3_at v i1)) g).
  unfold v2add, v2sub, v2scale in *. cbn [fst snd] in *. rnum.
  destruct (v3_at v i1) as [o1 [x1' y1]], (v3_at v i2) as [o2 [x2' y2]], (b_pos b1) as [p1 q1], (b_pos b2) as [p2 q2]. cbn [fst snd] in *.
  apply f_equal2; nra.
Qed.
End Step.

(** *** histories *)
Section Histories.
Variables (la : lapack R) (mi fuel : nat) (o : oracle R) (hd : handler R) (bs : list (body R)) (js : list (joint R)) (J0 : list jent).
Hypothesis HL : lapack_ok la.
Hypothesis Hf : handler_frame hd.
Hypothesis Hr : handler_respects hd.
Hypothesis Ho : broadphase_sane o.
Notation eng := (pdipm_engine la mi).

Lemma fixed_entry w c1 c2 i1 i2 b1 b2 : sound bs js J0 w -> In (fixed_init c1 c2) js -> nth_error bs i1 = Some c1 -> nth_error bs i2 = Some c2 ->
  nth_error (w_bodies w) i1 = Some b1 -> nth_error (w_bodies w) i2 = Some b2 -> exists j, In (j, i1, Some i2) (w_joints w) /\ j_kind j = JFixed /\ j_pos j = b_pos b1.
Proof.
  intros HS Hin Hc1 Hc2 Hb1 Hb2. destruct (entry_of_joint bs js J0 w _ HS Hin) as (j & m1 & m2 & a1 & d1 & ob2 & He & Ee & Ha & Hd1 & Hd2 & Hok).
  destruct Ee as (_ & (x1 & Hx1 & Ex1) & E2). cbn in Ex1, E2. destruct (so_found _ _ _ _ HS) as (Hnd & _). assert (m1 = i1) by (eapply (NoDup_index bs); eauto; congruence). subst m1.
  destruct m2 as [m2|]; [|contradiction]. destruct E2 as (x2 & Hx2 & Ex2). assert (m2 = i2) by (eapply (NoDup_index bs); eauto; congruence). subst m2.
  rewrite Hb1 in Hd1. injection Hd1 as <-. destruct Hok as (K & _ & _ & _ & O1 & _). eauto.
Qed.
Lemma fixed_rows w v j i1 i2 b1 b2 : j_kind j = JFixed -> j_pos j = b_pos b1 -> nth_error (w_bodies w) i1 = Some b1 -> nth_error (w_bodies w) i2 = Some b2 ->
  exists x y, entry_vel w v (j, i1, Some i2) = [x; y; fst (v3_at v i1) - fst (v3_at v i2)] /\
    x = fst (snd (v3_at v i1)) - fst (snd (v3_at v i2)) + fst (v3_at v i2) * (snd (b_pos b1) - snd (b_pos b2)) /\
    y = snd (snd (v3_at v i1)) - snd (snd (v3_at v i2)) - fst (v3_at v i2) * (fst (b_pos b1) - fst (b_pos b2)).
Proof.
  intros K P H1 H2. unfold entry_vel. rewrite H1, H2, K, P. cbn [measured v2l app]. do 2 eexists. split; [reflexivity|]. unfold v2sub, point_velocity. cbn [fst snd]. rnum. split; ring.
Qed.
Lemma fixed_step w dt w' c1 c2 i1 i2 b1 b2 b1' b2' : sound bs js J0 w -> valid la w -> Forall geom_ok (w_bodies w) -> w_post_stab w = false -> step_dt fuel o hd eng w dt = Ok w' ->
  In (fixed_init c1 c2) js -> nth_error bs i1 = Some c1 -> nth_error bs i2 = Some c2 ->
  nth_error (w_bodies w) i1 = Some b1 -> nth_error (w_bodies w') i1 = Some b1' -> nth_error (w_bodies w) i2 = Some b2 -> nth_error (w_bodies w') i2 = Some b2' ->
  b_rot b1' - b_rot b1 = b_rot b2' - b_rot b2 /\ v2sub (b_pos b1') (b_pos b2') = along_tangent (b_rot b2' - b_rot b2) (v2sub (b_pos b1) (b_pos b2)).
Proof.
  intros HS HV HG HP H Hin Hc1 Hc2 Hb1 Hb1' Hb2 Hb2'. destruct (drift_step la mi fuel o hd bs js J0 HL Hf Hr Ho w dt w' HS HV HG HP H) as (h & v & EC & HW).
  destruct (fixed_entry w c1 c2 i1 i2 b1 b2 HS Hin Hc1 Hc2 Hb1 Hb2) as (j & He & K & P). pose proof (still_entry bs js J0 w v _ HS EC He) as Z.
  destruct (fixed_rows w v j i1 i2 b1 b2 K P Hb1 Hb2) as (x & y & EV & X & Y). rewrite EV in Z. apply Forall_cons_iff in Z. destruct Z as [Z1 Z]. apply Forall_cons_iff in Z. destruct Z as [Z2 Z]. apply Forall_cons_iff in Z. destruct Z as [Z3 _].
  destruct (HW i1 b1 b1' Hb1 Hb1') as [W1 W2]. destruct (HW i2 b2 b2' Hb2 Hb2') as [W3 W4]. rewrite W1, W2, W3, W4. rewrite Z1 in X. rewrite Z2 in Y. clear EV Z1 Z2 HW W1 W2 W3 W4.
  destruct (v3_at v i1) as [o1 [x1' y1]], (v3_at v i2) as [o2 [x2' y2]], (b_pos b1) as [p1 q1], (b_pos b2) as [p2 q2]. unfold along_tangent, v2add, v2sub, v2scale. cbn [fst snd] in *. rnum.
  assert (o1 = o2) by lra. subst o1. split; [ring|]. apply f_equal2; nra.
Qed.
(** the angle between fixed bodies, with or without post-stabilisation *)
Lemma fixed_angle_step w dt w' c1 c2 i1 i2 b1 b2 b1' b2' : sound bs js J0 w -> valid la w -> Forall geom_ok (w_bodies w) -> step_dt fuel o hd eng w dt = Ok w' ->
  In (fixed_init c1 c2) js -> nth_error bs i1 = Some c1 -> nth_error bs i2 = Some c2 ->
  nth_error (w_bodies w) i1 = Some b1 -> nth_error (w_bodies w') i1 = Some b1' -> nth_error (w_bodies w) i2 = Some b2 -> nth_error (w_bodies w') i2 = Some b2' ->
  b_rot b1' - b_rot b2' = b_rot b1 - b_rot b2.
Proof.
  intros HS HV HG H Hin Hc1 Hc2 Hb1 Hb1' Hb2 Hb2'. destruct (step_poses la mi fuel o hd bs js J0 Hf Hr Ho w dt w' HS HV HG H) as (v & c & k & w2 & dp & Es & S2 & V2 & Ev & Hdp & Et & _ & HQ).
  destruct (solve_balance bs js J0 w la mi HS HL HV dt v c Es) as (f & imps & y & _ & _ & _ & EC).
  assert (Qv : fst (v3_at v i1) = fst (v3_at v i2)).
  { destruct (fixed_entry w c1 c2 i1 i2 b1 b2 HS Hin Hc1 Hc2 Hb1 Hb2) as (j & He & K & P). pose proof (still_entry bs js J0 w v _ HS EC He) as Z.
    destruct (fixed_rows w v j i1 i2 b1 b2 K P Hb1 Hb2) as (x & y' & EV & _). rewrite EV in Z. apply Forall_cons_iff in Z. destruct Z as [_ Z]. apply Forall_cons_iff in Z. destruct Z as [_ Z]. apply Forall_cons_iff in Z. destruct Z as [Z3 _]. lra. }
  assert (Qd : fst (v3_at dp i1) = fst (v3_at dp i2)).
  { destruct Hdp as [[_ ->]|[_ Hdp]]; [unfold v3_at; rewrite !vget_zeros; reflexivity|]. destruct (post_balance bs js J0 w2 la S2 HL V2 dp Hdp) as (_ & E & _). rewrite Ev in E.
    assert (I1 : exists e1, nth_error (w_bodies w2) i1 = Some e1) by (destruct (nth_error (w_bodies w2) i1) eqn:X; [eauto|apply nth_error_None in X; rewrite (so_len _ _ _ _ S2) in X; assert (i1 < length bs)%nat by (apply nth_error_Some; congruence); lia]).
    assert (I2 : exists e2, nth_error (w_bodies w2) i2 = Some e2) by (destruct (nth_error (w_bodies w2) i2) eqn:X; [eauto|apply nth_error_None in X; rewrite (so_len _ _ _ _ S2) in X; assert (i2 < length bs)%nat by (apply nth_error_Some; congruence); lia]).
    destruct I1 as [e1 He1], I2 as [e2 He2]. destruct (fixed_entry w2 c1 c2 i1 i2 e1 e2 S2 Hin Hc1 Hc2 He1 He2) as (j & He & K & P).
    rewrite !cv_entries, vopp_flat_map in E. pose proof (flat_map_eq _ _ _ (fun a _ => eq_trans (entry_vel_length w2 dp v a) (eq_sym (vopp_length _))) E _ He) as Q. cbv beta in Q.
    destruct (fixed_rows w2 v j i1 i2 e1 e2 K P He1 He2) as (x & y' & EV & _). destruct (fixed_rows w2 dp j i1 i2 e1 e2 K P He1 He2) as (x2 & y2 & ED & _). rewrite EV, ED in Q. unfold vopp in Q. cbn [map] in Q. injection Q as Q1 Q2 Q3. change (fst (v3_at dp i1) - fst (v3_at dp i2) = - (fst (v3_at v i1) - fst (v3_at v i2))) in Q3. lra. }
  destruct (HQ i1 b1 Hb1) as (d1 & Hd1 & P1). destruct (HQ i2 b2 Hb2) as (d2 & Hd2 & P2). rewrite Hb1' in Hd1. injection Hd1 as <-. rewrite Hb2' in Hd2. injection Hd2 as <-.
  unfold b_rot. rewrite P1, P2. unfold v3add, v3scale. cbn [fst snd]. rewrite Qv, Qd. rnum. ring.
Qed.

Definition fine (w : world R) : Prop := sound bs js J0 w /\ valid la w /\ Forall geom_ok (w_bodies w).
Lemma fine_step w dt w' : fine w -> step_dt fuel o hd eng w dt = Ok w' -> fine w'.
Proof.
  intros (S1 & V1 & G1) Hs. split; [exact (sound_step_dt bs js J0 o hd Hf Hr Ho fuel eng w dt w' S1 Hs)|]. split; [exact (valid_step _ _ _ _ _ _ _ _ Hf V1 Hs)|].
  assert (Q : Forall2 geom_rel (w_bodies w) (w_bodies w')) by (eapply step_dt_bodies; eauto; [apply geom_steps|apply Forall2_refl', geom_steps]).
  clear - Q G1. revert G1. induction Q as [|x y l l' Hxy Q IH]; intros G; constructor; apply Forall_cons_iff in G; [now apply Hxy|apply IH, G].
Qed.
Lemma fine_set w v w' : fine w -> set_v w v = Ok w' -> fine w'.
Proof.
  intros (S1 & V1 & G1) Hs. split; [exact (sound_set_v _ _ _ _ _ _ S1 Hs)|]. pose proof Hs as Hs'. apply set_v_inv in Hs'. destruct Hs' as [_ ->]. split.
  - apply (valid_kinds la w); auto. exact (kinds_set_v _ _ _ Hs).
  - cbn. now apply with_vs_geom.
Qed.
(** a relation between the poses of two bodies kept by every step is kept by every history *)
Lemma pair_history (P : world R -> Prop) (Q : v3 R -> v3 R -> v3 R -> v3 R -> Prop) i1 i2 :
  (forall w dt w', P w -> step_dt fuel o hd eng w dt = Ok w' -> P w') -> (forall w v w', P w -> set_v w v = Ok w' -> P w') ->
  (forall a b, Q a b a b) -> (forall a b c d e f, Q a b c d -> Q c d e f -> Q a b e f) -> 
  (forall w dt w' b1 b2 b1' b2', fine w -> P w -> step_dt fuel o hd eng w dt = Ok w' -> nth_error (w_bodies w) i1 = Some b1 -> nth_error (w_bodies w') i1 = Some b1' -> nth_error (w_bodies w) i2 = Some b2 -> nth_error (w_bodies w') i2 = Some b2' ->
     Q (b_p b1) (b_p b2) (b_p b1') (b_p b2')) ->
  forall ops w w', fine w -> P w -> exec fuel o hd eng ops w = Ok w' -> forall b1 b2 b1' b2',
  nth_error (w_bodies w) i1 = Some b1 -> nth_error (w_bodies w') i1 = Some b1' -> nth_error (w_bodies w) i2 = Some b2 -> nth_error (w_bodies w') i2 = Some b2' -> Q (b_p b1) (b_p b2) (b_p b1') (b_p b2').
Proof.
  intros Ps Pv Qr Qt Qs ops w w' Hw Hp H b1 b2 b1' b2' Hb1 Hb1' Hb2 Hb2'.
  set (I := fun a : world R => fine a /\ P a /\ forall d1 d2, nth_error (w_bodies a) i1 = Some d1 -> nth_error (w_bodies a) i2 = Some d2 -> Q (b_p b1) (b_p b2) (b_p d1) (b_p d2)).
  assert (F : I w'); [|destruct F as (_ & _ & F); now apply F]. apply (exec_invariant fuel o hd eng I) with ops w; auto.
  - intros a dt a' (Fa & Pa & Ea) Hs. split; [eapply fine_step; eauto|]. split; [eapply Ps; eauto|]. intros d1 d2 Hd1 Hd2. pose proof (fine_step a dt a' Fa Hs) as Fa'.
    assert (LA : length (w_bodies a) = length (w_bodies a')) by (rewrite (so_len _ _ _ _ (proj1 Fa)), (so_len _ _ _ _ (proj1 Fa')); reflexivity).
    destruct (nth_error (w_bodies a) i1) as [e1|] eqn:He1; [|apply nth_error_None in He1; assert (i1 < length (w_bodies a'))%nat by (apply nth_error_Some; congruence); lia].
    destruct (nth_error (w_bodies a) i2) as [e2|] eqn:He2; [|apply nth_error_None in He2; assert (i2 < length (w_bodies a'))%nat by (apply nth_error_Some; congruence); lia].
    eapply Qt; [now apply Ea|]. eapply (Qs a dt a'); eauto.
  - intros a v a' (Fa & Pa & Ea) Hs. split; [eapply fine_set; eauto|]. split; [eapply Pv; eauto|]. apply set_v_inv in Hs. destruct Hs as [_ ->]. cbn. intros d1 d2 Hd1 Hd2.
    rewrite mapi_nth in Hd1, Hd2. destruct (nth_error (w_bodies a) i1) as [e1|] eqn:He1; [|discriminate]. destruct (nth_error (w_bodies a) i2) as [e2|] eqn:He2; [|discriminate]. injection Hd1 as <-. injection Hd2 as <-. now apply (Ea e1 e2).
  - split; [exact Hw|]. split; [exact Hp|]. intros d1 d2 Hd1 Hd2. rewrite Hb1 in Hd1. rewrite Hb2 in Hd2. injection Hd1 as <-. injection Hd2 as <-. apply Qr.
Qed.
Lemma fixed_angle_history ops w w' c1 c2 i1 i2 b1 b2 b1' b2' : fine w -> exec fuel o hd eng ops w = Ok w' ->
  In (fixed_init c1 c2) js -> nth_error bs i1 = Some c1 -> nth_error bs i2 = Some c2 ->
  nth_error (w_bodies w) i1 = Some b1 -> nth_error (w_bodies w') i1 = Some b1' -> nth_error (w_bodies w) i2 = Some b2 -> nth_error (w_bodies w') i2 = Some b2' ->
  b_rot b1' - b_rot b2' = b_rot b1 - b_rot b2.
Proof.
  intros Hw H Hin Hc1 Hc2 Hb1 Hb1' Hb2 Hb2'. apply (pair_history (fun _ => True) (fun a b c d => fst c - fst d = fst a - fst b) i1 i2) with (ops := ops) (w := w) (w' := w'); auto.
  - intros a b c d e f E1 E2. lra.
  - intros a dt a' d1 d2 d1' d2' (S1 & V1 & G1) _ Hs A B C D. exact (fixed_angle_step a dt a' c1 c2 i1 i2 d1 d2 d1' d2' S1 V1 G1 Hs Hin Hc1 Hc2 A B C D).
Qed.
Lemma fixed_distance_history ops w w' c1 c2 i1 i2 b1 b2 b1' b2' : fine w -> w_post_stab w = false -> exec fuel o hd eng ops w = Ok w' ->
  In (fixed_init c1 c2) js -> nth_error bs i1 = Some c1 -> nth_error bs i2 = Some c2 ->
  nth_error (w_bodies w) i1 = Some b1 -> nth_error (w_bodies w') i1 = Some b1' -> nth_error (w_bodies w) i2 = Some b2 -> nth_error (w_bodies w') i2 = Some b2' ->
  dist (b_pos b1) (b_pos b2) <= dist (b_pos b1') (b_pos b2').
Proof.
  intros Hw Hp H Hin Hc1 Hc2 Hb1 Hb1' Hb2 Hb2'. apply (pair_history (fun a => w_post_stab a = false) (fun a b c d => dist (snd a) (snd b) <= dist (snd c) (snd d)) i1 i2) with (ops := ops) (w := w) (w' := w'); auto.
  - intros a dt a' E Hs. pose proof (step_dt_cfg _ _ _ _ _ _ _ Hs) as C. apply cfg_fields in C. destruct C as (_ & _ & _ & _ & _ & C & _). congruence.
  - intros a v a' E Hs. apply set_v_cfg, cfg_fields in Hs. destruct Hs as (_ & _ & _ & _ & _ & C & _). congruence.
  - intros a b. lra.
  - intros a b c d e f E1 E2. lra.
  - intros a dt a' d1 d2 d1' d2' (S1 & V1 & G1) P1 Hs A B C D. destruct (fixed_step a dt a' c1 c2 i1 i2 d1 d2 d1' d2' S1 V1 G1 P1 Hs Hin Hc1 Hc2 A B C D) as [_ E].
    fold (b_pos d1) (b_pos d2) (b_pos d1') (b_pos d2'). rewrite !dist_len, E, len_tangent. rewrite <- (Rmult_1_l (len (v2sub (b_pos d1) (b_pos d2)))) at 1. apply Rmult_le_compat_r; [apply len_pos|].
    rewrite <- sqrt_1 at 1. apply sqrt_le_1_alt. pose proof (Rle_0_sqr (b_rot d2' - b_rot d2)) as Q. unfold Rsqr in Q. lra.
Qed.
End Histories.

(** *** nothing pushes: bodies that already move as the constraints ask keep their velocities *)
Section Steady.
Variables (la : lapack R) (mi : nat) (bs : list (body R)) (js : list (joint R)) (J0 : list jent) (w : world R).
Hypothesis HL : lapack_ok la.
Hypothesis HS : sound bs js J0 w.
Hypothesis HV : valid la w.
Hypothesis Hm : Forall (fun b : body R => 0 < b_mass b /\ 0 < b_inertia b) bs.
Lemma steady dt v c : w_contacts w = [] -> world_apply_forces w (w_t w) = Ok (vzeros (3 * length (w_bodies w))) -> constraint_velocity w (w_v w) = vzeros (w_num_constraints w) ->
  solve_dynamics la mi w dt = Ok (v, c) -> v = w_v w.
Proof.
  intros Hc Hf Hcv H. destruct (free_solve _ _ _ _ HS la mi HL HV dt v c _ Hc Hf H) as (Lv & lam & Ll & E1 & E2). pose proof (so_vlen _ _ _ _ HS) as Lw.
  pose proof (wf_length _ _ _ (proj1 (so_symm _ _ _ _ HS))) as LM. pose proof (wf_length _ _ _ (so_Je _ _ _ _ HS)) as LJ.
  rewrite <- (Je_cv _ _ _ _ HS) in Hcv by exact Lw. set (d := vsub v (w_v w)). assert (Ld : length d = (3 * length (w_bodies w))%nat) by (unfold d; rewrite vsub_length; unfold vec in *; lia).
  assert (Ed : mv (w_M w) d = vm (3 * length (w_bodies w)) lam (Je w)).
  { unfold d. rewrite mv_vsub by congruence. rewrite E1. rewrite vscale_zeros. 
    assert (L1 : length (mv (w_M w) (w_v w)) = (3 * length (w_bodies w))%nat) by (rewrite mv_length; exact LM). assert (L2 : length (vm (3 * length (w_bodies w)) lam (Je w)) = (3 * length (w_bodies w))%nat) by apply vm_length.
    vec_eq. ring. }
  assert (Jd : mv (Je w) d = vzeros (w_num_constraints w)). { unfold d. rewrite mv_vsub by congruence. rewrite E2, Hcv. vec_eq. ring. }
  assert (Q : dot d (mv (w_M w) d) = 0). { rewrite Ed, dot_comm, (dot_vm (w_num_constraints w) _) by (auto; apply (so_Je _ _ _ _ HS)). now rewrite Jd, dot_zeros_r. }
  assert (Zd : d = vzeros (3 * length (w_bodies w))). { destruct (list_eq_dec Req_EM_T d (vzeros (3 * length (w_bodies w)))) as [|Nd]; [auto|]. pose proof (M_pos bs js J0 w HS Hm d Ld Nd). lra. }
  apply vext; [congruence|]. intros i Hi. pose proof (f_equal (fun l => vget l i) Zd) as G. cbv beta in G. rewrite vget_zeros in G. unfold d in G. rewrite vget_vsub in G by (unfold vec in *; lia). lra.
Qed.
End Steady.
