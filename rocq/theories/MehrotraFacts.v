(** Iterations of the solver are Mehrotra steps *)
From Coq Require Import List Arith ZArith Bool Reals Lia Lra Psatz.
From Verif Require Import Num Tensor RBase ResFacts LinAlg Lapack LapackSpec Pdipm Lcp KktSpec KktFactor PdipmSpec PdipmFacts PdipmLoop MehrotraSpec.
Import ListNotations.
Open Scope R_scope.

Definition of_dirs (d : dirs R) : move := let '(dx, ds, dz, dy) := d in mkMove dx ds dz dy.
Lemma iter_step_moved it d a : iter_step it d a = moved it a (of_dirs d).
Proof. destruct d as [[[dx ds] dz] dy]. reflexivity. Qed.

(** *** the step length *)
Lemma step1_reach cap (v dv : vecR) : 1 <= cap -> length dv = length v -> v <> [] -> pos v -> Forall (fun a => a <> 0) dv ->
  0 < step1 cap v dv /\ (forall t, 0 <= t <= step1 cap v dv -> t <= 1 \/ Exists (fun c => c < 0) dv -> Forall (fun c => 0 <= c) (vadd v (vscale t dv))) /\
  (1 <= step1 cap v dv \/ In 0 (vadd v (vscale (step1 cap v dv) dv))).
Proof.
  intros Hc L Nv Pv Nd. split; [now apply step1_pos|]. split.
  - intros t Ht _. apply Forall_forall. intros c Hc'. apply (In_nth _ _ 0) in Hc'. destruct Hc' as (k & Hk & <-). assert (Lk : (k < length v)%nat) by (rewrite vadd_length, vscale_length in Hk; lia).
    change (nth k (vadd v (vscale t dv)) 0) with (vget (vadd v (vscale t dv)) k). rewrite vget_vadd by (rewrite ?vscale_length; lia). rewrite vget_vscale.
    pose proof (step1_le cap v dv k L Lk) as S. pose proof (pos_get v k Pv Lk) as Pk. rnum. destruct (Rltb_spec 0 (vget dv k)) as [D|D]; [nra|].
    assert (Dn : vget dv k <> 0). { rewrite Forall_forall in Nd. apply Nd. apply nth_In. rewrite L. exact Lk. }
    assert (vget dv k < 0) by lra. assert (E : - vget v k / vget dv k * vget dv k = - vget v k) by (field; exact Dn). nra.
  - destruct (step1_in cap v dv L Nv) as (k & Hk & E). rnum. destruct (Rltb_spec 0 (vget dv k)) as [D|D]; [left; lra|right].
    assert (Dn : vget dv k <> 0). { rewrite Forall_forall in Nd. apply Nd. apply nth_In. rewrite L. exact Hk. }
    replace 0 with (vget (vadd v (vscale (step1 cap v dv) dv)) k); [apply nth_In; rewrite vadd_length, vscale_length; lia|].
    rewrite vget_vadd by (rewrite ?vscale_length; lia). rewrite vget_vscale, E. field. exact Dn.
Qed.

Section Step.
Variable la : lapack R.
Hypothesis HL : lapack_ok la.
Variables nz nineq neq : nat.
Hypothesis Hn : (0 < nineq)%nat.
Notation elt_ok := (elt_ok la nz nineq neq).
Notation factored := (factored la nz nineq neq).
Notation kkt_dir e rx rs rz ry d := (let '(dx, ds, dz, dy) := d in
  kkt_solution nz nineq neq (pr_Q (e_pr e)) (pr_G (e_pr e)) (pr_F (e_pr e)) (pr_A (e_pr e)) (d_of e) rx rs rz ry dx ds dz dy).

Lemma min_longest cz cs it (d : dirs R) : 1 <= cz -> 1 <= cs -> point nz nineq neq it -> interior it ->
  length (m_s (of_dirs d)) = nineq -> length (m_z (of_dirs d)) = nineq ->
  Forall (fun a => a <> 0) (m_s (of_dirs d)) -> Forall (fun a => a <> 0) (m_z (of_dirs d)) ->
  longest it (of_dirs d) (alpha1 (fun a => a) cz cs it d).
Proof.
  destruct d as [[[dx ds] dz] dy]. cbn [of_dirs m_s m_z]. intros Hz Hs [P1 P2 P3 P4] [I1 I2] L2 L3 N2 N3.
  assert (Ns : i_s it <> []) by (intros E; rewrite E in P2; cbn in P2; lia). assert (Nz : i_z it <> []) by (intros E; rewrite E in P3; cbn in P3; lia).
  destruct (step1_reach cz (i_z it) dz) as (A1 & A2 & A3); auto; [congruence|]. destruct (step1_reach cs (i_s it) ds) as (B1 & B2 & B3); auto; [congruence|].
  unfold alpha1. set (sz := step1 cz (i_z it) dz) in *. set (ss := step1 cs (i_s it) ds) in *. set (a := nmin (nmin sz ss) 1).
  pose proof (nmin_r (nmin sz ss) 1) as M1. pose proof (nmin_l (nmin sz ss) 1) as M2. pose proof (nmin_l sz ss) as M3. pose proof (nmin_r sz ss) as M4. fold a in M1, M2.
  assert (M0 : 0 < a) by (apply nmin_gt; [apply nmin_gt; auto|rnum; lra]). rnum.
  split; [lra|]. cbn [moved m_s m_z i_s i_z]. split; [apply B2; [lra|left; lra]|]. split; [apply A2; [lra|left; lra]|].
  assert (E : a = 1 \/ a = sz \/ a = ss). { unfold a, nmin. rnum. destruct (Rltb_spec ss sz) as [X|X]; [destruct (Rltb_spec 1 ss)|destruct (Rltb_spec 1 sz)]; auto. }
  destruct E as [E|[E|E]]; [now left| |].
  - destruct A3 as [A3|A3]; [left; lra|]. right; right. now rewrite E.
  - destruct B3 as [B3|B3]; [left; lra|]. right; left. now rewrite E.
Qed.
Lemma scaled_longest cz cs it (d : dirs R) : 1 <= cz -> 1 <= cs ->
  let b := alpha1 (fun a => a) cz cs it d in let al := alpha1 (fun a => 999 / 1000 * a) cz cs it d in
  999 / 1000 * b <= al <= 1 /\ (b < 1 -> al = 999 / 1000 * b).
Proof.
  destruct d as [[[dx ds] dz] dy]. unfold alpha1. intros _ _. cbv zeta. generalize (nmin (step1 cz (i_z it) dz) (step1 cs (i_s it) ds)). intros m.
  unfold nmin. rnum. destruct (Rltb_spec 1 m), (Rltb_spec 1 (999 / 1000 * m)); lra.
Qed.

(** *** the directions *)
Lemma newton_of_kkt e rs target (d : dirs R) : factored e -> length rs = nineq ->
  kkt_dir e (stationarity nz (e_pr e) (e_it e)) rs (inequality (e_pr e) (e_it e)) (equality (e_pr e) (e_it e)) d ->
  (forall i, (i < nineq)%nat -> vget (i_s (e_it e)) i * vget rs i = vget (i_s (e_it e)) i * vget (i_z (e_it e)) i - target i) ->
  newton_dir nz nineq neq (e_pr e) (e_it e) target (of_dirs d).
Proof.
  intros [[_ _ Hpt Hin] _] Lr K Ht. destruct d as [[[dx ds] dz] dy]. destruct K as [K1 K2 K3 K4 Kx Ks Kz Ky]. destruct Hpt as [P1 P2 P3 P4]. destruct Hin as [I1 I2].
  constructor; cbn [of_dirs m_x m_s m_z m_y]; auto. intros i Hi. pose proof (f_equal (fun v => vget v i) Ks) as E. cbv beta in E. unfold d_of in E.
  assert (Ld : length (vdiv (i_z (e_it e)) (i_s (e_it e))) = nineq) by (rewrite vdiv_length; lia).
  rewrite vget_vopp in E. rewrite vget_vadd in E by (rewrite ?vmul_length, ?Ld; lia). rewrite vget_vmul in E by (rewrite ?Ld; lia). rewrite vget_vdiv in E by lia.
  pose proof (pos_get _ i I1 ltac:(lia)) as Ps. specialize (Ht i Hi). rnum.
  assert (F : vget (i_s (e_it e)) i * (vget (i_z (e_it e)) i / vget (i_s (e_it e)) i) = vget (i_z (e_it e)) i) by (field; lra).
  set (q := vget (i_z (e_it e)) i / vget (i_s (e_it e)) i) in *. replace (vget dz i) with (- vget rs i - q * vget ds i) by lra.
  replace (vget (i_s (e_it e)) i * (- vget rs i - q * vget ds i) + vget (i_z (e_it e)) i * vget ds i) with (- (vget (i_s (e_it e)) i * vget rs i) - (vget (i_s (e_it e)) i * q) * vget ds i + vget (i_z (e_it e)) i * vget ds i) by ring.
  rewrite F, Ht. ring.
Qed.
Lemma predictor_ok e : factored e -> newton_dir nz nineq neq (e_pr e) (e_it e) (fun _ => 0) (of_dirs (aff_dir la nz neq e)).
Proof. intros H. pose proof H as [[_ _ Hpt _] _]. apply (newton_of_kkt e (i_z (e_it e))); auto; [apply Hpt|now apply aff_dir_ok|intros; ring]. Qed.
Lemma corrector_ok e a : factored e -> newton_dir nz nineq neq (e_pr e) (e_it e)
  (fun i => centring (e_it e) (of_dirs (aff_dir la nz neq e)) a * (dot (i_s (e_it e)) (i_z (e_it e)) / INR nineq) - vget (m_s (of_dirs (aff_dir la nz neq e))) i * vget (m_z (of_dirs (aff_dir la nz neq e))) i)
  (of_dirs (dirs_add (aff_dir la nz neq e) (cor_dir la nz nineq neq e (aff_dir la nz neq e) a))).
Proof.
  intros H. pose proof H as [[Hsz _ Hpt Hin] _]. pose proof (aff_dir_ok la HL nz nineq neq Hn e H) as HA. destruct (aff_dir la nz neq e) as [[[dx ds] dz] dy] eqn:EA. pose proof HA as [K1 K2 K3 K4 _ _ _ _].
  set (rs := vdiv (map (fun c => - mu_of nineq e * centring (e_it e) (mkMove dx ds dz dy) a + c) (vmul ds dz)) (i_s (e_it e))).
  assert (Lrs : length rs = nineq) by (unfold rs; rewrite vdiv_length, map_length, vmul_length, (pt_s _ _ _ _ Hpt); lia).
  assert (EC : cor_dir la nz nineq neq e (dx, ds, dz, dy) a = solve_kkt la nz neq (e_QLU e) (d_of e) (pr_G (e_pr e)) (pr_A (e_pr e)) (e_SLU e) (vzeros nz) rs (vzeros nineq) (vzeros neq)).
  { unfold cor_dir, rs. cbv zeta. f_equal. f_equal. apply map_ext. intros c. unfold centring. cbn [moved i_s i_z m_s m_z]. rnum. ring. }
  pose proof (solve_elt la HL nz nineq neq Hn e (vzeros nz) rs (vzeros nineq) (vzeros neq) H (vzeros_length _) Lrs (vzeros_length _) (vzeros_length _)) as HC.
  rewrite <- EC in HC. clear EC. destruct (cor_dir la nz nineq neq e (dx, ds, dz, dy) a) as [[[dx' ds'] dz'] dy'].
  pose proof (kkt_add nz nineq neq Hn _ _ _ _ (d_of e) _ _ _ _ _ _ _ _ _ _ _ _ _ _ _ _ (sz_mat _ _ _ _ Hsz) (d_of_length nz nineq neq Hn e Hpt)
    (stationarity_length nz nineq neq Hn _ (e_it e) Hsz) (pt_z _ _ _ _ Hpt) (inequality_length nz nineq neq Hn _ _ Hsz Hpt) (equality_length nz nineq neq Hn _ (e_it e) Hsz)
    (vzeros_length nz) Lrs (vzeros_length nineq) (vzeros_length neq) HA HC) as K.
  rewrite !vadd_zeros_r in K; [|eapply equality_length; eauto|eapply inequality_length; eauto|eapply stationarity_length; eauto].
  apply (newton_of_kkt e (vadd (i_z (e_it e)) rs)); auto; [rewrite vadd_length, (pt_z _ _ _ _ Hpt); lia|].
  intros i Hi. destruct Hpt as [P1 P2 P3 P4]. destruct Hin as [I1 I2]. pose proof (pos_get _ i I1 ltac:(lia)) as Ps. rewrite vget_vadd by lia. unfold rs. rewrite vget_vdiv by (rewrite ?map_length, ?vmul_length; lia).
  change (vget (map (fun c => - mu_of nineq e * centring (e_it e) (mkMove dx ds dz dy) a + c) (vmul ds dz)) i) with (nth i (map (fun c => - mu_of nineq e * centring (e_it e) (mkMove dx ds dz dy) a + c) (vmul ds dz)) 0).
  rewrite (nth_indep _ 0 ((fun c => - mu_of nineq e * centring (e_it e) (mkMove dx ds dz dy) a + c) 0)) by (rewrite map_length, vmul_length; lia). rewrite map_nth.
  change (nth i (vmul ds dz) 0) with (vget (vmul ds dz) i). rewrite vget_vmul by lia. cbn [of_dirs m_s m_z].
  assert (EM : mu_of nineq e = dot (i_s (e_it e)) (i_z (e_it e)) / INR nineq).
  { unfold mu_of. rnum. rewrite INR_IZR_INZ. apply Rabs_pos_eq. apply Rmult_le_pos; [now apply (dot_pos_nonneg)|]. left. apply Rinv_0_lt_compat. apply IZR_lt. lia. }
  rewrite EM. rnum. assert (INR nineq <> 0) by (apply not_0_INR; lia). field. split; [exact H0|lra].
Qed.
Lemma estep_mehrotra cz cs cz2 cs2 e : 1 <= cz -> 1 <= cs -> 1 <= cz2 -> 1 <= cs2 -> factored e ->
  let p := aff_dir la nz neq e in let d := total_dir la nz nineq neq cz cs e in
  Forall (fun a => a <> 0) (m_s (of_dirs p)) -> Forall (fun a => a <> 0) (m_z (of_dirs p)) -> Forall (fun a => a <> 0) (m_s (of_dirs d)) -> Forall (fun a => a <> 0) (m_z (of_dirs d)) ->
  exists a al, mehrotra_step nz nineq neq (e_pr e) (e_it e) (e_it (estep la nz nineq neq cz cs cz2 cs2 e)) (of_dirs p) (of_dirs d) a al.
Proof.
  intros C1 C2 C3 C4 H p d N1 N2 N3 N4. pose proof H as [[_ _ Hpt Hin] _].
  pose proof (predictor_ok e H) as KP. pose proof (corrector_ok e (alpha1 (fun a => a) cz cs (e_it e) p) H) as KC. fold p in KP, KC.
  change (dirs_add p (cor_dir la nz nineq neq e p (alpha1 (fun a => a) cz cs (e_it e) p))) with d in KC.
  exists (alpha1 (fun a => a) cz cs (e_it e) p), (alpha1 (fun a => 999 / 1000 * a) cz2 cs2 (e_it e) d). constructor; auto.
  - apply min_longest; auto; apply KP.
  - exists (alpha1 (fun a => a) cz2 cs2 (e_it e) d). split; [apply min_longest; auto; apply KC|]. now apply scaled_longest.
Qed.
End Step.

(** batch *)
Lemma moving_elt la nz nineq neq es e : moving la nz nineq neq es -> In e es ->
  exists cz cs cz2 cs2, 1 <= cz /\ 1 <= cs /\ 1 <= cz2 /\ 1 <= cs2 /\ batch_step la nz nineq neq es = map (estep la nz nineq neq cz cs cz2 cs2) es /\
  (Forall (fun a => a <> 0) (m_s (of_dirs (aff_dir la nz neq e))) /\ Forall (fun a => a <> 0) (m_z (of_dirs (aff_dir la nz neq e)))) /\
  (Forall (fun a => a <> 0) (m_s (of_dirs (total_dir la nz nineq neq cz cs e))) /\ Forall (fun a => a <> 0) (m_z (of_dirs (total_dir la nz nineq neq cz cs e)))).
Proof.
  intros HM Hin. unfold moving, batch_step, batch_dirs, batch_affs in *. set (affs := map (fun e => (e, aff_dir la nz neq e)) es) in *. destruct (alphas_eq (fun a => a) affs) as (cz & cs & H1 & H2 & E). rewrite E, map2_map_r in *.
  match goal with |- context [alphas (fun a => (ncst C_0_999 * a)%num) ?t] => set (tot := t) in * end. destruct (alphas_eq (fun a => (ncst C_0_999 * a)%num) tot) as (cz2 & cs2 & H3 & H4 & E2).
  exists cz, cs, cz2, cs2. split; [auto|]. split; [auto|]. split; [auto|]. split; [auto|]. split; [|split].
  - rewrite E2, map2_map_r. unfold tot, affs. rewrite !map_map. apply map_ext. intros e'. reflexivity.
  - assert (In (e, aff_dir la nz neq e) (affs ++ tot)) as Hi by (apply in_or_app; left; unfold affs; apply in_map_iff; eauto).
    destruct (aff_dir la nz neq e) as [[[dx ds] dz] dy]. exact (HM _ _ _ _ _ Hi).
  - assert (In (e, total_dir la nz nineq neq cz cs e) (affs ++ tot)) as Hi.
    { apply in_or_app; right. unfold tot, affs. rewrite map_map. apply in_map_iff. exists e. split; [reflexivity|exact Hin]. }
    destruct (total_dir la nz nineq neq cz cs e) as [[[dx ds] dz] dy]. exact (HM _ _ _ _ _ Hi).
Qed.
Lemma Forall2_nth_error {A B} (P : A -> B -> Prop) l m i b : Forall2 P l m -> nth_error m i = Some b -> exists a, nth_error l i = Some a /\ P a b.
Proof. intros H. revert i. induction H; intros [|i] E; cbn in *; try discriminate; [injection E as ->; eauto|eauto]. Qed.
Lemma Forall2_len {A B} (P : A -> B -> Prop) l m : Forall2 P l m -> length l = length m.
Proof. intros H. induction H; cbn; congruence. Qed.
Theorem iteration la nz nineq neq ps j i pr it it' : lapack_ok la -> (0 < nineq)%nat -> Forall (sized nz nineq neq) ps -> nth_error ps i = Some pr ->
  no_zero_direction la nz nineq neq ps (S j) -> iterate la nz nineq neq ps j i it -> iterate la nz nineq neq ps (S j) i it' ->
  exists p d a al, mehrotra_step nz nineq neq pr it it' p d a al.
Proof.
  intros HL Hn HS Hi HZ (es0 & es & e & E0 & Ev & Ei & <-) (es0' & es' & e' & E0' & Ev' & Ei' & <-). assert (es0' = es0) by congruence. subst es0'. clear E0'.
  rewrite (visited_snoc la nz nineq neq) in Ev'. rewrite Ev in Ev'. cbn [bind] in Ev'. bind_inv Ev' as es1 E1. injection Ev' as <-.
  pose proof (visited_good la HL nz nineq neq Hn ps j es0 es (start_good la HL nz nineq neq ps es0 HS E0) Ev) as G.
  assert (HO : Forall (elt_ok la nz nineq neq) es). { clear - G. induction G as [|q x qs xs [H _] _ IH]; constructor; auto. }
  pose proof (factor_batch_ok la HL nz nineq neq Hn es es1 HO E1) as F1.
  pose proof (HZ j es0 es es1 ltac:(lia) E0 Ev E1) as HM.
  assert (exists e1, nth_error es1 i = Some e1) as [e1 Ee1]. { destruct (nth_error es1 i) eqn:X; [eauto|]. apply nth_error_None in X. rewrite <- (Forall2_len _ _ _ F1) in X. assert (nth_error es i <> None) as Y by congruence. apply nth_error_Some in Y. lia. }
  destruct (Forall2_nth_error _ _ _ _ _ F1 Ee1) as (e0 & Ee0 & Fa & It & Pr). assert (e0 = e) by congruence. subst e0.
  destruct (Forall2_nth_error _ _ _ _ _ G Ei) as (pr0 & Ep & (_ & Ppr & _)). assert (Epr : pr0 = pr) by congruence. rewrite Epr in Ppr.
  destruct (moving_elt la nz nineq neq es1 e1 HM (nth_error_In _ _ Ee1)) as (cz & cs & cz2 & cs2 & C1 & C2 & C3 & C4 & EB & [N1 N2] & N3 & N4).
  rewrite EB, nth_error_map, Ee1 in Ei'. cbn in Ei'. injection Ei' as <-.
  destruct (estep_mehrotra la HL nz nineq neq Hn cz cs cz2 cs2 e1 C1 C2 C3 C4 Fa N1 N2 N3 N4) as (a & al & K). rewrite It, Pr, Ppr in K. eauto 6.
Qed.
(** what it does to s.z *)
Fixpoint sum_to (n : nat) (t : nat -> R) : R := match n with O => 0 | S n' => t 0%nat + sum_to n' (fun i => t (S i)) end.
Lemma dot_comp n (s z ds dz : vecR) (t : nat -> R) a : length s = n -> length z = n -> length ds = n -> length dz = n ->
  (forall i, (i < n)%nat -> vget s i * vget dz i + vget z i * vget ds i = t i - vget s i * vget z i) ->
  dot (vadd s (vscale a ds)) (vadd z (vscale a dz)) = (1 - a) * dot s z + a * sum_to n t + a * a * dot ds dz.
Proof.
  revert n z ds dz t. induction s as [|s0 s IH]; intros [|n] [|z0 z] [|d0 ds] [|e0 dz] t L1 L2 L3 L4 H; try discriminate.
  - unfold dot. cbn. rnum. ring.
  - specialize (IH n z ds dz (fun i => t (S i)) ltac:(auto) ltac:(auto) ltac:(auto) ltac:(auto) (fun i Hi => H (S i) ltac:(lia))).
    pose proof (H 0%nat ltac:(lia)) as H0. cbn in H0. unfold vadd, vscale in *. cbn [map vmap2 map2 sum_to]. rewrite !dot_cons. rewrite IH. rnum. nra.
Qed.
Lemma sum_to_comb n c (u v : vecR) : length u = n -> length v = n -> sum_to n (fun i => c - vget u i * vget v i) = INR n * c - dot u v.
Proof.
  revert u v. induction n as [|n IH]; intros [|a u] [|b v] L1 L2; try discriminate; [unfold dot; cbn; rnum; ring|].
  cbn [sum_to]. specialize (IH u v ltac:(auto) ltac:(auto)). rewrite dot_cons. rewrite S_INR. cbn [vget nth] in *. unfold vget in *. cbn [nth]. rewrite IH. rnum. ring.
Qed.
Theorem gap_after nz nineq neq pr it it' p d a al : point nz nineq neq it -> (0 < nineq)%nat -> mehrotra_step nz nineq neq pr it it' p d a al ->
  dot (i_s it') (i_z it') = (1 - al * (1 - centring it p a)) * dot (i_s it) (i_z it) - al * dot (m_s p) (m_z p) + al * al * dot (m_s d) (m_z d).
Proof.
  intros Hpt Hn [KP _ KC -> _]. cbn [moved i_s i_z]. destruct Hpt as [P1 P2 P3 P4].
  rewrite (dot_comp nineq _ _ _ _ (fun i => centring it p a * (dot (i_s it) (i_z it) / INR nineq) - vget (m_s p) i * vget (m_z p) i) al); auto; try apply KC.
  rewrite sum_to_comb; try apply KP. assert (INR nineq <> 0) by (apply not_0_INR; lia). field. exact H.
Qed.
