(** Every contact response is an exact solution of the engine's LCP *)
From Coq Require Import List Arith ZArith Bool Reals Lra Lia.
From Verif Require Import Num Tensor Utils Bodies Forces Constraints Contacts World Lapack Pdipm Lcp Engines Spec GeoSpec JointSpec EngineSpec WellSpec
     RBase ResFacts LinAlg LapackSpec KktSpec PdipmSpec WorldFacts HandlerFacts LayoutFacts HistFacts SysFacts RewindFacts JointFacts JeFacts
     CacheFacts BodyReach PdipmFacts PdipmLoop SolverFacts EngineFacts ContactSys EngineBalance ContactLaw EnergyFacts EngineProps QpFacts WellFacts.
Import ListNotations.
Open Scope R_scope.

Lemma vsub_app (x1 x2 y1 y2 : vecR) : length x1 = length y1 -> vsub (x1 ++ x2) (y1 ++ y2) = vsub x1 y1 ++ vsub x2 y2.
Proof. intros H. rewrite !vsub_vadd, vopp_app, vadd_app by (rewrite vopp_length; exact H). reflexivity. Qed.
Lemma blocks3 k m (x1 x2 x3 s1 s2 s3 y1 y2 y3 h1 h2 h3 : vecR) : length x1 = k -> length s1 = k -> length y1 = k -> length h1 = k -> length x2 = m -> length s2 = m -> length y2 = m -> length h2 = m ->
  vsub (vsub (vadd (x1 ++ x2 ++ x3) (s1 ++ s2 ++ s3)) (y1 ++ y2 ++ y3)) (h1 ++ h2 ++ h3) = vsub (vsub (vadd x1 s1) y1) h1 ++ vsub (vsub (vadd x2 s2) y2) h2 ++ vsub (vsub (vadd x3 s3) y3) h3.
Proof. intros. rewrite !vadd_app, !vsub_app by vlen. reflexivity. Qed.
Definition up (t : R) : R := Rmax t 0.
Definition down (t : R) : R := Rmax (- t) 0.
Lemma up_down t : 0 <= up t /\ 0 <= down t /\ up t - down t = t /\ up t + down t = Rabs t.
Proof.
  unfold up, down. destruct (Rle_lt_dec 0 t) as [H|H].
  - rewrite Rmax_left, Rmax_right, Rabs_pos_eq by lra. lra.
  - rewrite Rmax_right, Rmax_left, Rabs_left by lra. lra.
Qed.
Lemma dot_zero_terms (s z : vecR) : Forall (fun a => 0 <= a) s -> Forall (fun a => 0 <= a) z -> dot s z = 0 -> forall i, vget s i * vget z i = 0.
Proof.
  intros Hs Hz D i. pose proof (dot_term s z i Hs Hz) as T. pose proof (vget_nonneg s i Hs). pose proof (vget_nonneg z i Hz). nra.
Qed.

Section World.
Variables (bs : list (body R)) (js : list (joint R)) (J0 : list jent) (w : world R).
Hypothesis HS : sound bs js J0 w.
Notation n := (3 * length (w_bodies w))%nat.
Notation neq := (w_num_constraints w).
Notation nc := (length (w_contacts w)).

Lemma balance_vec dt f v lam b y : length lam = nc -> length b = (2 * nc)%nat -> length v = n -> length f = n ->
  balance w dt f v (combine lam (diffs b)) y (vzeros n) ->
  mv (w_M w) v = vadd (vadd (vadd (mv (w_M w) (w_v w)) (vscale dt f)) (vadd (vm n lam (Jc w)) (vm n b (jf_all w)))) (vm n y (Je w)).
Proof.
  intros Hl Hb Hv Hf (_ & Hy & B). pose proof (so_M _ _ _ _ HS) as HM. pose proof (so_vlen _ _ _ _ HS) as Lv.
  assert (LM : length (w_M w) = n) by apply (so_symm _ _ _ _ HS).
  apply (dot_unit n); [vlen|vlen|]. intros x Hx. specialize (B x Hx). rewrite dot_zeros_l in B. rewrite <- !kinetic_dot in B by auto. rewrite (dot_comm _ x), B.
  rewrite (dot_comm _ x), !dot_vadd_r by vlen. rewrite dot_vscale_r.
  rewrite !(dot_comm x (vm _ _ _)). rewrite (dot_vm nc n) by (auto; apply wf_Jc, (so_range _ _ _ _ HS)). rewrite (dot_vm (2 * nc) n) by (auto; apply wf_jf, (so_range _ _ _ _ HS)).
  rewrite (dot_vm neq n) by (auto; apply (so_Je _ _ _ _ HS)). rewrite (Je_cv _ _ _ _ HS) by auto. rewrite mv_Jc by (auto; apply (so_range _ _ _ _ HS)). rewrite mv_jf by (auto; apply (so_range _ _ _ _ HS)).
  rewrite contact_power_split by auto. ring.
Qed.

Section Response.
Variables (v : vecR).
Definition n_slack (c : contact R) : R := normal_velocity v c + mixed w b_rest c * normal_velocity (w_v w) c.
Definition f_slack (c : contact R) : vecR := [Rabs (slip_velocity v c) + slip_velocity v c; Rabs (slip_velocity v c) - slip_velocity v c].
Definition c_slack (c : contact R) (im : R * R) : R := mixed w b_fric c * fst im - Rabs (snd im).
Definition f_imps (im : R * R) : vecR := [up (snd im); down (snd im)].
Lemma flat2_length {A} (h : A -> vecR) (l : list A) : (forall a, length (h a) = 2%nat) -> length (flat_map h l) = (2 * length l)%nat.
Proof. intros H. induction l as [|a l IH]; [reflexivity|]. cbn [flat_map length]. rewrite app_length, IH, H. lia. Qed.
Lemma diffs_imps imps : diffs (flat_map f_imps imps) = map snd imps.
Proof. induction imps as [|im l IH]; [reflexivity|]. cbn [flat_map f_imps app diffs map]. rewrite IH. f_equal. apply up_down. Qed.
Lemma combine_split (imps : list (R * R)) : combine (map fst imps) (map snd imps) = imps.
Proof. induction imps as [|[a b] l IH]; [reflexivity|]. cbn. now rewrite IH. Qed.
Lemma pair_sums_imps imps : pair_sums (flat_map f_imps imps) = map (fun im => Rabs (snd im)) imps.
Proof. induction imps as [|im l IH]; [reflexivity|]. cbn [flat_map f_imps app pair_sums map]. rewrite IH. f_equal. rnum. apply up_down. Qed.
Lemma block_signs cs imps : Forall2 (fun c im => coulomb w v c (fst im) (snd im)) cs imps ->
  Forall (fun a => 0 <= a) (map n_slack cs) /\ Forall (fun a => 0 <= a) (flat_map f_slack cs) /\ Forall (fun a => 0 <= a) (map2 c_slack cs imps) /\
  Forall (fun a => 0 <= a) (map fst imps) /\ Forall (fun a => 0 <= a) (flat_map f_imps imps) /\ Forall (fun a => 0 <= a) (map (fun c => Rabs (slip_velocity v c)) cs) /\
  dot (map n_slack cs) (map fst imps) = 0 /\ dot (flat_map f_slack cs) (flat_map f_imps imps) = 0 /\ dot (map2 c_slack cs imps) (map (fun c => Rabs (slip_velocity v c)) cs) = 0.
Proof.
  induction 1 as [|c im cs imps Hc H IH]; [repeat split; try constructor; apply dot_nil_l|]. destruct IH as (I1 & I2 & I3 & I4 & I5 & I6 & I7 & I8 & I9).
  destruct Hc as [C1 C2 C3 C4 C5]. destruct (up_down (snd im)) as (U1 & U2 & U3 & U4). set (u := slip_velocity v c) in *.
  pose proof (Rle_abs u) as A1. pose proof (Rle_abs (- u)) as A2. rewrite Rabs_Ropp in A2. pose proof (Rabs_pos u) as A3.
  pose proof (Rle_abs (snd im)) as B1. pose proof (Rle_abs (- snd im)) as B2. rewrite Rabs_Ropp in B2. pose proof (Rabs_pos (snd im)) as B3.
  assert (T : - (Rabs (snd im) * Rabs u) <= snd im * u). { rewrite <- Rabs_mult. pose proof (Rle_abs (- (snd im * u))) as Q. rewrite Rabs_Ropp in Q. lra. }
  assert (K : (mixed w b_fric c * fst im - Rabs (snd im)) * Rabs u = 0) by nra.
  cbn [map flat_map map2 f_slack f_imps app]. rewrite !dot_cons. fold u.
  split; [constructor; [unfold n_slack; lra|exact I1]|]. split; [apply Forall_cons; [lra|]; apply Forall_cons; [lra|exact I2]|]. split; [constructor; [unfold c_slack; lra|exact I3]|].
  split; [constructor; auto|]. split; [apply Forall_cons; [lra|]; apply Forall_cons; [lra|exact I5]|]. split; [constructor; auto|].
  split; [rewrite I7; unfold n_slack; destruct C1 as [C1|C1]; [rewrite (C3 C1); ring|rewrite <- C1; ring]|]. split; [|rewrite I9; unfold c_slack; lra].
  rewrite I8. assert (E : (Rabs u + u) * up (snd im) + (Rabs u - u) * down (snd im) = Rabs u * (up (snd im) + down (snd im)) + u * (up (snd im) - down (snd im))) by ring.
  rewrite U3, U4 in E. nra.
Qed.
End Response.

Lemma response_solves dt v imps : w_fric_dirs w = 2%nat -> w_contacts w <> [] -> response w dt v imps ->
  exists it, solves_engine w dt it /\ vopp (i_x it) = v /\ impulses nc (i_z it) = imps.
Proof.
  intros H2 Hne (f & y & Ef & Lv & HB & HC & HL). destruct (apply_forces_layout _ _ _ Ef) as [Lf _].
  pose proof (BodyReach.Forall2_len _ _ _ HL) as Li. unfold vec, mat in *.
  set (l := map fst imps). set (b := flat_map f_imps imps). set (g := map (fun c => Rabs (slip_velocity v c)) (w_contacts w)).
  assert (Ll : length l = nc) by (unfold l; now rewrite map_length). assert (Lb : length b = (2 * nc)%nat) by (unfold b; rewrite flat2_length by reflexivity; now rewrite Li). assert (Lg : length g = nc) by apply map_length.
  set (s1 := map (n_slack v) (w_contacts w)). set (s2 := flat_map (f_slack v) (w_contacts w)). set (s3 := map2 c_slack (w_contacts w) imps).
  assert (L1 : length s1 = nc) by apply map_length. assert (L2 : length s2 = (2 * nc)%nat) by (unfold s2; now rewrite flat2_length by reflexivity). assert (L3 : length s3 = nc) by (unfold s3; rewrite map2_length; lia).
  set (it := {| i_x := vopp v; i_s := s1 ++ s2 ++ s3; i_z := l ++ b ++ g; i_y := y |}).
  assert (Ly : length y = neq) by apply HB.
  assert (Pt : point n (nc + 2 * nc + nc) neq it). { constructor; cbn [it i_x i_s i_z i_y]; rewrite ?app_length; rewrite ?vopp_length; auto; lia. }
  destruct (engine_problem_ok w dt f H2 Hne Ef) as [pr Ep]. destruct (engine_problem_inv _ _ _ _ _ _ HS Hne Ep) as (f' & Ef' & _ & _ & ->). rewrite Ef in Ef'. injection Ef' as <-.
  destruct (block_signs v (w_contacts w) imps HL) as (I1 & I2 & I3 & I4 & I5 & I6 & I7 & I8 & I9). fold s1 in I1, I7. fold s2 in I2, I8. fold s3 in I3, I9. fold l in I4, I7. fold b in I5, I8. fold g in I6, I9.
  assert (Ps : Forall (fun a => 0 <= a) (i_s it)) by (cbn [it i_s]; rewrite !Forall_app; auto). assert (Pz : Forall (fun a => 0 <= a) (i_z it)) by (cbn [it i_z]; rewrite !Forall_app; auto).
  exists it. split; [|split].
  - exists (step_prob w dt f). split; [exact Ep|]. rewrite four. constructor; auto.
    + unfold stationarity. cbn [step_prob pr_Q pr_p pr_G pr_A it i_x i_z i_y]. rewrite (vm_G _ _ _ _ HS) by auto. rewrite mv_vopp.
      assert (HB' : balance w dt f v (combine l (diffs b)) y (vzeros n)) by (unfold l, b; rewrite diffs_imps, combine_split; exact HB).
      rewrite (balance_vec dt f v l b y Ll Lb Lv Lf HB'). fold (step_rhs w dt f). pose proof (step_rhs_length _ _ _ _ HS dt f Lf) as LR. vec_eq. ring.
    + rewrite (inequality_at bs js J0 w HS dt f it Pt l b g eq_refl Ll Lb Lg). cbn [it i_x i_s]. rewrite vopp_vopp.
      assert (Lfm : length (flat_map (fun c => [- slip_velocity v c; slip_velocity v c]) (w_contacts w)) = (2 * nc)%nat) by (now rewrite flat2_length by reflexivity).
      assert (Lmu : length (mu_vec w) = nc) by apply map_length. pose proof (twice_length g) as Ltw. pose proof (pair_sums_length b nc Lb) as Lps.
      assert (M1 : length (map (fun c => - normal_velocity v c) (w_contacts w)) = nc) by apply map_length. assert (M2 : length (map (fun c => mixed w b_rest c * normal_velocity (w_v w) c) (w_contacts w)) = nc) by apply map_length.
      rewrite (blocks3 nc (2 * nc)) by (rewrite ?vsub_length, ?vmul_length, ?vzeros_length; unfold vec in *; lia).
      replace (vzeros (nc + 2 * nc + nc) : vecR) with (vzeros nc ++ vzeros (2 * nc) ++ vzeros nc : vecR) by (unfold vzeros; rewrite <- !repeat_app; f_equal; lia).
      apply f_equal2; [|apply f_equal2].
      * unfold s1, n_slack. clear. induction (w_contacts w) as [|c cs IH]; [reflexivity|]. cbn [map length vzeros repeat]. unfold vzeros, vsub, vadd in *. cbn [repeat vmap2]. rewrite IH. f_equal. rnum. ring.
      * unfold s2, g, f_slack, twice. clear. induction (w_contacts w) as [|c cs IH]; [reflexivity|]. cbn [map length flat_map app]. replace (2 * S (length cs))%nat with (S (S (2 * length cs))) by lia.
        unfold vzeros, vsub, vadd in *. cbn [repeat vmap2]. rewrite IH. f_equal; [rnum; ring|f_equal; rnum; ring].
      * unfold b. rewrite pair_sums_imps. unfold s3, l, mu_vec, c_slack. clear - HL. induction HL as [|c im cs imps Hc H IH]; [reflexivity|]. cbn [map length map2].
        unfold vzeros, vsub, vadd, vmul in *. cbn [repeat vmap2]. rewrite IH. f_equal. unfold mixed. rnum. field.
    + cbn [step_prob pr_A pr_b it i_x]. rewrite mv_vopp, (Je_cv _ _ _ _ HS), HC by exact Lv. apply vopp_zeros.
    + apply dot_zero_terms; auto. cbn [it i_s i_z]. rewrite !dot_app by (unfold vec in *; lia). lra.
  - cbn [it i_x]. apply vopp_vopp.
  - cbn [it i_z]. rewrite impulses_split by auto. unfold l, b. rewrite diffs_imps. apply combine_split.
Qed.
End World.
