(** pre_factor_kkt, factor_kkt and solve_kkt are correct *)
From Coq Require Import List Arith ZArith Bool Reals Lra Lia.
From Verif Require Import Num Tensor Lapack Pdipm RBase LinAlg SysFacts LapackSpec ResFacts PivFacts LuFacts KktSpec KktFacts.
Import ListNotations.
Open Scope R_scope.

Lemma eq_by_dot n (x y : vecR) : length x = n -> length y = n -> (forall z, length z = n -> dot z x = dot z y) -> x = y.
Proof.
  intros Hx Hy H. apply vsub_diag; [lia|]. rewrite (dot_self_zero (vsub x y)); [f_equal; vlen|].
  rewrite dot_vsub_r by lia. rewrite H by vlen. ring.
Qed.
Lemma piv_pred n (p2 : list nat) : map (fun p => p - n)%nat (map (fun p => p + n)%nat p2) = p2.
Proof. rewrite map_map. rewrite <- map_id. apply map_ext. intros. lia. Qed.
Lemma skipn_exact {A} n (a b : list A) : length a = n -> skipn n (a ++ b) = b.
Proof. intros <-. induction a; cbn; auto. Qed.
Lemma firstn_exact {A} n (a b : list A) : length a = n -> firstn n (a ++ b) = a.
Proof. intros <-. induction a; cbn; f_equal; auto. Qed.
Lemma blk_put_hcat m n k (X Y B : matR) : wf m n X -> wf m k Y -> wf m k B ->
  map2 (fun r b => row_put r n b) (hcat X Y) B = hcat X B.
Proof.
  revert X Y B. induction m as [|m IH]; intros [|x X] [|y Y] [|b B] HX HY HB; try (destruct HX; discriminate); try (destruct HY; discriminate); try (destruct HB; discriminate); [reflexivity|].
  apply wf_cons in HX. apply wf_cons in HY. apply wf_cons in HB. unfold hcat in *. cbn [map2]. f_equal; [|apply IH; tauto].
  unfold row_put. rewrite firstn_exact by tauto. f_equal. rewrite skipn_all2; [apply app_nil_r|]. rewrite app_length. destruct HX as [-> _], HY as [-> _], HB as [-> _]. lia.
Qed.
Lemma blk_put_hcat_l m n k (X Y B : matR) : wf m n X -> wf m k Y -> wf m n B ->
  map2 (fun r b => row_put r 0 b) (hcat X Y) B = hcat B Y.
Proof.
  revert X Y B. induction m as [|m IH]; intros [|x X] [|y Y] [|b B] HX HY HB; try (destruct HX; discriminate); try (destruct HY; discriminate); try (destruct HB; discriminate); [reflexivity|].
  apply wf_cons in HX. apply wf_cons in HY. apply wf_cons in HB. unfold hcat in *. cbn [map2]. f_equal; [|apply IH; tauto].
  unfold row_put. cbn [firstn app Nat.add]. f_equal. apply skipn_exact. destruct HX as [-> _], HB as [-> _]. reflexivity.
Qed.
Lemma map_firstn_hcat m n k (X Y : matR) : wf m n X -> wf m k Y -> map (firstn n) (hcat X Y) = X.
Proof.
  revert X Y. induction m as [|m IH]; intros [|x X] [|y Y] HX HY; try (destruct HX; discriminate); try (destruct HY; discriminate); [reflexivity|].
  apply wf_cons in HX. apply wf_cons in HY. unfold hcat in *. cbn [map2 map]. f_equal; [|apply IH; tauto]. apply firstn_exact. tauto.
Qed.

Lemma kkt_row_z n : forall rs rz d a b z0 : vecR, length d = n -> (forall i, (i < n)%nat -> vget d i <> 0) ->
  length rs = n -> length rz = n -> length z0 = n -> length a = n -> length b = n ->
  vsub (vadd (vadd (vopp b) (vsub (vsub (vsub (vadd b (vdiv rs d)) rz) (vdiv z0 d)) a)) (vdiv (vsub (vopp rs) (vopp z0)) d)) (vopp a) = vopp rz.
Proof.
  induction n as [|n IH]; intros rs rz d a b z0 Hd N Lrs Lrz Lz0 La Lb.
  - destruct rz; [|discriminate]. destruct b; [|discriminate]. reflexivity.
  - destruct rs as [|rs0 rs]; [discriminate|]. destruct rz as [|rz0 rz]; [discriminate|]. destruct d as [|d0 d]; [discriminate|]. destruct a as [|a0 a]; [discriminate|].
    destruct b as [|b0 b]; [discriminate|]. destruct z0 as [|z0 zs]; [discriminate|]. cbn [length] in *.
    assert (N0 : d0 <> 0) by (apply (N 0%nat); lia).
    specialize (IH rs rz d a b zs). unfold vadd, vsub, vdiv, vopp in *. cbn [vmap2 map]. f_equal; [rnum; field; exact N0|]. apply IH; try lia. intros i Hi. apply (N (S i)). lia.
Qed.

Section Kkt.
Variable la : lapack R.
Hypothesis HL : lapack_ok la.
Variables (nz nineq neq : nat) (Q G F A : matR).
Hypothesis HS : shaped nz nineq neq Q G F A.
Variable Q_LU : lu R.
Hypothesis HQ : factors nz Q Q_LU.
Let WQ : wf nz nz Q. Proof. apply HS. Qed.
Let WG : wf nineq nz G. Proof. apply HS. Qed.
Let WF : wf nineq nineq F. Proof. apply HS. Qed.
Let WA : wf neq nz A. Proof. apply HS. Qed.
Notation Qi := (la_getrs la Q_LU).
Lemma Qi_len v : length v = nz -> length (Qi v) = nz.
Proof. intros H. now apply (getrs_solves la HL nz Q). Qed.
Lemma Q_Qi v : length v = nz -> mv Q (Qi v) = v.
Proof. intros H. now apply (getrs_solves la HL nz Q). Qed.
Lemma Qi_Q v x : length v = nz -> length x = nz -> mv Q x = v -> x = Qi v.
Proof. intros. symmetry. now apply (getrs_unique la HL nz Q). Qed.
Lemma Qi_add x y : length x = nz -> length y = nz -> Qi (vadd x y) = vadd (Qi x) (Qi y).
Proof. intros. now apply (getrs_vadd la HL nz Q). Qed.
Lemma Qi_sym u v : length u = nz -> length v = nz -> dot (Qi u) v = dot u (Qi v).
Proof.
  intros Hu Hv. rewrite <- (Q_Qi v Hv) at 1. rewrite <- (symm_dot nz Q) by (try apply HS; now apply Qi_len). now rewrite Q_Qi.
Qed.
Notation AT := (fun y => vm nz y A).
Notation GT := (fun z => vm nz z G).
Let iGT := getrs_mat la Q_LU nz nineq (mtr nz G).
Let iAT := getrs_mat la Q_LU nz neq (mtr nz A).
Lemma wf_iGT : wf nz nineq iGT. Proof. apply (wf_getrs_mat la nz nineq Q); auto. apply wf_mtr, WG. Qed.
Lemma wf_iAT : wf nz neq iAT. Proof. apply (wf_getrs_mat la nz neq Q); auto. apply wf_mtr, WA. Qed.
Lemma mv_iGT z : length z = nineq -> mv iGT z = Qi (GT z).
Proof. intros Hz. unfold iGT. rewrite (getrs_mat_mv la HL nz nineq Q) by (auto; apply wf_mtr, WG). reflexivity. Qed.
Lemma mv_iAT y : length y = neq -> mv iAT y = Qi (AT y).
Proof. intros Hy. unfold iAT. rewrite (getrs_mat_mv la HL nz neq Q) by (auto; apply wf_mtr, WA). reflexivity. Qed.
Definition GG := madd (mm nineq G iGT) F.
Definition C := mm neq A iAT.
Definition B := mm neq G iAT.
Lemma wf_GG : wf nineq nineq GG. Proof. apply wf_madd; auto. apply wf_mm, WG. Qed.
Lemma wf_C : wf neq neq C. Proof. apply wf_mm, WA. Qed.
Lemma wf_B : wf nineq neq B. Proof. apply wf_mm, WG. Qed.
Lemma mv_GG z : length z = nineq -> mv GG z = vadd (mv G (Qi (GT z))) (mv F z).
Proof.
  intros Hz. unfold GG. rewrite (mv_madd nineq nineq) by (auto; apply wf_mm, WG). f_equal. rewrite (mv_mm nineq nz nineq) by auto using wf_iGT. now rewrite mv_iGT.
Qed.
Lemma mv_C y : length y = neq -> mv C y = mv A (Qi (AT y)).
Proof. intros Hy. unfold C. rewrite (mv_mm neq nz neq) by auto using wf_iAT. now rewrite mv_iAT. Qed.
Lemma mv_B y : length y = neq -> mv B y = mv G (Qi (AT y)).
Proof. intros Hy. unfold B. rewrite (mv_mm nineq nz neq) by auto using wf_iAT. now rewrite mv_iAT. Qed.
Lemma AT_len y : length (AT y) = nz. Proof. apply vm_length. Qed.
Lemma GT_len z : length (GT z) = nz. Proof. apply vm_length. Qed.
Lemma mv_BT z : length z = nineq -> mv (mtr neq B) z = mv A (Qi (GT z)).
Proof.
  intros Hz. apply (eq_by_dot neq); [rewrite mv_length; vlen|rewrite mv_length; apply WA|]. intros y Hy.
  change (mv (mtr neq B) z) with (vm neq z B). rewrite dot_comm, (dot_vm nineq neq) by auto using wf_B. rewrite mv_B by auto.
  rewrite dot_comm. rewrite dot_comm, <- (dot_vm nineq nz) by (auto; now apply Qi_len, AT_len).
  rewrite <- (dot_vm neq nz) by (auto; now apply Qi_len, GT_len). rewrite dot_comm. now apply Qi_sym; rewrite vm_length.
Qed.

(** the state S_LU: block form, and the pivots of the last factorisation of the 22 block *)
Variable LU_A : lu R.
Hypothesis HA : factors neq C LU_A.
Let L1 := square neq (lower (fst LU_A)).
Let U1 := square neq (upper (fst LU_A)).
Let Uinv := getrs_mat la LU_A neq neq (mm neq (unpack_P (length (fst LU_A)) (snd LU_A)) (unpack_L (fst LU_A))).
Let T_ := getrs_mat la LU_A neq nineq (mtr neq B).
Let S12 := mm nineq (unpack_U (fst LU_A)) T_.
Let Rm := msub GG (mm nineq B T_).
Let lenA : length (fst LU_A) = neq. Proof. apply HA. Qed.
Let pivA : piv_ok neq 0 (snd LU_A). Proof. apply packed_piv, HA. Qed.
Let WU1 : wf neq neq U1. Proof. apply wf_square. Qed.
Let WL1 : wf neq neq L1. Proof. apply wf_square. Qed.
Let WPL : wf neq neq (mm neq (unpack_P (length (fst LU_A)) (snd LU_A)) (unpack_L (fst LU_A)) : matR).
Proof. apply wf_mm. rewrite lenA. apply wf_unpack_P, pivA. Qed.
Lemma wf_Uinv : wf neq neq Uinv.
Proof. apply (wf_getrs_mat la neq neq C); auto using wf_C. Qed.
Lemma wf_T : wf neq nineq T_.
Proof. apply (wf_getrs_mat la neq nineq C); auto using wf_C. apply wf_mtr, wf_B. Qed.
Lemma U1_Uinv y : length y = neq -> mv U1 (mv Uinv y) = y.
Proof.
  intros Hy. assert (LU : length (mv Uinv y) = neq) by (rewrite mv_length; apply wf_Uinv).
  apply (lower_inj neq (fst LU_A)); auto; [apply HA|rewrite mv_length; apply WU1|].
  change (mv (square neq (lower (fst LU_A))) (mv U1 (mv Uinv y))) with (lu_mul neq LU_A (mv Uinv y)).
  rewrite <- (proj2 HA) by auto. unfold Uinv. rewrite (getrs_mat_mv la HL neq neq C) by auto using wf_C.
  assert (Lw : length (mv (mm neq (unpack_P (length (fst LU_A)) (snd LU_A)) (unpack_L (fst LU_A))) y) = neq) by (rewrite mv_length; apply WPL).
  rewrite (proj2 (getrs_solves la HL neq C LU_A _ wf_C HA Lw)).
  rewrite lenA. rewrite (unpack_L_square neq) by auto. rewrite (mv_mm neq neq neq) by (auto using wf_unpack_P, wf_square).
  rewrite piv_unpack_P by (auto; rewrite mv_length; apply square_length). reflexivity.
Qed.
Lemma Uinv_U1 y : length y = neq -> mv Uinv (mv U1 y) = y.
Proof.
  intros Hy. assert (L : length (mv U1 y) = neq) by (rewrite mv_length; apply WU1).
  apply (upper_inj neq (fst LU_A)); auto; [apply HA|exact (proj2 (proj2 (proj2 (proj1 HA))))|rewrite mv_length; apply wf_Uinv|]. now apply U1_Uinv.
Qed.
Lemma C_T z : length z = nineq -> length (mv T_ z) = neq /\ mv C (mv T_ z) = mv A (Qi (GT z)).
Proof.
  intros Hz. split; [rewrite mv_length; apply wf_T|]. unfold T_. rewrite (getrs_mat_mv la HL neq nineq C) by (auto using wf_C; apply wf_mtr, wf_B).
  assert (LB : length (mv (mtr neq B) z) = neq) by (rewrite mv_length; apply mtr_length).
  rewrite (proj2 (getrs_solves la HL neq C LU_A _ wf_C HA LB)). now apply mv_BT.
Qed.
Lemma wf_S12 : wf neq nineq S12.
Proof. apply wf_mm. rewrite (unpack_U_square neq) by auto. apply square_length. Qed.
Lemma mv_S12 z : length z = nineq -> mv S12 z = mv U1 (mv T_ z).
Proof. intros Hz. unfold S12. rewrite (unpack_U_square neq) by auto. now rewrite (mv_mm neq neq nineq) by auto using wf_T. Qed.
Lemma wf_Rm : wf nineq nineq Rm.
Proof. apply wf_msub; [apply wf_GG|]. apply wf_mm, wf_B. Qed.
Lemma mv_Rm z : length z = nineq -> mv Rm z = vsub (mv GG z) (mv B (mv T_ z)).
Proof. intros Hz. unfold Rm. rewrite (mv_msub nineq nineq) by (auto using wf_GG; apply wf_mm, wf_B). now rewrite (mv_mm nineq neq nineq) by auto using wf_T, wf_B. Qed.

Definition state_ok (S : lu R) : Prop :=
  exists S21 S22 p2,
    fst S = blocks (fst LU_A) S12 S21 S22 /\ snd S = snd LU_A ++ map (fun p => p + neq)%nat p2 /\
    wf nineq neq S21 /\ wf nineq nineq S22 /\ length p2 = nineq /\ piv_ok nineq 0 p2 /\
    forall y, length y = neq -> mv (unpack_P nineq p2) (mv S21 y) = mv B (mv Uinv y).

Lemma blk_put_22 S21 S22 X : wf nineq neq S21 -> wf nineq nineq S22 -> wf nineq nineq X ->
  blk_put (blocks (fst LU_A) S12 S21 S22) neq neq X = blocks (fst LU_A) S12 S21 X.
Proof.
  intros H1 H2 H3. unfold blocks, vcat. pose proof (blk_put_app (hcat (fst LU_A) S12) (hcat S21 S22) [] X neq) as E. rewrite !app_nil_r in E.
  assert (T : length (hcat (fst LU_A) S12) = neq) by (rewrite hcat_length, lenA, (wf_length _ _ _ wf_S12); lia). rewrite T in E.
  rewrite E by (rewrite hcat_length, (wf_length _ _ _ H1), (wf_length _ _ _ H2), (wf_length _ _ _ H3); lia). f_equal. now apply (blk_put_hcat nineq neq nineq).
Qed.
Lemma blk_put_21 S21 S22 X : wf nineq neq S21 -> wf nineq nineq S22 -> wf nineq neq X ->
  blk_put (blocks (fst LU_A) S12 S21 S22) neq 0 X = blocks (fst LU_A) S12 X S22.
Proof.
  intros H1 H2 H3. unfold blocks, vcat. pose proof (blk_put_app (hcat (fst LU_A) S12) (hcat S21 S22) [] X 0) as E. rewrite !app_nil_r in E.
  assert (T : length (hcat (fst LU_A) S12) = neq) by (rewrite hcat_length, lenA, (wf_length _ _ _ wf_S12); lia). rewrite T in E.
  rewrite E by (rewrite hcat_length, (wf_length _ _ _ H1), (wf_length _ _ _ H2), (wf_length _ _ _ H3); lia). f_equal. now apply (blk_put_hcat_l nineq neq nineq).
Qed.

Lemma wf_0 (X Y : matR) m : wf m 0 X -> wf m 0 Y -> X = Y.
Proof. intros HX HY. apply (mat_ext m 0); auto. intros; lia. Qed.

Lemma factor_kkt_ok S d S' : state_ok S -> length d = nineq ->
  factor_kkt la nineq neq S Rm d = Ok S' -> state_ok S' /\ factors_schur nz nineq neq Q G F A d S'.
Proof.
  intros (S21 & S22 & p2 & ED & EP & W21 & W22 & Lp & Pok & Inv) Hd H. unfold factor_kkt in H. bind_inv H as TL ET.
  destruct S as [SD SP]. cbn [fst snd] in *. subst SD SP.
  set (TM := madd (mdiag (map (fun x => 1 / x) d)) Rm) in *.
  assert (Ld : length (map (fun x => 1 / x) d) = nineq) by now rewrite map_length.
  assert (WD : wf nineq nineq (mdiag (map (fun x => 1 / x) d))) by (rewrite <- Ld at 1 2; apply wf_mdiag).
  assert (WT : wf nineq nineq TM) by (apply wf_madd; auto using wf_Rm).
  assert (HT : factors nineq TM TL) by (apply (getrf_ok la HL); auto).
  destruct TL as [D22 q]. cbn [fst snd] in *. assert (LD22 : length D22 = nineq) by apply HT. rewrite LD22 in H.
  rewrite (skipn_exact neq), piv_pred, (firstn_exact neq) in H by apply HA.
  assert (QP : piv_ok nineq 0 q) by (apply (packed_piv nineq (D22, q)), HT).
  assert (Lq : length q = nineq) by apply HT.
  set (S21' := mm neq (mtr nineq (unpack_P nineq q)) (mm neq (unpack_P nineq p2) S21) : matR).
  assert (W21' : wf nineq neq S21') by (apply wf_mm; vlen).
  assert (M21 : forall y, length y = neq -> mv S21' y = apply_piv 0 q (mv B (mv Uinv y))).
  { pose proof (wf_unpack_P nineq q QP) as Wq. pose proof (wf_unpack_P nineq p2 Pok) as Wp.
    assert (Wm : wf nineq neq (mm neq (unpack_P nineq p2) S21 : matR)) by (apply wf_mm; apply Wp).
    assert (Wt : wf nineq nineq (mtr nineq (unpack_P nineq q) : matR)) by (apply wf_mtr; apply Wq).
    intros y Hy. unfold S21'. rewrite (mv_mm nineq nineq neq) by auto.
    rewrite (mv_mm nineq nineq neq) by auto. rewrite Inv by auto. apply mv_unpack_PT; auto. rewrite mv_length. apply wf_B. }
  assert (ES : S' = (blocks (fst LU_A) S12 S21' D22, snd LU_A ++ map (fun p => p + neq)%nat q)).
  { injection H as <-. f_equal. destruct (Nat.ltb_spec 0 neq) as [Z|Z].
    - assert (E21 : map (firstn neq) (skipn neq (blocks (fst LU_A) S12 S21 S22)) = S21).
      { unfold blocks, vcat. rewrite skipn_exact; [now apply (map_firstn_hcat nineq neq nineq)|]. rewrite hcat_length, lenA, (wf_length _ _ _ wf_S12). lia. }
      rewrite E21. fold S21'. rewrite (blk_put_21 S21 S22 S21') by auto. apply (blk_put_22 S21' S22 D22); auto. apply HT.
    - rewrite (blk_put_22 S21 S22 D22) by (auto; apply HT). f_equal. assert (Z0 : neq = 0%nat) by lia. rewrite Z0 in W21, W21'. now apply (wf_0 _ _ nineq). }
  subst S'. split.
  - exists S21', D22, q. cbn [fst snd]. repeat split; auto; try apply W21'; try apply HT; try apply QP. intros y Hy. rewrite M21 by auto.
    apply mv_unpack_P; auto. rewrite mv_length. apply wf_B.
  - split; [apply packed_blocks; auto using wf_S12; try apply HA; try apply HT|]. intros x y z Hx Hy Hz E. cbn [snd].
    assert (WA11 : wf neq neq (fst LU_A)) by apply HA.
    rewrite (lu_mul_blocks neq nineq (fst LU_A) S12 S21' D22) by (auto using wf_S12; apply HT). cbv zeta.
    assert (Ex : x = vadd (Qi (AT y)) (Qi (GT z))). { rewrite <- Qi_add by vlen. apply Qi_Q; auto. vlen. }
    assert (L1' : length (Qi (AT y)) = nz) by (apply Qi_len, AT_len). assert (L2' : length (Qi (GT z)) = nz) by (apply Qi_len, GT_len).
    destruct (C_T z Hz) as [LT CT].
    set (u := vadd (mv (square neq (upper (fst LU_A))) y) (mv S12 z)).
    assert (Eu : u = mv U1 (vadd y (mv T_ z))) by (unfold u; rewrite mv_S12 by auto; rewrite mv_vadd by lia; reflexivity).
    assert (EA : mv A x = mv C (vadd y (mv T_ z))).
    { rewrite Ex, mv_vadd by lia. rewrite mv_vadd by lia. rewrite CT, mv_C by auto. reflexivity. }
    assert (LyT : length (vadd y (mv T_ z)) = neq) by (rewrite vadd_length; lia).
    rewrite apply_piv_app with (n := neq); auto; [|apply HA| |rewrite mv_length; apply WA].
    + f_equal.
      * rewrite EA, (proj2 HA) by auto. unfold lu_mul. fold U1. now rewrite Eu.
      * rewrite M21 by (unfold u; rewrite vadd_length, !mv_length, square_length, (wf_length _ _ _ wf_S12); lia). rewrite Eu, Uinv_U1 by auto.
        assert (EL : lu_mul nineq (D22, snd LU_A ++ map (fun p => p + neq)%nat q) z = apply_piv 0 q (mv TM z)) by (symmetry; apply HT; auto).
        transitivity (vadd (apply_piv 0 q (mv B (vadd y (mv T_ z)))) (apply_piv 0 q (mv TM z))); [|apply f_equal2; [reflexivity|symmetry; exact EL]]. rewrite <- (apply_piv_vadd nineq) by (auto; rewrite mv_length; apply wf_B || apply WT). f_equal.
        unfold TM. rewrite (mv_madd nineq nineq) by auto using wf_Rm. rewrite mv_Rm by auto. rewrite mv_GG by auto. rewrite mv_mdiag by (rewrite Ld; auto).
        rewrite mv_vadd by lia. rewrite mv_B by auto. rewrite Ex, mv_vadd by lia.
        assert (LF : length (mv F z) = nineq) by (rewrite mv_length; apply WF).
        assert (LG : forall v, length (mv G v) = nineq) by (intros; rewrite mv_length; apply WG).
        assert (LB : forall v, length (mv B v) = nineq) by (intros; rewrite mv_length; apply wf_B).
        pose proof (LG (Qi (AT y))). pose proof (LG (Qi (GT z))). pose proof (LB (mv T_ z)).
        generalize dependent (mv G (Qi (AT y))). generalize dependent (mv G (Qi (GT z))). generalize dependent (mv B (mv T_ z)). generalize dependent (mv F z).
        intros vf Lf vb Lb vg Lg va La. apply vext; [vlen|]. intros i Hi. vlen.
        repeat (rewrite vget_vadd by vlen). repeat (rewrite vget_vsub by vlen). repeat (rewrite vget_vadd by vlen). rewrite vget_vdiv, vget_vmul by vlen.
        rewrite (vget_map (fun x => 1 / x)) by lia. unfold Rdiv. ring.
    + revert QP. unfold piv_ok. intros [_ FQ]. revert FQ. apply Forall_impl. intros. lia.
Qed.

(** *** solve_kkt *)
Lemma solve_kkt_ok S d rx rs rz ry :
  factors_schur nz nineq neq Q G F A d S -> length d = nineq -> (forall i, (i < nineq)%nat -> vget d i <> 0) ->
  length rx = nz -> length rs = nineq -> length rz = nineq -> length ry = neq ->
  let '(dx, ds, dz, dy) := solve_kkt la nz neq Q_LU d G A S rx rs rz ry in
  kkt_solution nz nineq neq Q G F A d rx rs rz ry dx ds dz dy.
Proof.
  intros [HP HF] Hd Hd0 Lrx Lrs Lrz Lry. unfold solve_kkt.
  set (hG := vsub (vadd (mv G (Qi rx)) (vdiv rs d)) rz).
  assert (LhG : length hG = nineq) by (unfold hG; rewrite vsub_length, vadd_length, vdiv_length, mv_length, (wf_length _ _ _ WG); lia).
  set (hA := vsub (mv A (Qi rx)) ry).
  assert (LhA : length hA = neq) by (unfold hA; rewrite vsub_length, mv_length, (wf_length _ _ _ WA); lia).
  assert (Eh : (if Nat.ltb 0 neq then hA ++ hG else hG) = hA ++ hG).
  { destruct (Nat.ltb_spec 0 neq) as [Z|Z]; [reflexivity|]. destruct hA; [reflexivity|cbn in LhA; lia]. }
  rewrite Eh. clear Eh. set (w0 := la_getrs la S (hA ++ hG)).
  destruct (getrs_ok la HL (neq + nineq) S (hA ++ hG) HP ltac:(rewrite app_length; lia)) as [Lw Ew]. fold w0 in Lw, Ew.
  set (y0 := firstn neq w0). set (z0 := skipn neq w0).
  assert (Ly0 : length y0 = neq) by (unfold y0; rewrite firstn_length; lia).
  assert (Lz0 : length z0 = nineq) by (unfold z0; rewrite skipn_length; lia).
  assert (E0 : w0 = y0 ++ z0) by (symmetry; apply firstn_skipn).
  assert (Ewz : skipn neq (vopp w0) = vopp z0) by (rewrite E0, vopp_app; apply skipn_exact; now rewrite vopp_length).
  assert (Ewy : firstn neq (vopp w0) = vopp y0) by (rewrite E0, vopp_app; apply firstn_exact; now rewrite vopp_length).
  rewrite Ewz, Ewy. rewrite !vm_vopp.
  set (x0 := Qi (vadd (vm nz y0 A) (vm nz z0 G))).
  assert (Lx0 : length x0 = nz) by (apply Qi_len; vlen).
  assert (Qx0 : mv Q x0 = vadd (vm nz y0 A) (vm nz z0 G)) by (apply Q_Qi; vlen).
  specialize (HF x0 y0 z0 Lx0 Ly0 Lz0 Qx0). rewrite <- E0, Ew in HF.
  apply (apply_piv_inj (neq + nineq)) in HF; [|now apply packed_piv| |rewrite app_length; lia].
  2:{ rewrite app_length, !vadd_length, vdiv_length, !mv_length, (wf_length _ _ _ WA), (wf_length _ _ _ WG), (wf_length _ _ _ WF). lia. }
  assert (LA : forall v, length (mv A v) = neq) by (intros; rewrite mv_length; apply WA).
  assert (LG : forall v, length (mv G v) = nineq) by (intros; rewrite mv_length; apply WG).
  assert (LF : forall v, length (mv F v) = nineq) by (intros; rewrite mv_length; apply WF).
  assert (EA : mv A x0 = hA). { apply (f_equal (firstn neq)) in HF. rewrite !firstn_exact in HF by auto. exact HF. }
  assert (EG : vadd (vadd (mv G x0) (mv F z0)) (vdiv z0 d) = hG). { apply (f_equal (skipn neq)) in HF. rewrite !skipn_exact in HF by auto. exact HF. }
  set (g1 := vsub (vopp rx) (vopp (vm nz z0 G))).
  assert (Eg : (if Nat.ltb 0 neq then vsub g1 (vopp (vm nz y0 A)) else g1) = vadd (vopp rx) (vadd (vm nz y0 A) (vm nz z0 G))).
  { destruct (Nat.ltb_spec 0 neq) as [Z|Z].
    - unfold g1. vec_eq. ring.
    - destruct y0; [|cbn in Ly0; lia]. rewrite vm_nil. unfold g1. vec_eq. ring. }
  rewrite Eg. assert (Edx : Qi (vadd (vopp rx) (vadd (vm nz y0 A) (vm nz z0 G))) = vadd (vopp (Qi rx)) x0).
  { symmetry. apply Qi_Q; [vlen|rewrite vadd_length, vopp_length, Qi_len; lia|]. rewrite mv_vadd by (rewrite vopp_length, Qi_len; lia). rewrite mv_vopp, Q_Qi by auto. now rewrite Qx0. }
  rewrite Edx. pose proof (Qi_len rx Lrx) as LQ.
  split.
  - rewrite vadd_length, vopp_length. lia.
  - rewrite vdiv_length, vsub_length, !vopp_length. lia.
  - now rewrite vopp_length.
  - now rewrite vopp_length.
  - rewrite mv_vadd by (rewrite vopp_length; lia). rewrite mv_vopp, Q_Qi by auto. rewrite Qx0. rewrite !vm_vopp. vec_eq. ring.
  - apply vext; [vlen|]. intros i Hi. vlen. rewrite vget_vadd, vget_vmul, vget_vdiv, vget_vsub by vlen. rewrite !vget_vopp. field. apply Hd0. lia.
  - rewrite mv_vadd by (rewrite vopp_length; lia). rewrite !mv_vopp.
    assert (E1 : mv G x0 = vsub (vsub hG (vdiv z0 d)) (mv F z0)).
    { rewrite <- EG. apply vext; [rewrite !vsub_length, !vadd_length, !vdiv_length, LG, LF; lia|]. intros i Hi. rewrite LG in Hi.
      rewrite !vget_vsub, !vget_vadd by (rewrite ?vsub_length, ?vadd_length, ?vdiv_length, ?LG, ?LF; lia). ring. }
    rewrite E1. unfold hG. rewrite mv_vopp || idtac. apply (kkt_row_z nineq); auto.
  - rewrite mv_vadd by (rewrite vopp_length; lia). rewrite mv_vopp, EA. unfold hA. generalize (mv A (Qi rx)) (LA (Qi rx)). clear - Lry. intros a La.
    vec_eq. ring.
Qed.
End Kkt.

(** *** the state after pre_factor_kkt and any number of factor_kkt *)
Definition kkt_state la nz nineq neq Q G F A (Q_LU S : lu R) (Rm : matR) : Prop :=
  factors nz Q Q_LU /\
  exists LU_A, factors neq (C la nz neq A Q_LU) LU_A /\
    Rm = msub (GG la nz nineq G F Q_LU) (mm nineq (B la nz neq G A Q_LU) (getrs_mat la LU_A neq nineq (mtr neq (B la nz neq G A Q_LU)))) /\
    state_ok la nz nineq neq G A Q_LU LU_A S.
Lemma factors_nil (M : matR) : wf 0 0 M -> factors 0 M ([], []).
Proof.
  intros W. split; [split; [apply wf_nil|]; split; [reflexivity|]; split; [constructor|intros; lia]|]. intros x Hx. destruct W as [L _]. destruct M; [|discriminate]. reflexivity.
Qed.
Lemma wf_cat_nil m (S22 : matR) n : wf m n S22 -> hcat (repeat [] m) S22 = S22.
Proof. intros [L _]. subst m. induction S22; cbn; auto. unfold hcat in *. now rewrite IHS22. Qed.
Lemma piv_id_P n (x : vecR) : length x = n -> mv (unpack_P n (seq 1 n)) x = x.
Proof.
  intros Hx. assert (P : piv_ok n 0 (seq 1 n)). { split; [rewrite seq_length; lia|]. apply Forall_forall. intros p Hp. apply in_seq in Hp. lia. }
  pose proof (mv_unpack_P n (seq 1 n) x P Hx) as E. rewrite apply_piv_from, piv_from_id in E. exact E.
Qed.
Lemma pre_factor_ok la nz nineq neq Q G F A Q_LU S Rm : lapack_ok la -> shaped nz nineq neq Q G F A ->
  pre_factor_kkt la nz nineq neq Q G F A = Ok (Q_LU, S, Rm) -> kkt_state la nz nineq neq Q G F A Q_LU S Rm.
Proof.
  intros HL HS H. unfold pre_factor_kkt in H. bind_inv H as f EQ. assert (HQ : factors nz Q f) by (apply (getrf_ok la HL); auto; apply HS).
  assert (PI : forall k, piv_ok k 0 (seq 1 k)). { intros k. split; [rewrite seq_length; lia|]. apply Forall_forall. intros p Hp. apply in_seq in Hp. lia. }
  assert (SH : forall s k n, map (fun p => p + n)%nat (seq s k) = seq (s + n)%nat k). { intros s k n. revert s. induction k; intros s; cbn; auto. f_equal. apply (IHk (Datatypes.S s)). }
  destruct (Nat.ltb_spec 0 neq) as [Z|Z].
  - bind_inv H as LA ELA. fold (GG la nz nineq G F f) in H. fold (C la nz neq A f) in *. fold (B la nz neq G A f) in *.
    assert (HA : factors neq (C la nz neq A f) LA) by (apply (getrf_ok la HL); auto; apply wf_mm, (sh_A _ _ _ _ _ _ _ HS)).
    injection H as <- <- <-. split; [exact HQ|]. exists LA. split; [exact HA|]. split; [reflexivity|].
    eexists _, (mzeros nineq nineq), (seq 1 nineq). cbn [fst snd]. split; [reflexivity|]. split.
    { f_equal. rewrite SH. rewrite seq_app. rewrite skipn_exact by apply seq_length. f_equal. }
    split; [apply wf_mm; apply wf_mm, (sh_G _ _ _ _ _ _ _ HS)|]. split; [apply wf_mzeros|]. split; [apply seq_length|]. split; [apply PI|].
    intros y Hy. rewrite (mv_mm nineq neq neq); auto.
    + apply piv_id_P. rewrite mv_length. apply wf_mm, (sh_G _ _ _ _ _ _ _ HS).
    + apply wf_mm, (sh_G _ _ _ _ _ _ _ HS).
    + exact (wf_Uinv la nz nineq neq Q G F A HS f LA HA).
  - assert (Z0 : neq = 0%nat) by lia. subst neq. fold (GG la nz nineq G F f) in H. injection H as <- <- <-. split; [exact HQ|].
    pose proof (sh_A _ _ _ _ _ _ _ HS) as WA. pose proof (sh_G _ _ _ _ _ _ _ HS) as WG. assert (WC : wf 0 0 (C la nz 0 A f)) by (apply wf_mm; apply WA).
    assert (WB : wf nineq 0 (B la nz 0 G A f)) by (apply wf_mm; apply WG).
    assert (WGG : wf nineq nineq (GG la nz nineq G F f)) by (apply wf_madd; [apply wf_mm; apply WG|apply HS]).
    exists ([], []). split; [now apply factors_nil|]. split.
    + set (T0 := getrs_mat la ([], []) 0 nineq (mtr 0 (B la nz 0 G A f))). assert (WT : wf 0 nineq T0) by (unfold T0, getrs_mat; apply wf_mtr; rewrite map_length; vlen).
      assert (WBT : wf nineq nineq (mm nineq (B la nz 0 G A f) T0)) by (apply wf_mm; apply WB).
      apply (mv_ext nineq nineq); auto; [now apply wf_msub|]. intros x Hx. rewrite (mv_msub nineq nineq) by auto. rewrite (mv_mm nineq 0 nineq) by auto.
      assert (E0 : mv T0 x = []) by (destruct WT as [L _]; destruct T0; [reflexivity|discriminate]). rewrite E0.
      assert (E1 : mv (B la nz 0 G A f) [] = vzeros nineq) by (change ([] : vecR) with (vzeros 0 : vecR); rewrite mv_zeros; f_equal; apply WB). rewrite E1.
      symmetry. apply vsub_zeros_r. rewrite mv_length. apply WGG.
    + exists (repeat [] nineq), (mzeros nineq nineq), (seq 1 nineq). cbn [fst snd app Nat.add].
      assert (W0 : wf nineq 0 (repeat [] nineq : matR)). { split; [apply repeat_length|]. apply Forall_forall. intros r Hr. apply repeat_spec in Hr. now subst. }
      split; [unfold blocks, vcat; cbn [hcat map2 app]; symmetry; apply (wf_cat_nil nineq _ nineq), wf_mzeros|].
      split; [rewrite SH; now rewrite Nat.add_0_r|]. split; [exact W0|]. split; [apply wf_mzeros|]. split; [apply seq_length|]. split; [apply PI|].
      intros y Hy. destruct y; [|discriminate]. rewrite piv_id_P by (rewrite mv_length; apply W0).
      set (X := getrs_mat _ _ _ _ _). assert (EX : mv X [] = []) by reflexivity. rewrite EX.
      change ([] : vecR) with (vzeros 0 : vecR) at 2 3. rewrite !mv_zeros. rewrite repeat_length. f_equal. symmetry. apply WB.
Qed.
Lemma state_factor la nz nineq neq Q G F A Q_LU S Rm d S' : lapack_ok la -> shaped nz nineq neq Q G F A ->
  kkt_state la nz nineq neq Q G F A Q_LU S Rm -> length d = nineq -> factor_kkt la nineq neq S Rm d = Ok S' ->
  kkt_state la nz nineq neq Q G F A Q_LU S' Rm /\ factors_schur nz nineq neq Q G F A d S'.
Proof.
  intros HL HS (HQ & LA & HA & -> & HSt) Hd H. destruct (factor_kkt_ok la HL nz nineq neq Q G F A HS Q_LU HQ LA HA S d S' HSt Hd H) as [H1 H2].
  split; [|exact H2]. split; [exact HQ|]. exists LA. auto.
Qed.
