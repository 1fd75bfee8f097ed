(** On well-posed problems the factorisations never fail *)
From Coq Require Import List Arith ZArith Bool Reals Lia Lra Psatz.
From Verif Require Import Num Tensor RBase ResFacts LinAlg Lapack LapackSpec Pdipm KktSpec RegSpec KktFacts KktFactor.
Import ListNotations.
Open Scope R_scope.

Lemma vzeros_dec n (x : vecR) : length x = n -> {x = vzeros n} + {x <> vzeros n}.
Proof.
  revert x. induction n as [|n IH]; intros [|a x] H; try discriminate; [now left|]. cbn in H. injection H as H. cbn [vzeros repeat].
  destruct (Req_EM_T a 0) as [->|E]; [|right; intros X; injection X as X _; auto]. destruct (IH x H) as [->|E]; [left; reflexivity|right; intros X; injection X as X; auto].
Qed.
Section Total.
Variable la : lapack R.
Hypothesis HL : lapack_ok la.
Variables (nz nineq neq : nat) (Q G F A : matR).
Hypothesis HS : shaped nz nineq neq Q G F A.
Hypothesis HW : regular nz nineq neq Q G F A.
Let WQ : wf nz nz Q. Proof. apply HS. Qed.
Let WG : wf nineq nz G. Proof. apply HS. Qed.
Let WA : wf neq nz A. Proof. apply HS. Qed.

Lemma quad_zero x : length x = nz -> dot x (mv Q x) <= 0 -> x = vzeros nz.
Proof. intros Hx H. destruct (vzeros_dec nz x Hx) as [E|E]; [exact E|]. pose proof (rg_Q _ _ _ _ _ _ _ HW x Hx E). lra. Qed.
Lemma Q_nonsingular : nonsingular nz Q.
Proof. intros x Hx E. apply quad_zero; auto. rewrite E, dot_zeros_r. lra. Qed.
Lemma quad_nonneg x : length x = nz -> 0 <= dot x (mv Q x).
Proof. intros Hx. destruct (vzeros_dec nz x Hx) as [->|E]; [rewrite dot_zeros_l; lra|]. now apply Rlt_le, (rg_Q _ _ _ _ _ _ _ HW). Qed.

Variable Q_LU : lu R.
Hypothesis HQ : factors nz Q Q_LU.
Notation Qi := (la_getrs la Q_LU).
Lemma C_nonsingular : nonsingular neq (C la nz neq A Q_LU).
Proof.
  intros y Hy E. rewrite (mv_C la HL nz nineq neq Q G F A HS Q_LU HQ) in E by auto. cbv beta in E. set (x := Qi (vm nz y A)) in *.
  assert (Lx : length x = nz) by (apply (Qi_len la HL nz nineq neq Q G F A HS Q_LU HQ); apply vm_length).
  assert (EQ : mv Q x = vm nz y A) by (apply (Q_Qi la HL nz nineq neq Q G F A HS Q_LU HQ); apply vm_length).
  assert (Z : x = vzeros nz). { apply quad_zero; auto. rewrite EQ, dot_comm, (dot_vm neq nz), E, dot_zeros_r by auto. lra. }
  apply (rg_A _ _ _ _ _ _ _ HW); auto. rewrite <- EQ, Z, mv_zeros. f_equal. apply WQ.
Qed.
Variable LU_A : lu R.
Hypothesis HA : factors neq (C la nz neq A Q_LU) LU_A.
Let T_ := getrs_mat la LU_A neq nineq (mtr neq (B la nz neq G A Q_LU)).
Let Rm := msub (GG la nz nineq G F Q_LU) (mm nineq (B la nz neq G A Q_LU) T_).
Lemma T_nonsingular d : length d = nineq -> (forall i, (i < nineq)%nat -> 0 < vget d i) ->
  nonsingular nineq (madd (mdiag (map (fun x => 1 / x) d)) Rm).
Proof.
  intros Ld Hd z Hz E. assert (Ld' : length (map (fun x => 1 / x) d) = nineq) by now rewrite map_length.
  assert (WD : wf nineq nineq (mdiag (map (fun x => 1 / x) d))) by (rewrite <- Ld' at 1 2; apply wf_mdiag).
  pose proof (wf_Rm la nz nineq neq Q G F A HS Q_LU LU_A) as WR. fold T_ in WR. fold Rm in WR.
  rewrite (mv_madd nineq nineq) in E by auto. rewrite mv_mdiag in E by lia.
  unfold Rm, T_ in E. rewrite (mv_Rm la nz nineq neq Q G F A HS Q_LU LU_A HA) in E by auto. fold T_ in E.
  destruct (C_T la HL nz nineq neq Q G F A HS Q_LU HQ LU_A HA z Hz) as [Ly EC]. fold T_ in Ly, EC. set (y := mv T_ z) in *.
  rewrite (mv_GG la HL nz nineq neq Q G F A HS Q_LU HQ) in E by auto. rewrite (mv_B la HL nz nineq neq Q G F A HS Q_LU HQ) in E by auto.
  rewrite (mv_C la HL nz nineq neq Q G F A HS Q_LU HQ) in EC by auto. cbv beta in *.
  set (u := Qi (vm nz z G)) in *. set (v := Qi (vm nz y A)) in *.
  assert (Lu : length u = nz) by (apply (Qi_len la HL nz nineq neq Q G F A HS Q_LU HQ); apply vm_length).
  assert (Lv : length v = nz) by (apply (Qi_len la HL nz nineq neq Q G F A HS Q_LU HQ); apply vm_length).
  assert (Eu : mv Q u = vm nz z G) by (apply (Q_Qi la HL nz nineq neq Q G F A HS Q_LU HQ); apply vm_length).
  assert (Ev : mv Q v = vm nz y A) by (apply (Q_Qi la HL nz nineq neq Q G F A HS Q_LU HQ); apply vm_length).
  assert (LF : length (mv F z) = nineq) by (rewrite mv_length; apply HS).
  assert (LGu : length (mv G u) = nineq) by (rewrite mv_length; apply WG). assert (LGv : length (mv G v) = nineq) by (rewrite mv_length; apply WG).
  assert (LQ : length Q = nz) by apply WQ. assert (LA : length A = neq) by apply WA.
  apply (rg_F _ _ _ _ _ _ _ HW d (vsub u v) (vopp y) z); auto.
  - vlen.
  - vlen.
  - rewrite mv_vsub by lia. rewrite Eu, Ev. rewrite vm_vopp. pose proof (vm_length nz y A). pose proof (vm_length nz z G). vec_eq. ring.
  - rewrite mv_vsub by lia. rewrite EC. assert (length (mv A u) = neq) by (rewrite mv_length; apply WA). vec_eq. ring.
  - rewrite mv_vsub by lia. rewrite <- E.
    assert (L1 : length (map (fun x => 1 / x) d) = nineq) by exact Ld'.
    vec_eq. rewrite vget_map with (f := fun x => 1 / x) by vlen.
    assert (Hi' : (i < nineq)%nat) by (revert Hi; rewrite ?vadd_length, ?vsub_length, ?vdiv_length; unfold vec in *; lia). pose proof (Hd i Hi'). rnum. field. lra.
Qed.
Lemma factor_kkt_total S d : length d = nineq -> (forall i, (i < nineq)%nat -> 0 < vget d i) -> exists S', factor_kkt la nineq neq S Rm d = Ok S'.
Proof.
  intros Ld Hd. unfold factor_kkt. assert (Ld' : length (map (fun x => 1 / x) d) = nineq) by now rewrite map_length.
  assert (WD : wf nineq nineq (mdiag (map (fun x => 1 / x) d))) by (rewrite <- Ld' at 1 2; apply wf_mdiag).
  pose proof (wf_Rm la nz nineq neq Q G F A HS Q_LU LU_A) as WR. fold T_ in WR. fold Rm in WR.
  destruct (getrf_total la HL nineq (madd (mdiag (map (fun x => 1 / x) d)) Rm)) as [f Ef]; [now apply wf_madd|now apply T_nonsingular|].
  rnum. rewrite Ef. cbn [bind]. eexists. reflexivity.
Qed.
End Total.

Lemma state_regular la nz nineq neq Q G F A Q_LU S Rm d : lapack_ok la -> shaped nz nineq neq Q G F A -> regular nz nineq neq Q G F A ->
  kkt_state la nz nineq neq Q G F A Q_LU S Rm -> length d = nineq -> (forall i, (i < nineq)%nat -> 0 < vget d i) ->
  exists S', factor_kkt la nineq neq S Rm d = Ok S'.
Proof.
  intros HL HS HW (HQ & LA & HA & -> & _) Ld Hd. exact (factor_kkt_total la HL nz nineq neq Q G F A HS HW Q_LU HQ LA HA S d Ld Hd).
Qed.
Lemma pre_factor_regular la nz nineq neq Q G F A : lapack_ok la -> shaped nz nineq neq Q G F A -> regular nz nineq neq Q G F A ->
  exists r, pre_factor_kkt la nz nineq neq Q G F A = Ok r.
Proof.
  intros HL HS HW. unfold pre_factor_kkt. destruct (getrf_total la HL nz Q) as [QL EQ]; [apply HS|now apply (Q_nonsingular nz nineq neq Q G F A)|].
  rewrite EQ. cbn [bind]. destruct (Nat.ltb 0 neq); [|eexists; reflexivity].
  assert (HQ : factors nz Q QL) by (apply (getrf_ok la HL); auto; apply HS).
  destruct (getrf_total la HL neq (C la nz neq A QL)) as [LA EA]; [apply (wf_C la nz nineq neq Q G F A HS)|now apply (C_nonsingular la HL nz nineq neq Q G F A)|].
  unfold C in EA. rewrite EA. cbn [bind]. eexists. reflexivity.
Qed.

(** *** well-posed problems are regular *)
Lemma inv_weight_zero : forall n (d z : vecR), length d = n -> (forall i, (i < n)%nat -> 0 < vget d i) -> length z = n -> dot z (vdiv z d) <= 0 -> z = vzeros n.
Proof.
  assert (N : forall (d z : vecR), (forall i, (i < length d)%nat -> 0 < vget d i) -> length z = length d -> 0 <= dot z (vdiv z d)).
  { induction d as [|a d IH]; intros [|b z] Hd L; try discriminate; [unfold dot; cbn; lra|]. cbn [vdiv vmap2]. fold (vdiv z d).
    rewrite dot_cons. cbn in L. assert (0 < a) by (apply (Hd 0%nat); cbn; lia). assert (0 < / a) by now apply Rinv_0_lt_compat.
    pose proof (IH z ltac:(intros i Hi; apply (Hd (S i)); cbn; lia) ltac:(lia)). unfold Rdiv. pose proof (Rle_0_sqr b) as Sq. unfold Rsqr in Sq. rnum. unfold Rdiv. nra. }
  induction n as [|n IH]; intros d z Ld Hd Hz S.
  - destruct z; [reflexivity|discriminate].
  - destruct d as [|a d]; [discriminate|]. destruct z as [|b z]; [discriminate|]. cbn in Ld, Hz.
    assert (Pa : 0 < a) by (apply (Hd 0%nat); lia). cbn [vdiv vmap2] in S. fold (vdiv z d) in S. rewrite dot_cons in S. rnum.
    pose proof (N d z ltac:(intros i Hi; apply (Hd (Datatypes.S i)); lia) ltac:(lia)) as N1. assert (Ia : 0 < / a) by now apply Rinv_0_lt_compat.
    pose proof (Rle_0_sqr b) as Sq. unfold Rsqr in Sq.
    assert (B2 : b * b <= 0). { unfold Rdiv in S. assert (/ a * (b * b) <= 0) by nra. nra. }
    assert (B0 : b = 0) by nra. subst b. change (0 :: z = 0 :: vzeros n). f_equal. apply (IH d z); try lia; [intros i Hi; apply (Hd (Datatypes.S i)); lia|]. unfold Rdiv in S. nra.
Qed.
Lemma well_posed_regular nz nineq neq Q G F A : shaped nz nineq neq Q G F A -> well_posed nz nineq neq Q G F A -> regular nz nineq neq Q G F A.
Proof.
  intros HS HW. constructor; [apply HW|apply HW|]. intros d x y z Ld Hd Lx Ly Lz E1 E2 E3.
  assert (LG : length (mv G x) = nineq) by (rewrite mv_length; apply HS). assert (LF : length (mv F z) = nineq) by (rewrite mv_length; apply HS).
  assert (PQ : 0 <= dot x (mv Q x)) by (destruct (vzeros_dec nz x Lx) as [->|E]; [rewrite dot_zeros_l; lra|]; now apply Rlt_le, (wp_Q _ _ _ _ _ _ _ HW)).
  rewrite E1, dot_vadd_r in PQ by (rewrite !vm_length; lia). rewrite !(dot_comm x) in PQ. rewrite (dot_vm neq nz), (dot_vm nineq nz) in PQ by (auto; apply HS).
  rewrite E2, dot_zeros_r in PQ. assert (Lv : length (vdiv z d) = nineq) by vlen.
  pose proof (f_equal (dot z) E3) as D. rewrite dot_zeros_r, !dot_vadd_r in D by vlen. pose proof (wp_F _ _ _ _ _ _ _ HW z Lz) as PF.
  apply (inv_weight_zero nineq d z); auto. lra.
Qed.
Lemma state_total la nz nineq neq Q G F A Q_LU S Rm d : lapack_ok la -> shaped nz nineq neq Q G F A -> well_posed nz nineq neq Q G F A ->
  kkt_state la nz nineq neq Q G F A Q_LU S Rm -> length d = nineq -> (forall i, (i < nineq)%nat -> 0 < vget d i) ->
  exists S', factor_kkt la nineq neq S Rm d = Ok S'.
Proof. intros HL HS HW. exact (state_regular la nz nineq neq Q G F A Q_LU S Rm d HL HS (well_posed_regular _ _ _ _ _ _ _ HS HW)). Qed.
Lemma pre_factor_total la nz nineq neq Q G F A : lapack_ok la -> shaped nz nineq neq Q G F A -> well_posed nz nineq neq Q G F A ->
  exists r, pre_factor_kkt la nz nineq neq Q G F A = Ok r.
Proof. intros HL HS HW. exact (pre_factor_regular la nz nineq neq Q G F A HL HS (well_posed_regular _ _ _ _ _ _ _ HS HW)). Qed.
