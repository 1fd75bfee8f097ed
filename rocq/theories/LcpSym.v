(** The solver commutes with rigid changes of the unknowns and reorderings of the constraints *)
From Coq Require Import List Arith ZArith Bool Reals Lia Lra Psatz Permutation.
From Verif Require Import Num Tensor RBase ResFacts LinAlg Lapack LapackSpec LuFacts PivFacts Pdipm Lcp KktSpec KktFacts KktFactor PdipmSpec PdipmFacts PdipmLoop SymSpec LcpBoost.
Import ListNotations.
Open Scope R_scope.

(** *** results *)
Lemma mapM_alike {A B C D} (R1 : A -> B -> Prop) (R2 : C -> D -> Prop) (f : A -> res C) (g : B -> res D) l m :
  (forall a b, R1 a b -> alike R2 (f a) (g b)) -> Forall2 R1 l m -> alike (Forall2 R2) (mapM f l) (mapM g m).
Proof.
  intros H F. induction F as [|a b l m Hab _ IH]; [constructor|]. cbn [mapM]. specialize (H a b Hab). destruct (f a), (g b); cbn [bind alike] in *; try contradiction; auto.
  destruct (mapM f l), (mapM g m); cbn [bind alike] in *; try contradiction; auto.
Qed.

(** *** isometries *)
Section Iso.
Variables (n : nat) (f : vecR -> vecR).
Hypothesis I : isometry n f.
Lemma iso_opp x : length x = n -> f (vopp x) = vopp (f x).
Proof. intros L. rewrite !vopp_scale. now apply (iso_scale _ _ I). Qed.
Lemma iso_sub x y : length x = n -> length y = n -> f (vsub x y) = vsub (f x) (f y).
Proof. intros L1 L2. rewrite !vsub_vadd. rewrite (iso_add _ _ I) by (rewrite ?vopp_length; auto). now rewrite iso_opp. Qed.
Lemma iso_zeros : f (vzeros n) = vzeros n.
Proof.
  replace (vzeros n : vecR) with (vscale 0 (vzeros n : vecR)) by apply vscale_zeros. rewrite (iso_scale _ _ I) by apply vzeros_length.
  rewrite vscale_0. rewrite (iso_len _ _ I) by apply vzeros_length. symmetry. apply vscale_zeros.
Qed.
Lemma iso_inj x y : length x = n -> length y = n -> f x = f y -> x = y.
Proof.
  intros L1 L2 E. apply vsub_diag; [congruence|]. assert (Ls : length (vsub x y) = n) by (rewrite vsub_length; lia). rewrite L1, <- Ls. apply dot_self_zero.
  rewrite <- (iso_dot _ _ I) by auto. rewrite iso_sub, E, vsub_self by auto. apply dot_zeros_l.
Qed.
Lemma iso_zero_inv x : length x = n -> f x = vzeros n -> x = vzeros n.
Proof. intros L E. apply iso_inj; auto; [apply vzeros_length|]. now rewrite iso_zeros. Qed.
Lemma iso_norm x : length x = n -> norm2 (f x) = norm2 x.
Proof. intros L. unfold norm2. now rewrite (iso_dot _ _ I). Qed.
Lemma iso_eq_by_dot a b : length a = n -> length b = n -> (forall x, length x = n -> dot (f x) a = dot (f x) b) -> a = b.
Proof. intros La Lb H. apply (eq_by_dot n); auto. intros z Lz. destruct (iso_onto _ _ I z Lz) as (x & Lx & <-). now apply H. Qed.
End Iso.

(** *** reorderings *)
Section Ord.
Variables (n : nat) (P : list nat).
Hypothesis HP : ordering n P.
Lemma ord_len : length P = n.
Proof. rewrite (Permutation_length HP). apply seq_length. Qed.
Lemma ord_lt i : In i P -> (i < n)%nat.
Proof. intros H. apply (Permutation_in _ HP) in H. apply in_seq in H. lia. Qed.
Lemma reorder_length (z : vecR) : length (reorder P z) = n.
Proof. unfold reorder. rewrite map_length. apply ord_len. Qed.
Lemma map_vget_id (z : vecR) : map (vget z) (seq 0 (length z)) = z.
Proof. induction z as [|a z IH]; [reflexivity|]. cbn [length seq map]. f_equal. rewrite <- seq_shift, map_map. exact IH. Qed.
Lemma reorder_perm (z : vecR) : length z = n -> Permutation (reorder P z) z.
Proof. intros L. unfold reorder. rewrite <- (map_vget_id z) at 2. rewrite L. apply Permutation_map, HP. Qed.
Lemma map_in_vget {B} (f g : nat -> B) : (forall i, (i < n)%nat -> f i = g i) -> map f P = map g P.
Proof. intros H. apply map_ext_in. intros i Hi. apply H. now apply ord_lt. Qed.
Lemma reorder_map2 (f : R -> R -> R) x y : length x = n -> length y = n -> reorder P (vmap2 f x y) = vmap2 f (reorder P x) (reorder P y).
Proof.
  intros Lx Ly. unfold reorder. transitivity (map (fun i => f (vget x i) (vget y i)) P).
  - apply map_in_vget. intros i Hi. apply vget_map2; lia.
  - generalize P. clear. intros l. induction l as [|i l IH]; [reflexivity|]. cbn [map vmap2]. f_equal. exact IH.
Qed.
Lemma reorder_map (f : R -> R) x : length x = n -> reorder P (map f x) = map f (reorder P x).
Proof.
  intros Lx. unfold reorder. rewrite map_map. apply map_in_vget. intros i Hi. apply vget_map. lia.
Qed.
Lemma reorder_const (a : R) : reorder P (repeat a n) = repeat a n.
Proof.
  unfold reorder. rewrite (map_in_vget _ (fun _ => a)) by (intros i Hi; now apply vget_repeat). rewrite <- ord_len. generalize P. clear. intros l. induction l; cbn; auto. now f_equal.
Qed.
Lemma vsum_perm (x y : vecR) : Permutation x y -> vsum x = vsum y.
Proof. unfold vsum. intros H. induction H; cbn [fold_right]; rnum; try lra. Qed.
Lemma reorder_dot x y : length x = n -> length y = n -> dot (reorder P x) (reorder P y) = dot x y.
Proof. intros Lx Ly. unfold dot, vmul. rewrite <- reorder_map2 by auto. apply vsum_perm, reorder_perm. rewrite vmap2_length. lia. Qed.
Lemma index_of_in (l : list nat) i : In i l -> exists j, (j < length l)%nat /\ nth j l 0%nat = i.
Proof. intros H. destruct (In_nth _ _ 0%nat H) as (j & Hj & E). eauto. Qed.
Lemma reorder_iso : isometry n (reorder P).
Proof.
  constructor.
  - intros x _. apply reorder_length.
  - intros x y Lx Ly. now apply reorder_map2.
  - intros k x Lx. now apply reorder_map.
  - intros x y. apply reorder_dot.
  - intros y Ly. (* the inverse reordering *)
    set (Q := map (fun i => match find (fun j => Nat.eqb (nth j P 0%nat) i) (seq 0 n) with Some j => j | None => 0%nat end) (seq 0 n)).
    exists (reorder Q y). split; [unfold reorder, Q; now rewrite !map_length, seq_length|].
    apply vext; [rewrite reorder_length; lia|]. intros k Hk. rewrite reorder_length in Hk. unfold reorder at 1. unfold vget at 1.
    rewrite (nth_indep _ _ (vget (reorder Q y) 0)) by (rewrite map_length, ord_len; auto). rewrite (map_nth (vget (reorder Q y))).
    assert (HN : NoDup P) by (apply (Permutation_NoDup (Permutation_sym HP)), seq_NoDup).
    set (i := nth k P 0%nat). assert (Hi : (i < n)%nat) by (apply ord_lt, nth_In; rewrite ord_len; auto).
    unfold reorder, Q. rewrite map_map. rewrite vget_seq by auto.
    destruct (find _ _) as [j|] eqn:Ef.
    + apply find_some in Ef. destruct Ef as [Hj Ej]. apply Nat.eqb_eq in Ej. apply in_seq in Hj.
      assert (j = k). { apply (proj1 (NoDup_nth P 0%nat) HN); rewrite ?ord_len; auto; lia. } now subst.
    + exfalso. pose proof (find_none _ _ Ef k) as Hno. cbv beta in Hno. fold i in Hno. rewrite Nat.eqb_refl in Hno. discriminate Hno. apply in_seq. lia.
Qed.
Lemma vmin_perm (x y : vecR) : Permutation x y -> vmin x = vmin y.
Proof.
  intros H. destruct x as [|a x]; [apply Permutation_nil in H; now subst|].
  assert (Ny : y <> []) by (intros ->; apply Permutation_sym, Permutation_nil in H; discriminate).
  apply Rle_antisym; apply vmin_le; [eapply Permutation_in; [apply Permutation_sym; exact H|now apply vmin_in]|eapply Permutation_in; [exact H|apply vmin_in; discriminate]].
Qed.
Lemma vmax_in (x : vecR) : x <> [] -> In (vmax x) x.
Proof.
  destruct x as [|a x]; [congruence|]. intros _. cbn [vmax]. revert a. induction x as [|b x IH]; intros a; [now left|]. cbn [fold_left].
  destruct (a <? b)%num; destruct (IH b) as [E|E], (IH a) as [E'|E']; cbn [In]; auto.
Qed.
Lemma vmax_perm (x y : vecR) : Permutation x y -> vmax x = vmax y.
Proof.
  intros H. destruct x as [|a x]; [apply Permutation_nil in H; now subst|].
  assert (Ny : y <> []) by (intros ->; apply Permutation_sym, Permutation_nil in H; discriminate).
  apply Rle_antisym; apply vmax_ge; [eapply Permutation_in; [exact H|apply vmax_in; discriminate]|eapply Permutation_in; [apply Permutation_sym; exact H|now apply vmax_in]].
Qed.
Lemma step1_reorder cap v dv : length v = n -> length dv = n -> step1 cap (reorder P v) (reorder P dv) = step1 cap v dv.
Proof. intros L1 L2. unfold step1. rewrite <- reorder_map2 by auto. apply vmin_perm, reorder_perm. rewrite vmap2_length. lia. Qed.
Lemma shift_reorder v : length v = n -> shift_pos (reorder P v) = reorder P (shift_pos v).
Proof.
  intros L. unfold shift_pos. cbv zeta. rewrite (vmin_perm _ _ (reorder_perm v L)). destruct (_ <=? _)%num; [|reflexivity]. symmetry. now apply reorder_map.
Qed.
End Ord.

(** *** when the factorisations succeed *)
Definition schur_free (nz nineq neq : nat) (Q G F A : matR) (d : vecR) : Prop :=
  forall x y z, length x = nz -> length y = neq -> length z = nineq ->
    mv Q x = vadd (vm nz y A) (vm nz z G) -> mv A x = vzeros neq ->
    vadd (vadd (mv G x) (mv F z)) (vdiv z d) = vzeros nineq -> y = vzeros neq /\ z = vzeros nineq.
Definition equality_free (nz neq : nat) (Q A : matR) : Prop :=
  forall x y, length x = nz -> length y = neq -> mv Q x = vm nz y A -> mv A x = vzeros neq -> y = vzeros neq.

Lemma lu_mul_zeros n f : lu_mul n f (vzeros n) = vzeros n.
Proof. unfold lu_mul. rewrite !mv_zeros, square_length. reflexivity. Qed.
Lemma apply_piv_zeros n (f : lu R) : packed n f -> apply_piv 0 (snd f) (vzeros n : vecR) = vzeros n.
Proof.
  intros Hp. pose proof (packed_piv n f Hp) as HP. 
  replace (vzeros n : vecR) with (vadd (vzeros n : vecR) (vzeros n)) at 1 by (apply vadd_zeros_l, vzeros_length).
  rewrite (apply_piv_vadd n) by (auto; apply vzeros_length). set (v := apply_piv 0 (snd f) (vzeros n)).
  assert (E : v = vadd v v). { unfold v at 1. replace (vzeros n : vecR) with (vadd (vzeros n : vecR) (vzeros n)) at 1 by (apply vadd_zeros_l, vzeros_length). apply (apply_piv_vadd n); auto; apply vzeros_length. }
  assert (L : length v = n) by (unfold v; rewrite apply_piv_length; apply vzeros_length).
  rewrite <- E. apply vext; [rewrite vzeros_length; exact L|]. intros i Hi. pose proof (f_equal (fun v => vget v i) E) as Ei. cbv beta in Ei. rewrite vget_vadd in Ei by auto. rewrite vget_zeros. lra.
Qed.
Lemma factors_nonsingular n A f : factors n A f -> nonsingular n A.
Proof. intros H x Lx E. apply (factors_inj n A f); auto; [apply vzeros_length|]. rewrite E, mv_zeros. f_equal. 
  pose proof (f_equal (@length R) E) as L. rewrite mv_length, vzeros_length in L. auto. Qed.

Section Free.
Variable la : lapack R.
Hypothesis HL : lapack_ok la.
Variables (nz nineq neq : nat) (Q G F A : matR).
Hypothesis HS : shaped nz nineq neq Q G F A.
Lemma schur_factors_free d S : factors_schur nz nineq neq Q G F A d S -> schur_free nz nineq neq Q G F A d.
Proof.
  intros [HP HF] x y z Lx Ly Lz EQ EA EG. specialize (HF x y z Lx Ly Lz EQ). unfold vec, mat in *. rewrite EA, EG in HF.
  assert (Z : (vzeros neq ++ vzeros nineq : vecR) = vzeros (neq + nineq)) by (unfold vzeros; now rewrite repeat_app).
  rewrite Z, apply_piv_zeros in HF by auto. rewrite <- (lu_mul_zeros (neq + nineq) S) in HF. destruct S as [D piv].
  apply lu_mul_inj in HF; [|apply HP|intros i Hi; now apply HP|apply vzeros_length|rewrite app_length; unfold vec in *; lia].
  rewrite <- Z in HF. symmetry in HF. pose proof (f_equal (firstn neq) HF) as H1. pose proof (f_equal (skipn neq) HF) as H2.
  rewrite !firstn_exact in H1 by (auto; apply vzeros_length). rewrite !skipn_exact in H2 by (auto; apply vzeros_length). auto.
Qed.
Lemma free_factor Q_LU S Rm d : kkt_state la nz nineq neq Q G F A Q_LU S Rm -> length d = nineq -> schur_free nz nineq neq Q G F A d ->
  exists S', factor_kkt la nineq neq S Rm d = Ok S'.
Proof.
  intros (HQ & LU_A & HA & ERm & _) Ld Hf. unfold factor_kkt. cbv zeta. assert (Ld' : length (map (fun x => 1 / x) d) = nineq) by now rewrite map_length.
  assert (WD : wf nineq nineq (mdiag (map (fun x => 1 / x) d))) by (rewrite <- Ld' at 1 2; apply wf_mdiag).
  pose proof (wf_Rm la nz nineq neq Q G F A HS Q_LU LU_A) as WR. rewrite <- ERm in WR.
  set (TM := madd (mdiag (map (fun x => 1 / x) d)) Rm).
  destruct (getrf_total la HL nineq TM) as [f Ef]; [now apply wf_madd| |rnum; fold TM; rewrite Ef; cbn [bind]; eexists; reflexivity].
  intros z Lz E. unfold TM in E. rewrite (mv_madd nineq nineq), mv_mdiag in E by (auto; lia). rewrite ERm in E. rewrite (mv_Rm la nz nineq neq Q G F A HS Q_LU LU_A HA) in E by auto.
  destruct (C_T la HL nz nineq neq Q G F A HS Q_LU HQ LU_A HA z Lz) as [Ly EC].
  set (y := mv (getrs_mat la LU_A neq nineq (mtr neq (B la nz neq G A Q_LU))) z) in *.
  rewrite (mv_GG la HL nz nineq neq Q G F A HS Q_LU HQ), (mv_B la HL nz nineq neq Q G F A HS Q_LU HQ) in E by auto.
  rewrite (mv_C la HL nz nineq neq Q G F A HS Q_LU HQ) in EC by auto. cbv beta in *.
  set (u := la_getrs la Q_LU (vm nz z G)) in *. set (v := la_getrs la Q_LU (vm nz y A)) in *.
  assert (Lu : length u = nz) by (apply (Qi_len la HL nz nineq neq Q G F A HS Q_LU HQ); apply vm_length).
  assert (Lv : length v = nz) by (apply (Qi_len la HL nz nineq neq Q G F A HS Q_LU HQ); apply vm_length).
  assert (Eu : mv Q u = vm nz z G) by (apply (Q_Qi la HL nz nineq neq Q G F A HS Q_LU HQ); apply vm_length).
  assert (Ev : mv Q v = vm nz y A) by (apply (Q_Qi la HL nz nineq neq Q G F A HS Q_LU HQ); apply vm_length).
  destruct HS as [_ [LG _] [LF _] [LA _]].
  destruct (Hf (vsub u v) (vopp y) z) as [_ Hz]; auto; [rewrite vsub_length; lia|now rewrite vopp_length| | |].
  - rewrite mv_vsub by lia. rewrite Eu, Ev, vm_vopp, vsub_vadd. apply vadd_comm.
  - rewrite mv_vsub by lia. rewrite EC, vsub_self, mv_length. now rewrite LA.
  - rewrite <- E. rewrite mv_vsub by lia. assert (L1 : length (mv G u) = nineq) by (rewrite mv_length; exact LG). assert (L2 : length (mv G v) = nineq) by (rewrite mv_length; exact LG).
    assert (L3 : length (mv F z) = nineq) by (rewrite mv_length; exact LF). clear - Lz Ld L1 L2 L3. revert L1 L2 L3. generalize (mv G u), (mv G v), (mv F z).
    intros c b a Lc Lb La. apply vext; [vlen|]. intros i Hi. vlen.
    repeat (rewrite vget_vadd by vlen). rewrite !vget_vsub by vlen. rewrite vget_vdiv, vget_vmul, vget_vadd by vlen. rewrite (vget_map (fun x => 1 / x)) by lia. unfold Rdiv. ring.
Qed.
Lemma pre_factor_free r : pre_factor_kkt la nz nineq neq Q G F A = Ok r -> nonsingular nz Q /\ ((0 < neq)%nat -> equality_free nz neq Q A).
Proof.
  destruct r as [[QL S] Rm]. intros H. destruct (pre_factor_ok la nz nineq neq Q G F A QL S Rm HL HS H) as (HQ & LA & HA & _ & _).
  split; [exact (factors_nonsingular _ _ _ HQ)|]. intros _ x y Lx Ly E1 E2. apply (factors_nonsingular _ _ _ HA); auto.
  rewrite (mv_C la HL nz nineq neq Q G F A HS QL HQ) by auto. cbv beta. rewrite <- E1. rewrite <- (Qi_Q la HL nz nineq neq Q G F A HS QL HQ (mv Q x) x); auto. rewrite mv_length. apply HS.
Qed.
Lemma free_pre_factor : nonsingular nz Q -> ((0 < neq)%nat -> equality_free nz neq Q A) -> exists r, pre_factor_kkt la nz nineq neq Q G F A = Ok r.
Proof.
  intros NQ NA. unfold pre_factor_kkt. destruct (getrf_total la HL nz Q) as [QL EQ]; [apply HS|exact NQ|].
  rewrite EQ. cbn [bind]. cbv zeta. destruct (Nat.ltb_spec 0 neq) as [Z|Z]; [|eexists; reflexivity].
  assert (HQ : factors nz Q QL) by (apply (getrf_ok la HL); auto; apply HS).
  destruct (getrf_total la HL neq (C la nz neq A QL)) as [LA EA]; [apply (wf_C la nz nineq neq Q G F A HS)| |unfold C in EA; rewrite EA; cbn [bind]; eexists; reflexivity].
  intros y Ly E. rewrite (mv_C la HL nz nineq neq Q G F A HS QL HQ) in E by auto. cbv beta in E.
  apply (NA Z (la_getrs la QL (vm nz y A)) y); auto.
  - apply (Qi_len la HL nz nineq neq Q G F A HS QL HQ), vm_length.
  - apply (Q_Qi la HL nz nineq neq Q G F A HS QL HQ), vm_length.
Qed.
(** the Newton system has one solution *)
Lemma kkt_unique d rx rs rz ry dx ds dz dy dx' ds' dz' dy' : schur_free nz nineq neq Q G F A d -> nonsingular nz Q -> length d = nineq -> (forall i, (i < nineq)%nat -> vget d i <> 0) ->
  kkt_solution nz nineq neq Q G F A d rx rs rz ry dx ds dz dy -> kkt_solution nz nineq neq Q G F A d rx rs rz ry dx' ds' dz' dy' ->
  dx = dx' /\ ds = ds' /\ dz = dz' /\ dy = dy'.
Proof.
  intros Hf NQ Ld Hd [K1 K2 K3 K4 Ex Es Ez Ey] [K1' K2' K3' K4' Ex' Es' Ez' Ey'].
  pose proof HS as [[[LQ _] _] [LG _] [LF _] [LA _]].
  assert (D : forall i, (i < nineq)%nat -> vget ds i - vget ds' i = - (vget dz i - vget dz' i) / vget d i).
  { intros i Hi. pose proof (f_equal (fun v => vget v i) Es) as E1. pose proof (f_equal (fun v => vget v i) Es') as E2. cbv beta in E1, E2. rewrite <- E2 in E1.
    rewrite !vget_vadd, !vget_vmul in E1 by vlen. apply (Rmult_eq_reg_l (vget d i)); [|now apply Hd]. field_simplify; [lra|now apply Hd]. }
  destruct (Hf (vsub dx dx') (vsub dy' dy) (vsub dz' dz)) as [Hy Hz]; try (rewrite vsub_length; lia).
  - rewrite mv_vsub by lia. rewrite !vsub_vadd, !vm_vadd, !vm_vopp by (rewrite vopp_length; lia). rewrite <- !vsub_vadd.
    pose proof (eq_trans Ex (eq_sym Ex')) as E. assert (L1 : length (mv Q dx) = nz) by (rewrite mv_length; exact LQ). assert (L2 : length (mv Q dx') = nz) by (rewrite mv_length; exact LQ).
    pose proof (vm_length nz dz G). pose proof (vm_length nz dz' G). pose proof (vm_length nz dy A). pose proof (vm_length nz dy' A).
    clear - E L1 L2 H H0 H1 H2. revert E L1 L2 H H0 H1 H2. generalize (mv Q dx), (mv Q dx'), (vm nz dz G), (vm nz dz' G), (vm nz dy A), (vm nz dy' A).
    intros a b c d e f E La Lb Lc Ld Le Lf. apply vext; [vlen|]. intros i Hi. assert (Hi' : (i < nz)%nat) by vlen. pose proof (f_equal (fun v => vget v i) E) as Ei. cbv beta in Ei.
    repeat (rewrite vget_vadd in Ei by vlen). rewrite vget_vadd, !vget_vsub by vlen. lra.
  - rewrite mv_vsub by lia. rewrite Ey, Ey', vsub_self. f_equal. rewrite <- Ey, mv_length. exact LA.
  - rewrite !mv_vsub by lia. pose proof (eq_trans Ez (eq_sym Ez')) as E.
    assert (L1 : length (mv G dx) = nineq) by (rewrite mv_length; exact LG). assert (L2 : length (mv G dx') = nineq) by (rewrite mv_length; exact LG).
    assert (L3 : length (mv F dz) = nineq) by (rewrite mv_length; exact LF). assert (L4 : length (mv F dz') = nineq) by (rewrite mv_length; exact LF).
    apply vext; [rewrite !vadd_length, !vsub_length, vdiv_length, vsub_length, vzeros_length; unfold vec in *; lia|]. intros i Hi.
    assert (Hi' : (i < nineq)%nat). { rewrite !vadd_length, !vsub_length in Hi. unfold vec in *. lia. } specialize (D i Hi').
    pose proof (f_equal (fun v => vget v i) E) as Ei. cbv beta in Ei. revert Ei. rewrite vget_zeros. repeat (rewrite vget_vadd by vlen). repeat (rewrite vget_vsub by vlen). repeat (rewrite vget_vadd by vlen).
    rewrite vget_vdiv by vlen. rewrite vget_vsub by vlen. intros Ei. specialize (Hd i Hi'). unfold Rdiv in *. lra.
  - assert (Edz : dz = dz'). { symmetry. apply vsub_diag; [congruence|]. rewrite K3'. exact Hz. }
    assert (Edy : dy = dy'). { symmetry. apply vsub_diag; [congruence|]. rewrite K4'. exact Hy. }
    subst dz' dy'. split; [|split; [|auto]].
    + apply vsub_diag; [congruence|]. rewrite K1. apply NQ; [rewrite vsub_length; lia|]. rewrite mv_vsub by lia.
      assert (L1 : length (mv Q dx) = nz) by (rewrite mv_length; exact LQ). assert (L2 : length (mv Q dx') = nz) by (rewrite mv_length; exact LQ).
      assert (EQ : mv Q dx = mv Q dx').
      { pose proof (eq_trans Ex (eq_sym Ex')) as E. rewrite !vadd_assoc in E. pose proof (vm_length nz dz G). pose proof (vm_length nz dy A). clear - E L1 L2 H H0. revert E L1 L2 H H0. generalize (mv Q dx), (mv Q dx'), (vm nz dz G), (vm nz dy A).
        intros a b c d E La Lb Lc Ld. apply vext; [vlen|]. intros i Hi. assert (Hi' : (i < nz)%nat) by vlen. pose proof (f_equal (fun v => vget v i) E) as Ei. cbv beta in Ei. repeat (rewrite vget_vadd in Ei by vlen). lra. }
      rewrite EQ, vsub_self. now f_equal.
    + apply vext; [congruence|]. intros i Hi. specialize (D i ltac:(lia)). unfold Rdiv in D. lra.
Qed.
End Free.

(** *** transformed problems *)
Section Sym.
Variable la : lapack R.
Hypothesis HL : lapack_ok la.
Variables nz nineq neq : nat.
Hypothesis Hn : (0 < nineq)%nat.
Variables (fu fv : vecR -> vecR) (P : list nat).
Hypothesis Iu : isometry nz fu.
Hypothesis Iv : isometry neq fv.
Hypothesis HP : ordering nineq P.
Notation fp := (reorder P).
Let Ip : isometry nineq fp := reorder_iso nineq P HP.
Notation transformed := (transformed nz nineq neq fu P fv).
Notation fit := (transform fu P fv).

Section Pr.
Variables pr pr' : prob R.
Hypothesis Hsz : sized nz nineq neq pr.
Hypothesis Hsz' : sized nz nineq neq pr'.
Hypothesis HT : transformed pr pr'.
Let WG : wf nineq nz (pr_G pr). Proof. apply Hsz. Qed.
Let WG' : wf nineq nz (pr_G pr'). Proof. apply Hsz'. Qed.
Let WA : wf neq nz (pr_A pr). Proof. apply Hsz. Qed.
Let WA' : wf neq nz (pr_A pr'). Proof. apply Hsz'. Qed.
Let LG x : length (mv (pr_G pr) x) = nineq. Proof. rewrite mv_length. apply WG. Qed.
Let LA x : length (mv (pr_A pr) x) = neq. Proof. rewrite mv_length. apply WA. Qed.
Let LQ x : length (mv (pr_Q pr) x) = nz. Proof. rewrite mv_length. apply Hsz. Qed.
Let LF x : length (mv (pr_F pr) x) = nineq. Proof. rewrite mv_length. apply Hsz. Qed.
Lemma tr_GT z : length z = nineq -> vm nz (fp z) (pr_G pr') = fu (vm nz z (pr_G pr)).
Proof.
  intros Lz. apply (iso_eq_by_dot nz fu Iu); [apply vm_length|apply (iso_len _ _ Iu), vm_length|]. intros x Lx.
  rewrite (iso_dot _ _ Iu) by (auto; apply vm_length). rewrite dot_comm, (dot_vm nineq nz) by (first [assumption|now apply (iso_len _ _ Ip)|now apply (iso_len _ _ Iu)]).
  rewrite (tr_G _ _ _ _ _ _ _ _ HT) by auto. rewrite (iso_dot _ _ Ip) by auto. rewrite (dot_comm x), (dot_vm nineq nz) by auto. reflexivity.
Qed.
Lemma tr_AT y : length y = neq -> vm nz (fv y) (pr_A pr') = fu (vm nz y (pr_A pr)).
Proof.
  intros Ly. apply (iso_eq_by_dot nz fu Iu); [apply vm_length|apply (iso_len _ _ Iu), vm_length|]. intros x Lx.
  rewrite (iso_dot _ _ Iu) by (auto; apply vm_length). rewrite dot_comm, (dot_vm neq nz) by (first [assumption|now apply (iso_len _ _ Iv)|now apply (iso_len _ _ Iu)]).
  rewrite (tr_A _ _ _ _ _ _ _ _ HT) by auto. rewrite (iso_dot _ _ Iv) by auto. rewrite (dot_comm x), (dot_vm neq nz) by auto. reflexivity.
Qed.
Lemma fp_vdiv x y : length x = nineq -> length y = nineq -> fp (vdiv x y) = vdiv (fp x) (fp y).
Proof. apply (reorder_map2 nineq P HP). Qed.
Lemma fp_vmul x y : length x = nineq -> length y = nineq -> fp (vmul x y) = vmul (fp x) (fp y).
Proof. apply (reorder_map2 nineq P HP). Qed.
Lemma kkt_transformed d rx rs rz ry dx ds dz dy : length d = nineq -> length rx = nz -> length rs = nineq -> length rz = nineq -> length ry = neq ->
  kkt_solution nz nineq neq (pr_Q pr) (pr_G pr) (pr_F pr) (pr_A pr) d rx rs rz ry dx ds dz dy ->
  kkt_solution nz nineq neq (pr_Q pr') (pr_G pr') (pr_F pr') (pr_A pr') (fp d) (fu rx) (fp rs) (fp rz) (fv ry) (fu dx) (fp ds) (fp dz) (fv dy).
Proof.
  intros Ld Lrx Lrs Lrz Lry [K1 K2 K3 K4 Ex Es Ez Ey]. constructor.
  - now apply (iso_len _ _ Iu).
  - now apply (iso_len _ _ Ip).
  - now apply (iso_len _ _ Ip).
  - now apply (iso_len _ _ Iv).
  - rewrite (tr_Q _ _ _ _ _ _ _ _ HT), tr_GT, tr_AT by auto. rewrite <- !(iso_add _ _ Iu) by (rewrite ?vadd_length, ?vm_length, ?LQ; lia). rewrite Ex. now apply (iso_opp nz).
  - rewrite <- fp_vmul by auto. rewrite <- (iso_add _ _ Ip) by (rewrite ?vmul_length; lia). rewrite Es. now apply (iso_opp nineq).
  - rewrite (tr_G _ _ _ _ _ _ _ _ HT), (tr_F _ _ _ _ _ _ _ _ HT) by auto. rewrite <- (iso_add _ _ Ip) by auto. rewrite <- (iso_sub nineq) by (auto; rewrite vadd_length, LG; lia). rewrite Ez. now apply (iso_opp nineq).
  - rewrite (tr_A _ _ _ _ _ _ _ _ HT) by auto. rewrite Ey. now apply (iso_opp neq).
Qed.
Lemma free_transformed d : length d = nineq -> schur_free nz nineq neq (pr_Q pr) (pr_G pr) (pr_F pr) (pr_A pr) d <-> schur_free nz nineq neq (pr_Q pr') (pr_G pr') (pr_F pr') (pr_A pr') (fp d).
Proof.
  intros Ld. split; intros H x y z Lx Ly Lz.
  - destruct (iso_onto _ _ Iu x Lx) as (x0 & Lx0 & <-). destruct (iso_onto _ _ Iv y Ly) as (y0 & Ly0 & <-). destruct (iso_onto _ _ Ip z Lz) as (z0 & Lz0 & <-).
    rewrite (tr_Q _ _ _ _ _ _ _ _ HT), (tr_G _ _ _ _ _ _ _ _ HT), (tr_A _ _ _ _ _ _ _ _ HT), (tr_F _ _ _ _ _ _ _ _ HT), tr_GT, tr_AT by auto. rewrite <- fp_vdiv by auto.
    rewrite <- !(iso_add _ _ Iu) by (rewrite ?vm_length; auto). rewrite <- !(iso_add _ _ Ip) by (rewrite ?vadd_length, ?vdiv_length, ?LG, ?LF; lia).
    intros E1 E2 E3. apply (iso_inj nz fu Iu) in E1; [|auto|rewrite vadd_length, !vm_length; lia]. apply (iso_zero_inv neq fv Iv) in E2; [|auto].
    apply (iso_zero_inv nineq fp Ip) in E3; [|rewrite !vadd_length, vdiv_length, LG, LF; lia]. destruct (H x0 y0 z0) as [-> ->]; auto. split; [apply (iso_zeros neq fv Iv)|apply (iso_zeros nineq fp Ip)].
  - intros E1 E2 E3. destruct (H (fu x) (fv y) (fp z)) as [Hy Hz]; try (now apply (iso_len _ _ Iu)); try (now apply (iso_len _ _ Iv)); try (now apply (iso_len _ _ Ip)).
    + rewrite (tr_Q _ _ _ _ _ _ _ _ HT), tr_GT, tr_AT, E1 by auto. apply (iso_add _ _ Iu); apply vm_length.
    + rewrite (tr_A _ _ _ _ _ _ _ _ HT), E2 by auto. apply (iso_zeros neq fv Iv).
    + rewrite (tr_G _ _ _ _ _ _ _ _ HT), (tr_F _ _ _ _ _ _ _ _ HT) by auto. rewrite <- fp_vdiv by auto. rewrite <- !(iso_add _ _ Ip) by (rewrite ?vadd_length, ?vdiv_length, ?LG, ?LF; lia).
      rewrite E3. apply (iso_zeros nineq fp Ip).
    + split; [now apply (iso_zero_inv neq fv Iv)|now apply (iso_zero_inv nineq fp Ip)].
Qed.
Lemma nonsing_transformed : nonsingular nz (pr_Q pr) <-> nonsingular nz (pr_Q pr').
Proof.
  split; intros H x Lx E.
  - destruct (iso_onto _ _ Iu x Lx) as (x0 & Lx0 & <-). rewrite (tr_Q _ _ _ _ _ _ _ _ HT) in E by auto. apply (iso_zero_inv nz fu Iu) in E; auto. rewrite (H x0 Lx0 E). apply (iso_zeros nz fu Iu).
  - apply (iso_zero_inv nz fu Iu); auto. apply H; [now apply (iso_len _ _ Iu)|]. rewrite (tr_Q _ _ _ _ _ _ _ _ HT), E by auto. apply (iso_zeros nz fu Iu).
Qed.
Lemma eqfree_transformed : equality_free nz neq (pr_Q pr) (pr_A pr) <-> equality_free nz neq (pr_Q pr') (pr_A pr').
Proof.
  split; intros H x y Lx Ly E1 E2.
  - destruct (iso_onto _ _ Iu x Lx) as (x0 & Lx0 & <-). destruct (iso_onto _ _ Iv y Ly) as (y0 & Ly0 & <-).
    rewrite (tr_Q _ _ _ _ _ _ _ _ HT), tr_AT in E1 by auto. rewrite (tr_A _ _ _ _ _ _ _ _ HT) in E2 by auto.
    apply (iso_inj nz fu Iu) in E1; [|auto|apply vm_length]. apply (iso_zero_inv neq fv Iv) in E2; auto. rewrite (H x0 y0) by auto. apply (iso_zeros neq fv Iv).
  - apply (iso_zero_inv neq fv Iv); auto. apply (H (fu x)); [now apply (iso_len _ _ Iu)|now apply (iso_len _ _ Iv)| |].
    + rewrite (tr_Q _ _ _ _ _ _ _ _ HT), tr_AT, E1 by auto. reflexivity.
    + rewrite (tr_A _ _ _ _ _ _ _ _ HT), E2 by auto. apply (iso_zeros neq fv Iv).
Qed.
(** the residuals *)
Variable it : iter R.
Hypothesis Hpt : point nz nineq neq it.
Lemma fit_point : point nz nineq neq (fit it).
Proof. destruct Hpt. constructor; cbn [transform i_x i_s i_z i_y]; [now apply (iso_len _ _ Iu)|apply (reorder_length nineq P HP)|apply (reorder_length nineq P HP)|now apply (iso_len _ _ Iv)]. Qed.
Lemma fit_stationarity : stationarity nz pr' (fit it) = fu (stationarity nz pr it).
Proof.
  destruct Hpt as [Lx Ls Lz Ly]. unfold stationarity. cbn [transform i_x i_s i_z i_y]. rewrite (tr_Q _ _ _ _ _ _ _ _ HT), (tr_p _ _ _ _ _ _ _ _ HT), tr_GT, tr_AT by auto.
  pose proof (sz_p _ _ _ _ Hsz). rewrite <- !(iso_add _ _ Iu) by (rewrite ?vadd_length, ?vm_length, ?LQ; lia). reflexivity.
Qed.
Lemma fit_inequality : inequality pr' (fit it) = fp (inequality pr it).
Proof.
  destruct Hpt as [Lx Ls Lz Ly]. unfold inequality. cbn [transform i_x i_s i_z i_y]. rewrite (tr_G _ _ _ _ _ _ _ _ HT), (tr_F _ _ _ _ _ _ _ _ HT), (tr_h _ _ _ _ _ _ _ _ HT) by auto.
  pose proof (sz_h _ _ _ _ Hsz). rewrite <- (iso_add _ _ Ip) by auto. rewrite <- !(iso_sub nineq) by (auto; rewrite ?vsub_length, ?vadd_length, ?LG, ?LF; lia). reflexivity.
Qed.
Lemma fit_equality : equality pr' (fit it) = fv (equality pr it).
Proof.
  destruct Hpt as [Lx Ls Lz Ly]. unfold equality. cbn [transform i_x i_s i_z i_y]. rewrite (tr_A _ _ _ _ _ _ _ _ HT), (tr_b _ _ _ _ _ _ _ _ HT) by auto.
  pose proof (sz_b _ _ _ _ Hsz). rewrite <- (iso_sub neq) by auto. reflexivity.
Qed.
Lemma fit_residual : residual nz pr' (fit it) = residual nz pr it.
Proof.
  unfold residual. rewrite fit_stationarity, fit_inequality, fit_equality. rewrite (iso_norm nz fu Iu), (iso_norm nineq fp Ip), (iso_norm neq fv Iv).
  - cbn [transform i_s i_z]. destruct Hpt. rewrite (iso_dot _ _ Ip) by auto. reflexivity.
  - exact (equality_length nz nineq neq Hn pr it Hsz).
  - exact (inequality_length nz nineq neq Hn pr it Hsz Hpt).
  - exact (stationarity_length nz nineq neq Hn pr it Hsz).
Qed.
End Pr.

(** *** batch elements *)
Record erel (e e' : elt R) : Prop := {
  er_ok : elt_ok la nz nineq neq e; er_ok' : elt_ok la nz nineq neq e';
  er_pr : transformed (e_pr e) (e_pr e');
  er_it : e_it e' = fit (e_it e) }.
Definition frel (e e' : elt R) : Prop := erel e e' /\ factored la nz nineq neq e /\ factored la nz nineq neq e'.

Lemma d_rel e e' : erel e e' -> d_of e' = fp (d_of e).
Proof. intros [[_ _ [_ Ls Lz _] _] _ _ E]. unfold d_of. rewrite E. cbn [transform i_s i_z]. symmetry. now apply fp_vdiv. Qed.
Lemma mu_rel e e' : erel e e' -> mu_of nineq e' = mu_of nineq e.
Proof. intros [[_ _ [_ Ls Lz _] _] _ _ E]. unfold mu_of. rewrite E. cbn [transform i_s i_z]. now rewrite (iso_dot _ _ Ip). Qed.
Lemma resid_rel e e' : erel e e' -> resid_of nz nineq neq e' = resid_of nz nineq neq e.
Proof.
  intros [Ho Ho' Ht E]. rewrite !(resid_of_eq la nz nineq neq Hn) by auto. rewrite E. apply fit_residual; auto; apply Ho || apply Ho'.
Qed.
Lemma factor_rel e e' : erel e e' ->
  alike frel (do SL <- factor_kkt la nineq neq (e_SLU e) (e_R e) (d_of e); Ok (elt_with_S e SL))
             (do SL <- factor_kkt la nineq neq (e_SLU e') (e_R e') (d_of e'); Ok (elt_with_S e' SL)).
Proof.
  intros Hr. pose proof Hr as [[Hsz Hst Hpt Hin] [Hsz' Hst' Hpt' Hin'] Ht E].
  pose proof (d_of_length nz nineq neq Hn e Hpt) as Ld. pose proof (d_of_length nz nineq neq Hn e' Hpt') as Ld'.
  assert (X : forall e S', sized nz nineq neq (e_pr e) -> kkt_state la nz nineq neq (pr_Q (e_pr e)) (pr_G (e_pr e)) (pr_F (e_pr e)) (pr_A (e_pr e)) (e_QLU e) (e_SLU e) (e_R e) ->
     length (d_of e) = nineq -> point nz nineq neq (e_it e) -> interior (e_it e) -> factor_kkt la nineq neq (e_SLU e) (e_R e) (d_of e) = Ok S' -> factored la nz nineq neq (elt_with_S e S')).
  { intros e0 S' Z1 Z2 Z3 Z4 Z5 Z6. destruct (state_factor la nz nineq neq _ _ _ _ _ _ _ _ _ HL (sz_mat _ _ _ _ Z1) Z2 Z3 Z6) as [Q1 Q2]. split; [constructor; auto|]. exact Q2. }
  destruct (factor_kkt la nineq neq (e_SLU e) (e_R e) (d_of e)) as [S1|er] eqn:E1; destruct (factor_kkt la nineq neq (e_SLU e') (e_R e') (d_of e')) as [S1'|er'] eqn:E1'; cbn [bind alike]; auto.
  - pose proof (X e S1 Hsz Hst Ld Hpt Hin E1) as F1. pose proof (X e' S1' Hsz' Hst' Ld' Hpt' Hin' E1') as F1'. split; [|auto]. destruct F1, F1'. constructor; auto.
  - pose proof (X e S1 Hsz Hst Ld Hpt Hin E1) as [_ F1]. apply schur_factors_free in F1.
    destruct (free_factor la HL nz nineq neq _ _ _ _ (sz_mat _ _ _ _ Hsz') _ _ _ (d_of e') Hst' Ld') as [S' ES']; [|congruence].
    rewrite (d_rel e e' Hr). apply (free_transformed _ _ Hsz Hsz' Ht); auto.
  - pose proof (X e' S1' Hsz' Hst' Ld' Hpt' Hin' E1') as [_ F1]. apply schur_factors_free in F1.
    destruct (free_factor la HL nz nineq neq _ _ _ _ (sz_mat _ _ _ _ Hsz) _ _ _ (d_of e) Hst Ld) as [S' ES']; [|congruence].
    apply (free_transformed _ _ Hsz Hsz' Ht); auto. rewrite <- (d_rel e e' Hr). exact F1.
Qed.
Definition fdir (d : dirs R) : dirs R := let '(dx, ds, dz, dy) := d in (fu dx, fp ds, fp dz, fv dy).
Definition dir_len (d : dirs R) : Prop := let '(dx, ds, dz, dy) := d in length dx = nz /\ length ds = nineq /\ length dz = nineq /\ length dy = neq.
Lemma solve_rel e e' rx rs rz ry : frel e e' -> length rx = nz -> length rs = nineq -> length rz = nineq -> length ry = neq ->
  solve_kkt la nz neq (e_QLU e') (d_of e') (pr_G (e_pr e')) (pr_A (e_pr e')) (e_SLU e') (fu rx) (fp rs) (fp rz) (fv ry) =
  fdir (solve_kkt la nz neq (e_QLU e) (d_of e) (pr_G (e_pr e)) (pr_A (e_pr e)) (e_SLU e) rx rs rz ry) /\
  dir_len (solve_kkt la nz neq (e_QLU e) (d_of e) (pr_G (e_pr e)) (pr_A (e_pr e)) (e_SLU e) rx rs rz ry).
Proof.
  intros (Hr & Hf & Hf') L1 L2 L3 L4. pose proof Hr as [[Hsz Hst Hpt Hin] [Hsz' Hst' Hpt' Hin'] Ht E].
  pose proof (d_of_length nz nineq neq Hn e Hpt) as Ld. pose proof (d_of_length nz nineq neq Hn e' Hpt') as Ld'.
  pose proof (solve_elt la HL nz nineq neq Hn e rx rs rz ry Hf L1 L2 L3 L4) as K.
  pose proof (solve_elt la HL nz nineq neq Hn e' (fu rx) (fp rs) (fp rz) (fv ry) Hf' (iso_len _ _ Iu _ L1) (iso_len _ _ Ip _ L2) (iso_len _ _ Ip _ L3) (iso_len _ _ Iv _ L4)) as K'.
  destruct (solve_kkt la nz neq (e_QLU e) _ _ _ _ _ _ _ _) as [[[dx ds] dz] dy]. destruct (solve_kkt la nz neq (e_QLU e') _ _ _ _ _ _ _ _) as [[[dx' ds'] dz'] dy'].
  split; [|destruct K; cbn; auto]. pose proof (kkt_transformed _ _ Hsz Hsz' Ht _ _ _ _ _ _ _ _ _ Ld L1 L2 L3 L4 K) as K2. rewrite <- (d_rel e e' Hr) in K2. cbn [fdir].
  destruct (kkt_unique nz nineq neq _ _ _ _ (sz_mat _ _ _ _ Hsz') (d_of e') _ _ _ _ _ _ _ _ _ _ _ _ (schur_factors_free _ _ _ _ _ _ _ _ _ (proj2 Hf')) (factors_nonsingular _ _ _ (proj1 Hst')) Ld'
     (fun i Hi => Rgt_not_eq _ _ (d_of_pos nz nineq neq Hn e' Hpt' Hin' i Hi)) K' K2) as (-> & -> & -> & ->). reflexivity.
Qed.
Lemma aff_rel e e' : frel e e' -> aff_dir la nz neq e' = fdir (aff_dir la nz neq e) /\ dir_len (aff_dir la nz neq e).
Proof.
  intros Hf. pose proof Hf as ([[Hsz Hst Hpt Hin] [Hsz' Hst' Hpt' Hin'] Ht E] & _). unfold aff_dir.
  rewrite !(r_x_eq nz nineq neq Hn), !r_z_eq, !(r_y_eq nz nineq neq Hn) by auto. rewrite E. rewrite (fit_stationarity _ _ Hsz Hsz' Ht), (fit_inequality _ _ Hsz Ht), (fit_equality _ _ Hsz Ht) by auto.
  cbn [transform i_z]. apply solve_rel; auto; [now apply (stationarity_length nz nineq neq Hn)|apply Hpt|now apply (inequality_length nz nineq neq Hn)|now apply (equality_length nz nineq neq Hn)].
Qed.
Lemma cor_rel e e' aff a : frel e e' -> dir_len aff ->
  cor_dir la nz nineq neq e' (fdir aff) a = fdir (cor_dir la nz nineq neq e aff a) /\ dir_len (cor_dir la nz nineq neq e aff a).
Proof.
  intros Hf. pose proof Hf as (Hr & _). pose proof Hr as [[Hsz Hst Hpt Hin] [Hsz' Hst' Hpt' Hin'] Ht E]. destruct aff as [[[dx ds] dz] dy]. intros (L1 & L2 & L3 & L4). pose proof Hpt as [_ Ls Lz _].
  unfold cor_dir. cbn [fdir]. cbv zeta. rewrite (mu_rel _ _ Hr). rewrite E. cbn [transform i_s i_z].
  rewrite <- !(iso_scale _ _ Ip), <- !(iso_add _ _ Ip) by (rewrite ?vscale_length; auto). rewrite !(iso_dot _ _ Ip) by (rewrite ?vadd_length, ?vscale_length; lia).
  rewrite <- fp_vmul by auto. rewrite <- (reorder_map nineq P HP) by (rewrite vmul_length; lia). rewrite <- fp_vdiv by (rewrite ?map_length, ?vmul_length; lia).
  rewrite <- (iso_zeros nz fu Iu) at 1. rewrite <- (iso_zeros neq fv Iv) at 1. rewrite <- (iso_zeros nineq fp Ip) at 1.
  apply solve_rel; auto; try apply vzeros_length. rewrite vdiv_length, map_length, vmul_length. lia.
Qed.

(** *** step lengths *)
Definition prel (p p' : elt R * dirs R) : Prop := frel (fst p) (fst p') /\ snd p' = fdir (snd p) /\ dir_len (snd p).
Definition vrel (p p' : vecR * vecR) : Prop := length (fst p) = nineq /\ length (snd p) = nineq /\ p' = (fp (fst p), fp (snd p)).
Lemma get_step_rel l l' : Forall2 vrel l l' -> get_step l' = get_step l.
Proof.
  intros H. unfold get_step. assert (Ec : step_cap l' = step_cap l).
  { unfold step_cap. cbv zeta. replace (vmax (flat_map (fun '(v, dv) => ratios v dv) l')) with (vmax (flat_map (fun '(v, dv) => ratios v dv) l)); [reflexivity|]. apply vmax_perm.
    induction H as [|[v dv] p' l l' (L1 & L2 & ->) _ IH]; [constructor|]. cbn [flat_map fst snd] in *. apply Permutation_app; auto. unfold ratios. rewrite <- (reorder_map2 nineq P HP) by auto.
    apply Permutation_sym, (reorder_perm nineq P HP). rewrite vmap2_length. lia. }
  rewrite Ec. cbv zeta. generalize (step_cap l). intros cap. clear Ec. induction H as [|[v dv] p' l l' (L1 & L2 & ->) _ IH]; [reflexivity|]. cbn [map fst snd] in *. f_equal; [|exact IH]. now apply (step1_reorder nineq).
Qed.
Lemma alphas_rel k l l' : Forall2 prel l l' -> alphas k l' = alphas k l.
Proof.
  intros H. unfold alphas. f_equal.
  - apply get_step_rel. induction H as [|[e d] [e' d'] l l' (Hf & Ed & Ld) _ IH]; [constructor|]. cbn [map fst snd] in *. constructor; [|exact IH].
    destruct d as [[[dx ds] dz] dy]. subst d'. cbn [fdir] in *. destruct Hf as ([[_ _ [_ Ls Lz _] _] _ _ E] & _). destruct Ld as (_ & L2 & L3 & _). unfold vrel. cbn [fst snd]. rewrite E. cbn [transform i_z]. auto.
  - apply get_step_rel. induction H as [|[e d] [e' d'] l l' (Hf & Ed & Ld) _ IH]; [constructor|]. cbn [map fst snd] in *. constructor; [|exact IH].
    destruct d as [[[dx ds] dz] dy]. subst d'. cbn [fdir] in *. destruct Hf as ([[_ _ [_ Ls Lz _] _] _ _ E] & _). destruct Ld as (_ & L2 & L3 & _). unfold vrel. cbn [fst snd]. rewrite E. cbn [transform i_s]. auto.
Qed.
Lemma dirs_add_rel a b : dir_len a -> dir_len b -> dirs_add (fdir a) (fdir b) = fdir (dirs_add a b) /\ dir_len (dirs_add a b).
Proof.
  destruct a as [[[a1 a2] a3] a4], b as [[[b1 b2] b3] b4]. intros (A1 & A2 & A3 & A4) (B1 & B2 & B3 & B4). cbn [dirs_add fdir dir_len].
  rewrite !vadd_length. split; [|lia]. rewrite (iso_add _ _ Iu), !(iso_add _ _ Ip), (iso_add _ _ Iv) by auto. reflexivity.
Qed.
Lemma affs_rel es es' : Forall2 frel es es' -> Forall2 prel (batch_affs la nz neq es) (batch_affs la nz neq es').
Proof.
  intros H. unfold batch_affs. induction H as [|e e' es es' Hf _ IH]; [constructor|]. cbn [map]. constructor; [|exact IH]. destruct (aff_rel e e' Hf) as [E L]. split; [exact Hf|]. cbn [fst snd]. auto.
Qed.
Lemma dirs_rel es es' : Forall2 frel es es' -> Forall2 prel (batch_dirs la nz nineq neq es) (batch_dirs la nz nineq neq es').
Proof.
  intros H. unfold batch_dirs. cbv zeta. pose proof (affs_rel es es' H) as HA. rewrite (alphas_rel _ _ _ HA). generalize (alphas (fun a => a) (batch_affs la nz neq es)).
  intros al. revert al. induction HA as [|[e d] [e' d'] l l' (Hf & Ed & Ld) _ IH]; intros [|a al]; try constructor; [|apply IH]. cbn [fst snd] in *. subst d'.
  destruct (cor_rel e e' d a Hf Ld) as [Ec Lc]. destruct (dirs_add_rel d _ Ld Lc) as [Es Lt]. split; [exact Hf|]. cbn [fst snd]. rewrite Ec. auto.
Qed.
Lemma step_point e e' d a : frel e e' -> dir_len d -> fit (iter_step (e_it e) d a) = iter_step (e_it e') (fdir d) a.
Proof.
  intros ([[_ _ [Lx Ls Lz Ly] _] _ _ E] & _). destruct d as [[[dx ds] dz] dy]. intros (L1 & L2 & L3 & L4). rewrite E. cbn [iter_step fdir transform i_x i_s i_z i_y]. unfold transform. cbn [i_x i_s i_z i_y].
  rewrite (iso_add _ _ Iu), !(iso_add _ _ Ip), (iso_add _ _ Iv) by (rewrite ?vscale_length; auto). rewrite (iso_scale _ _ Iu), !(iso_scale _ _ Ip), (iso_scale _ _ Iv) by auto. reflexivity.
Qed.
Lemma batch_step_rel es es' es1 es1' ps ps' : Forall2 (good la nz nineq neq) ps es -> Forall2 (good la nz nineq neq) ps' es' ->
  factor_batch la nineq neq es = Ok es1 -> factor_batch la nineq neq es' = Ok es1' ->
  Forall2 frel es1 es1' -> Forall2 erel (batch_step la nz nineq neq es1) (batch_step la nz nineq neq es1').
Proof.
  intros G G' E1 E1' H. pose proof (step_good la HL nz nineq neq Hn ps es es1 G E1) as K. pose proof (step_good la HL nz nineq neq Hn ps' es' es1' G' E1') as K'.
  assert (KO : Forall (elt_ok la nz nineq neq) (batch_step la nz nineq neq es1)). { clear - K. induction K as [|? ? ? ? [? _] _ IH]; constructor; auto. }
  assert (KO' : Forall (elt_ok la nz nineq neq) (batch_step la nz nineq neq es1')). { clear - K'. induction K' as [|? ? ? ? [? _] _ IH]; constructor; auto. }
  clear K K' G G' E1 E1'. revert KO KO'. unfold batch_step. cbv zeta. pose proof (dirs_rel _ _ H) as HD. rewrite (alphas_rel _ _ _ HD).
  generalize (alphas (fun a => (ncst C_0_999 * a)%num) (batch_dirs la nz nineq neq es1)). intros al. clear H. revert al.
  induction HD as [|[e d] [e' d'] l l' (Hf & Ed & Ld) _ IH]; intros [|a al] KO KO'; try constructor; cbn [map2 fst snd] in *.
  - apply Forall_cons_iff in KO, KO'. destruct KO as [KO _], KO' as [KO' _]. subst d'. pose proof Hf as (Hr & _). constructor; auto.
    + cbn [elt_with_it e_pr]. apply Hr.
    + cbn [elt_with_it e_it]. symmetry. now apply step_point.
  - apply Forall_cons_iff in KO, KO'. apply IH; [apply KO|apply KO'].
Qed.
Lemma factor_batch_rel es es' : Forall2 erel es es' -> alike (Forall2 frel) (factor_batch la nineq neq es) (factor_batch la nineq neq es').
Proof. intros H. unfold factor_batch. revert H. apply mapM_alike. exact factor_rel. Qed.

(** *** best iterates and the loop *)
Definition brel (b b' : best_t R) : Prop := b' = map (fun p => (fst p, fit (snd p))) b /\ Forall (fun p => point nz nineq neq (snd p) /\ interior (snd p)) b.
Lemma resids_rel es es' : Forall2 erel es es' -> brel (map (fun e => (resid_of nz nineq neq e, e_it e)) es) (map (fun e => (resid_of nz nineq neq e, e_it e)) es').
Proof.
  intros H. unfold brel. induction H as [|e e' es es' Hr _ [IH1 IH2]]; [split; [reflexivity|constructor]|]. cbn [map fst snd]. rewrite (resid_rel e e' Hr), (er_it _ _ Hr), IH1.
  split; [reflexivity|]. constructor; [|exact IH2]. split; apply (er_ok _ _ Hr).
Qed.
Lemma update_rel b b' es es' : brel b b' -> Forall2 erel es es' -> brel (best_update nz nineq neq b es) (best_update nz nineq neq b' es') /\ improved nz nineq neq b' es' = improved nz nineq neq b es.
Proof.
  unfold brel. intros [-> Hb] H. unfold best_update, improved. revert b Hb. induction H as [|e e' es es' Hr _ IH]; intros [|p b] Hb; try (split; [split; [reflexivity|constructor]|reflexivity]).
  apply Forall_cons_iff in Hb. destruct Hb as [Hp Hb]. destruct (IH b Hb) as [[E1 E0] E2]. cbn [map map2 fst snd]. rewrite (resid_rel e e' Hr), E1, E2.
  split; [|reflexivity]. destruct (_ <? _)%num; cbn [fst snd]; [rewrite (er_it _ _ Hr)|]; (split; [reflexivity|]; constructor; [|exact E0]); [split; apply (er_ok _ _ Hr)|exact Hp].
Qed.
Lemma brel_fst b b' : brel b b' -> map fst b' = map fst b.
Proof. intros [-> _]. rewrite map_map. apply map_ext. reflexivity. Qed.
Lemma mus_rel es es' : Forall2 erel es es' -> map (mu_of nineq) es' = map (mu_of nineq) es.
Proof. intros H. induction H as [|e e' es es' Hr _ IH]; [reflexivity|]. cbn [map]. now rewrite (mu_rel e e' Hr), IH. Qed.
Definition obrel (b b' : option (best_t R)) : Prop := match b, b' with None, None => True | Some x, Some y => brel x y | _, _ => False end.
Lemma frel_erel es es' : Forall2 frel es es' -> Forall2 erel es es'.
Proof. intros H. induction H as [|e e' es es' [Hr _] _ IH]; constructor; auto. Qed.
Lemma loop_rel k eps lim ps ps' : forall es es' best best' nni, Forall2 (good la nz nineq neq) ps es -> Forall2 (good la nz nineq neq) ps' es' -> Forall2 erel es es' -> obrel best best' ->
  alike (fun r r' => obrel (fst r) (fst r') /\ Forall2 erel (snd r) (snd r')) (pd_loop la nz nineq neq k eps lim es best nni) (pd_loop la nz nineq neq k eps lim es' best' nni).
Proof.
  induction k as [|k IH]; intros es es' best best' nni G G' H Hb; cbn [pd_loop].
  - destruct best as [b|], best' as [b'|]; cbn in *; auto; contradiction.
  - pose proof (factor_batch_rel es es' H) as HF. destruct (factor_batch la nineq neq es) as [es1|er] eqn:E1; destruct (factor_batch la nineq neq es') as [es1'|er'] eqn:E1'; cbn [alike] in HF; try contradiction; [|cbn; auto].
    rewrite (mus_rel es es' H).
    pose proof (batch_step_rel es es' es1 es1' ps ps' G G' E1 E1' HF) as HS. pose proof (step_good la HL nz nineq neq Hn ps es es1 G E1) as K. pose proof (step_good la HL nz nineq neq Hn ps' es' es1' G' E1') as K'.
    destruct best as [b|], best' as [b'|]; cbn [obrel] in Hb; try contradiction.
    + destruct (update_rel b b' es es' Hb H) as [U1 U2]. rewrite U2, (brel_fst _ _ U1). destruct (_ || _ || _); [cbn [alike fst snd]; split; [exact U1|now apply frel_erel]|]. apply IH; auto.
    + pose proof (resids_rel es es' H) as U1. rewrite (brel_fst _ _ U1). destruct (_ || _ || _); [cbn [alike fst snd]; split; [exact U1|now apply frel_erel]|]. apply IH; auto.
Qed.

(** *** the start *)
Definition unit_elt (pr : prob R) (QL SL : lu R) (Rm : matR) : elt R := mkElt pr QL SL Rm (mkIter (vzeros nz) (vones nineq) (vones nineq) (vzeros neq)).
Lemma unit_d pr QL SL Rm : d_of (unit_elt pr QL SL Rm) = vones nineq.
Proof. unfold d_of. cbn [unit_elt e_it i_s i_z]. apply vext; [rewrite vdiv_length, !vones_length; lia|]. intros i Hi. rewrite vdiv_length, !vones_length in Hi. rewrite vget_vdiv, !vget_ones by (rewrite ?vones_length; lia). field. Qed.
Lemma unit_ok pr QL SL Rm : sized nz nineq neq pr -> kkt_state la nz nineq neq (pr_Q pr) (pr_G pr) (pr_F pr) (pr_A pr) QL SL Rm -> elt_ok la nz nineq neq (unit_elt pr QL SL Rm).
Proof.
  intros H1 H2. constructor; auto.
  - constructor; cbn [unit_elt e_it i_x i_s i_z i_y]; auto using vzeros_length, vones_length.
  - split; cbn [unit_elt e_it i_s i_z]; apply Forall_forall; intros a Ha; apply repeat_spec in Ha; subst; rnum; lra.
Qed.
Lemma init_rel pr pr' f f' : sized nz nineq neq pr -> sized nz nineq neq pr' -> transformed pr pr' ->
  pre_factor_kkt la nz nineq neq (pr_Q pr) (pr_G pr) (pr_F pr) (pr_A pr) = Ok f -> pre_factor_kkt la nz nineq neq (pr_Q pr') (pr_G pr') (pr_F pr') (pr_A pr') = Ok f' ->
  alike erel (let '(QL, SL, Rm) := f in init_elt la nz nineq neq pr QL SL Rm) (let '(QL, SL, Rm) := f' in init_elt la nz nineq neq pr' QL SL Rm).
Proof.
  intros Hsz Hsz' HT E E'. destruct f as [[QL SL] Rm], f' as [[QL' SL'] Rm'].
  pose proof (pre_factor_ok la nz nineq neq _ _ _ _ QL SL Rm HL (sz_mat _ _ _ _ Hsz) E) as Hst. pose proof (pre_factor_ok la nz nineq neq _ _ _ _ QL' SL' Rm' HL (sz_mat _ _ _ _ Hsz') E') as Hst'.
  set (u := unit_elt pr QL SL Rm). set (u' := unit_elt pr' QL' SL' Rm').
  assert (Hr : erel u u').
  { constructor; [now apply unit_ok|now apply unit_ok|exact HT|]. unfold u, u', unit_elt, transform. cbn [e_it i_x i_s i_z i_y]. rewrite (iso_zeros nz fu Iu), (iso_zeros neq fv Iv). unfold vones. now rewrite !(reorder_const nineq P HP). }
  pose proof (factor_rel u u' Hr) as HF. unfold u at 3 in HF. unfold u' at 3 in HF. rewrite !unit_d in HF. cbn [u u' unit_elt e_SLU e_R] in HF.
  destruct (factor_kkt la nineq neq SL Rm (vones nineq)) as [S1|er] eqn:E1; destruct (factor_kkt la nineq neq SL' Rm' (vones nineq)) as [S1'|er'] eqn:E1'; cbn [bind alike] in HF; try contradiction.
  - assert (A : exists e, init_elt la nz nineq neq pr QL SL Rm = Ok e /\ elt_ok la nz nineq neq e) by
      (destruct (init_elt la nz nineq neq pr QL SL Rm) as [e|er] eqn:Ei; [exists e; split; [reflexivity|exact (proj1 (init_elt_ok la HL nz nineq neq pr QL SL Rm e Hsz Hst Ei))]|];
       exfalso; unfold init_elt in Ei; rewrite E1 in Ei; cbn [bind] in Ei; destruct (solve_kkt _ _ _ _ _ _ _ _ _ _ _ _) as [[[? ?] ?] ?]; discriminate).
    assert (A' : exists e, init_elt la nz nineq neq pr' QL' SL' Rm' = Ok e /\ elt_ok la nz nineq neq e) by
      (destruct (init_elt la nz nineq neq pr' QL' SL' Rm') as [e|er] eqn:Ei; [exists e; split; [reflexivity|exact (proj1 (init_elt_ok la HL nz nineq neq pr' QL' SL' Rm' e Hsz' Hst' Ei))]|];
       exfalso; unfold init_elt in Ei; rewrite E1' in Ei; cbn [bind] in Ei; destruct (solve_kkt _ _ _ _ _ _ _ _ _ _ _ _) as [[[? ?] ?] ?]; discriminate).
    destruct A as (e & Ee & He), A' as (e' & Ee' & He'). rewrite Ee, Ee'. cbn [alike]. revert Ee Ee'. unfold init_elt. rewrite E1, E1'. cbn [bind].
    pose proof (sz_p _ _ _ _ Hsz) as Lp. pose proof (sz_h _ _ _ _ Hsz) as Lh. pose proof (sz_b _ _ _ _ Hsz) as Lb.
    destruct (solve_rel _ _ (pr_p pr) (vzeros nineq) (vopp (pr_h pr)) (vopp (pr_b pr)) HF Lp (vzeros_length nineq) (eq_trans (vopp_length _) Lh) (eq_trans (vopp_length _) Lb)) as [Es Ls].
    change (d_of (elt_with_S u S1)) with (d_of u) in *. change (d_of (elt_with_S u' S1')) with (d_of u') in *. unfold u, u' in Es, Ls. rewrite ?unit_d in Es. rewrite ?unit_d in Ls. cbn [elt_with_S unit_elt e_QLU e_SLU e_pr] in Es, Ls.
    rewrite (iso_zeros nineq fp Ip), (iso_opp nineq fp Ip), (iso_opp neq fv Iv), <- (tr_p _ _ _ _ _ _ _ _ HT), <- (tr_h _ _ _ _ _ _ _ _ HT), <- (tr_b _ _ _ _ _ _ _ _ HT) in Es by auto.
    rewrite ?unit_d in Es. rewrite Es. clear Es. match type of Ls with dir_len ?t => set (sol := t) in * end.
    clearbody sol. destruct sol as [[[x s] z] y]. cbn [fdir]. intros X X'. injection X as <-. injection X' as <-. destruct Ls as (L1 & L2 & L3 & L4).
    constructor; auto. unfold transform. cbn [e_it i_x i_s i_z i_y]. rewrite !(shift_reorder nineq P HP) by (unfold vec in *; lia). reflexivity.
  - unfold init_elt. rewrite E1, E1'. exact I.
Qed.

(** the answers of the solver correspond *)
Record srel (sv sv' : lcp_saved R) : Prop := {
  sr_nz : sv_nz sv = nz; sr_nineq : sv_nineq sv = nineq; sr_neq : sv_neq sv = neq;
  sr_nz' : sv_nz sv' = nz; sr_nineq' : sv_nineq sv' = nineq; sr_neq' : sv_neq sv' = neq;
  sr_best : sv_best sv' = map fit (sv_best sv); sr_in : Forall (fun it => point nz nineq neq it /\ interior it) (sv_best sv);
  sr_elts : Forall2 erel (sv_elts sv) (sv_elts sv') }.
Definition arel (r r' : option (list vecR * lcp_saved R)) : Prop :=
  match r, r' with
  | None, None => True
  | Some (xs, sv), Some (xs', sv') => xs' = map fu xs /\ srel sv sv'
  | _, _ => False
  end.
Theorem forward_sym o ps ps' : Forall (sized nz nineq neq) ps -> Forall (sized nz nineq neq) ps' -> Forall2 transformed ps ps' ->
  alike arel (lcp_forward la o nz nineq neq ps) (lcp_forward la o nz nineq neq ps').
Proof.
  intros Hs Hs' HT. unfold lcp_forward. destruct (negb _); [exact I|]. destruct (Nat.eqb nineq 0); [exact I|].
  assert (H2 : Forall2 (fun pr pr' => sized nz nineq neq pr /\ sized nz nineq neq pr' /\ transformed pr pr') ps ps').
  { clear - Hs Hs' HT. induction HT as [|pr pr' ps ps' Ht _ IH]; constructor; apply Forall_cons_iff in Hs, Hs'; [tauto|apply IH; tauto]. }
  pose proof (mapM_alike (fun pr pr' => sized nz nineq neq pr /\ sized nz nineq neq pr' /\ transformed pr pr') (fun _ _ => True)
    (fun pr => pre_factor_kkt la nz nineq neq (pr_Q pr) (pr_G pr) (pr_F pr) (pr_A pr)) (fun pr => pre_factor_kkt la nz nineq neq (pr_Q pr) (pr_G pr) (pr_F pr) (pr_A pr)) ps ps') as HM.
  specialize (HM ltac:(
    intros pr pr' (Hsz & Hsz' & Ht); destruct (pre_factor_kkt la nz nineq neq (pr_Q pr) (pr_G pr) (pr_F pr) (pr_A pr)) as [r|er] eqn:E; destruct (pre_factor_kkt la nz nineq neq (pr_Q pr') (pr_G pr') (pr_F pr') (pr_A pr')) as [r'|er'] eqn:E'; cbn [alike]; auto;
    [destruct (pre_factor_free la HL nz nineq neq _ _ _ _ (sz_mat _ _ _ _ Hsz) _ E) as [N1 N2];
     destruct (free_pre_factor la HL nz nineq neq _ _ _ _ (sz_mat _ _ _ _ Hsz')) as [r' Er']; [now apply (nonsing_transformed pr pr' Hsz Ht)|intros Z; apply (eqfree_transformed pr pr' Hsz Hsz' Ht); auto|congruence]
    |destruct (pre_factor_free la HL nz nineq neq _ _ _ _ (sz_mat _ _ _ _ Hsz') _ E') as [N1 N2];
     destruct (free_pre_factor la HL nz nineq neq _ _ _ _ (sz_mat _ _ _ _ Hsz)) as [r Er]; [now apply (nonsing_transformed pr pr' Hsz Ht)|intros Z; apply (eqfree_transformed pr pr' Hsz Hsz' Ht); auto|congruence]]) H2).
  destruct (mapM _ ps) as [fs|er] eqn:Ef; destruct (mapM _ ps') as [fs'|er'] eqn:Ef'; cbn [alike] in HM; try contradiction; [|exact I]. cbn [bind]. unfold pd_forward.
  pose proof (proj1 (mapM_Forall2 _ _ _) Ef) as F. pose proof (proj1 (mapM_Forall2 _ _ _) Ef') as F'.
  assert (HI : alike (Forall2 erel) (mapM (fun '(pr, (QL, SL, Rm)) => init_elt la nz nineq neq pr QL SL Rm) (combine ps fs)) (mapM (fun '(pr, (QL, SL, Rm)) => init_elt la nz nineq neq pr QL SL Rm) (combine ps' fs'))).
  { apply (mapM_alike (fun a b => sized nz nineq neq (fst a) /\ sized nz nineq neq (fst b) /\ transformed (fst a) (fst b) /\
      pre_factor_kkt la nz nineq neq (pr_Q (fst a)) (pr_G (fst a)) (pr_F (fst a)) (pr_A (fst a)) = Ok (snd a) /\
      pre_factor_kkt la nz nineq neq (pr_Q (fst b)) (pr_G (fst b)) (pr_F (fst b)) (pr_A (fst b)) = Ok (snd b))).
    - intros [pr f] [pr' f'] (H1 & H1' & Ht & E1 & E1'). cbn [fst snd] in *. exact (init_rel pr pr' f f' H1 H1' Ht E1 E1').
    - clear - H2 F F'. revert fs fs' F F'. induction H2 as [|pr pr' ps ps' (H1 & H1' & Ht) _ IH]; intros fs fs' F F'; inversion F; inversion F'; subst; constructor; auto. }
  destruct (mapM _ (combine ps fs)) as [es|er] eqn:Es; destruct (mapM _ (combine ps' fs')) as [es'|er'] eqn:Es'; cbn [alike] in HI; try contradiction; [|exact I]. cbn [bind].
  assert (Hg : Forall2 (good la nz nineq neq) ps es). { apply (start_good la HL); auto. unfold start. rewrite Ef. cbn [bind]. exact Es. }
  assert (Hg' : Forall2 (good la nz nineq neq) ps' es'). { apply (start_good la HL); auto. unfold start. rewrite Ef'. cbn [bind]. exact Es'. }
  pose proof (loop_rel (lo_max_iter o) (lo_eps o) (lo_lim o) ps ps' es es' None None 0 Hg Hg' HI I) as HLp.
  destruct (pd_loop la nz nineq neq _ _ _ es None 0) as [[best es1]|er]; destruct (pd_loop la nz nineq neq _ _ _ es' None 0) as [[best' es1']|er']; cbn [alike bind] in *; try contradiction; auto.
  destruct HLp as [Hb He]. cbn [fst snd] in Hb, He. destruct best as [b|], best' as [b'|]; cbn [obrel] in Hb; try contradiction; cbn [alike arel]; auto.
  destruct Hb as [-> Hb]. split; [now rewrite !map_map|]. constructor; cbn [sv_best sv_nz sv_nineq sv_neq sv_elts]; auto; [now rewrite !map_map|].
  clear - Hb. induction Hb; cbn [map]; constructor; auto.
Qed.

(** *** gradients *)
Notation grel := (transformed_grads nz nineq fu P fv).
Lemma mv_outer2 m n (a b c d x : vecR) : length a = m -> length c = m -> length b = n -> length d = n -> mv (madd (outer a b) (outer c d)) x = vadd (vscale (dot b x) a) (vscale (dot d x) c).
Proof. intros La Lc Lb Ld. rewrite (mv_madd m n); [now rewrite !mv_outer|rewrite <- La, <- Lb; apply wf_outer|rewrite <- Lc, <- Ld; apply wf_outer]. Qed.
Lemma mv_mscale k (A : matR) x : mv (mscale k A) x = vscale k (mv A x).
Proof. unfold mv, mscale, vscale at 2. rewrite !map_map. apply map_ext. intros r. apply dot_vscale_l. Qed.
Lemma backward1_rel e e' it dl : erel e e' -> point nz nineq neq it -> interior it -> length dl = nz ->
  alike grel (lcp_backward1 la nz nineq neq e it dl) (lcp_backward1 la nz nineq neq e' (fit it) (fu dl)).
Proof.
  intros [Ho Ho' Ht _] Hpt Hin Ldl. set (w := elt_with_it e it). set (w' := elt_with_it e' (fit it)).
  assert (Hin' : interior (fit it)).
  { destruct Hin as [H1 H2], Hpt. split; cbn [transform i_s i_z]; unfold pos in *; rewrite Forall_forall in *; intros a Ha; [apply H1|apply H2]; eapply Permutation_in; try exact Ha; now apply (reorder_perm nineq P HP). }
  assert (Hr : erel w w'). { constructor; [| |exact Ht|reflexivity]; constructor; try apply Ho; try apply Ho'; auto. now apply fit_point. }
  pose proof (factor_rel w w' Hr) as HF. change (e_SLU w) with (e_SLU e) in HF. change (e_SLU w') with (e_SLU e') in HF. change (e_R w) with (e_R e) in HF. change (e_R w') with (e_R e') in HF.
  unfold lcp_backward1. cbv zeta. change (vdiv (i_z it) (i_s it)) with (d_of w). change (vdiv (i_z (fit it)) (i_s (fit it))) with (d_of w').
  destruct (factor_kkt la nineq neq (e_SLU e) (e_R e) (d_of w)) as [S1|er]; destruct (factor_kkt la nineq neq (e_SLU e') (e_R e') (d_of w')) as [S1'|er']; cbn [bind alike] in *; try contradiction; auto.
  destruct (solve_rel _ _ dl (vzeros nineq) (vzeros nineq) (vzeros neq) HF Ldl (vzeros_length nineq) (vzeros_length nineq) (vzeros_length neq)) as [Es Ls].
  change (d_of (elt_with_S w S1)) with (d_of w) in *. change (d_of (elt_with_S w' S1')) with (d_of w') in *. cbn [elt_with_S e_QLU e_SLU e_pr] in Es, Ls.
  change (e_QLU w) with (e_QLU e) in *. change (e_QLU w') with (e_QLU e') in *. change (e_pr w) with (e_pr e) in *. change (e_pr w') with (e_pr e') in *.
  rewrite (iso_zeros nineq fp Ip), (iso_zeros neq fv Iv) in Es. rewrite Es. clear Es. match type of Ls with dir_len ?t => set (sol := t) in * end. clearbody sol. destruct sol as [[[dx ds] dz] dy].
  destruct Ls as (L1 & L2 & L3 & L4). pose proof Hpt as [P1 P2 P3 P4]. cbn [fdir alike transform i_x i_s i_z i_y]. constructor; cbn [g_p g_h g_b g_Q g_G g_A g_F].
  - reflexivity.
  - symmetry. now apply (iso_opp nineq fp Ip).
  - symmetry. now apply (iso_opp neq fv Iv).
  - intros x Lx. rewrite !mv_mscale, !(mv_outer2 nz nz) by (auto; now apply (iso_len _ _ Iu)). rewrite !(iso_dot _ _ Iu) by auto. rewrite <- !(iso_scale _ _ Iu) by auto.
    rewrite <- (iso_add _ _ Iu) by (rewrite vscale_length; auto). rewrite (iso_scale _ _ Iu); [reflexivity|]. rewrite vadd_length, !vscale_length. lia.
  - intros x Lx. rewrite !(mv_outer2 nineq nz) by (auto; first [now apply (iso_len _ _ Iu)|now apply (iso_len _ _ Ip)]). rewrite !(iso_dot _ _ Iu) by auto. rewrite <- !(iso_scale _ _ Ip) by auto.
    now rewrite <- (iso_add _ _ Ip) by (rewrite vscale_length; auto).
  - intros x Lx. rewrite !(mv_outer2 neq nz) by (auto; first [now apply (iso_len _ _ Iu)|now apply (iso_len _ _ Iv)]). rewrite !(iso_dot _ _ Iu) by auto. rewrite <- !(iso_scale _ _ Iv) by auto.
    now rewrite <- (iso_add _ _ Iv) by (rewrite vscale_length; auto).
  - intros z Lz. rewrite !mv_mopp, !mv_outer. rewrite (iso_dot _ _ Ip) by auto. rewrite <- (iso_scale _ _ Ip) by auto. symmetry. apply (iso_opp nineq fp Ip). now rewrite vscale_length.
Qed.
Theorem backward_sym sv sv' dls : srel sv sv' -> Forall (fun dl => length dl = nz) dls ->
  alike (Forall2 grel) (lcp_backward la sv dls) (lcp_backward la sv' (map fu dls)).
Proof.
  intros [E1 E2 E3 E1' E2' E3' Eb Hb He] Hd. unfold lcp_backward. rewrite E1, E2, E3, E1', E2', E3', Eb.
  apply (mapM_alike (fun a b => erel (fst (fst a)) (fst (fst b)) /\ point nz nineq neq (snd (fst a)) /\ interior (snd (fst a)) /\ length (snd a) = nz /\ snd (fst b) = fit (snd (fst a)) /\ snd b = fu (snd a))).
  - intros [[e it] dl] [[e' it'] dl'] (H1 & H2 & H3 & H4 & H5 & H6). cbn [fst snd] in *. subst it' dl'. now apply backward1_rel.
  - clear - He Hb Hd. revert dls Hd. revert Hb. generalize (sv_best sv). induction He as [|e e' es es' Hr _ IH]; intros [|it b] Hb [|dl dls] Hd; cbn [map combine]; try constructor.
    + apply Forall_cons_iff in Hb, Hd. cbn [fst snd]. tauto.
    + apply Forall_cons_iff in Hb, Hd. apply IH; tauto.
Qed.
End Sym.

(** *** as properties *)
Section Top.
Variable la : lapack R.
Hypothesis HL : lapack_ok la.
Lemma answers_transformed o nz nineq neq fu P fv ps ps' : isometry nz fu -> isometry neq fv -> ordering nineq P ->
  Forall (sized nz nineq neq) ps -> Forall (sized nz nineq neq) ps' -> Forall2 (transformed nz nineq neq fu P fv) ps ps' ->
  alike (transformed_answer fu P fv) (lcp_forward la o nz nineq neq ps) (lcp_forward la o nz nineq neq ps').
Proof.
  intros Iu Iv HP Hs Hs' HT. destruct nineq as [|n]; [unfold lcp_forward; destruct (negb _); exact I|].
  pose proof (forward_sym la HL nz (S n) neq (Nat.lt_0_succ n) fu fv P Iu Iv HP o ps ps' Hs Hs' HT) as H.
  destruct (lcp_forward la o nz (S n) neq ps) as [[[xs sv]|]|er]; destruct (lcp_forward la o nz (S n) neq ps') as [[[xs' sv']|]|er']; cbn [alike arel transformed_answer] in *; auto.
  destruct H as [H1 H2]. split; [exact H1|apply H2].
Qed.
Lemma gradients_transformed o nz nineq neq fu P fv ps ps' xs sv xs' sv' dls : isometry nz fu -> isometry neq fv -> ordering nineq P ->
  Forall (sized nz nineq neq) ps -> Forall (sized nz nineq neq) ps' -> Forall2 (transformed nz nineq neq fu P fv) ps ps' ->
  lcp_forward la o nz nineq neq ps = Ok (Some (xs, sv)) -> lcp_forward la o nz nineq neq ps' = Ok (Some (xs', sv')) ->
  Forall (fun dl => length dl = nz) dls ->
  alike (Forall2 (transformed_grads nz nineq fu P fv)) (lcp_backward la sv dls) (lcp_backward la sv' (map fu dls)).
Proof.
  intros Iu Iv HP Hs Hs' HT E E' Hd. destruct nineq as [|n]; [unfold lcp_forward in E; destruct (negb _); discriminate|].
  pose proof (forward_sym la HL nz (S n) neq (Nat.lt_0_succ n) fu fv P Iu Iv HP o ps ps' Hs Hs' HT) as H. rewrite E, E' in H. destruct H as [_ H].
  exact (backward_sym la HL nz (S n) neq (Nat.lt_0_succ n) fu fv P Iu Iv HP sv sv' dls H Hd).
Qed.
End Top.
Lemma id_iso n : isometry n (fun x => x).
Proof. constructor; eauto. Qed.
Lemma reorder_mv P (M : matR) x : mv (map (fun i => nth i M []) P) x = reorder P (mv M x).
Proof. unfold mv, reorder. rewrite map_map. apply map_ext. intros i. symmetry. exact (eq_trans (f_equal (nth i (map (fun r => dot r x) M)) (eq_sym (dot_nil_l x))) (map_nth (fun r => dot r x) M [] i)). Qed.
Lemma relist_transformed nz nineq neq P pr : ordering nineq P -> sized nz nineq neq pr -> transformed nz nineq neq (fun x => x) P (fun x => x) pr (relist P pr).
Proof.
  intros HP [[_ _ [LF RF] _] _ _ _]. constructor; auto; cbn [relist pr_Q pr_p pr_G pr_h pr_A pr_b pr_F].
  - intros x _. apply reorder_mv.
  - intros z Lz. unfold mv, reorder at 1 3. rewrite map_map. apply (map_in_vget nineq P HP). intros i Hi. symmetry. transitivity (dot (nth i (pr_F pr) []) z); [exact (eq_trans (f_equal (nth i (map (fun r => dot r z) (pr_F pr))) (eq_sym (dot_nil_l z))) (map_nth (fun r => dot r z) (pr_F pr) [] i))|].
    symmetry. apply (reorder_dot nineq P HP); auto. apply (wf_row nineq nineq); auto. split; auto.
Qed.
Lemma relist_sized nz nineq neq P pr : ordering nineq P -> sized nz nineq neq pr -> sized nz nineq neq (relist P pr).
Proof.
  intros HP [[HQ WG WF WA] Lp Lh Lb]. pose proof (ord_len nineq P HP) as LP. constructor; cbn [relist pr_Q pr_p pr_G pr_h pr_A pr_b pr_F]; auto; [constructor; auto|apply (reorder_length nineq P HP)].
  - split; [now rewrite map_length|]. apply Forall_forall. intros r Hr. apply in_map_iff in Hr. destruct Hr as (i & <- & Hi). apply (wf_row nineq nz); auto. apply (ord_lt nineq P HP); auto.
  - split; [now rewrite map_length|]. apply Forall_forall. intros r Hr. apply in_map_iff in Hr. destruct Hr as (i & <- & Hi). apply (reorder_length nineq P HP).
Qed.
Lemma answers_relist la o nz nineq neq P ps : lapack_ok la -> ordering nineq P -> Forall (sized nz nineq neq) ps ->
  alike (transformed_answer (fun x => x) P (fun x => x)) (lcp_forward la o nz nineq neq ps) (lcp_forward la o nz nineq neq (map (relist P) ps)).
Proof.
  intros HL HP Hs. apply (answers_transformed la HL); auto using id_iso.
  - apply Forall_forall. intros pr' Hin. apply in_map_iff in Hin. destruct Hin as (pr & <- & Hin). apply relist_sized; auto. rewrite Forall_forall in Hs. auto.
  - clear - HP Hs. induction Hs as [|pr ps H _ IH]; constructor; auto. eapply relist_transformed; eauto.
Qed.
