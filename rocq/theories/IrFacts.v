(** Regularised KKT solves and the refinement loop *)
From Coq Require Import List Arith ZArith Bool Reals Lra Lia Psatz.
From Verif Require Import Num Tensor Lapack Pdipm KktIr RBase ResFacts LinAlg SysFacts LapackSpec PivFacts LuFacts KktSpec KktFacts KktTotal IrSpec.
Import ListNotations.
Open Scope R_scope.

(** componentwise equality of vectors of one length n *)
Lemma len_vadd n (x y : vecR) : length x = n -> length y = n -> length (vadd x y) = n.
Proof. intros. rewrite vadd_length. lia. Qed.
Lemma len_vsub n (x y : vecR) : length x = n -> length y = n -> length (vsub x y) = n.
Proof. intros. rewrite vsub_length. lia. Qed.
Lemma len_vopp n (x : vecR) : length x = n -> length (vopp x) = n.
Proof. intros. now rewrite vopp_length. Qed.
Lemma len_vscale n k (x : vecR) : length x = n -> length (vscale k x) = n.
Proof. intros. now rewrite vscale_length. Qed.
Ltac vl := repeat first [assumption | apply vzeros_length | apply len_vadd | apply len_vsub | apply len_vopp | apply len_vscale].
Lemma get_vadd n (x y : vecR) i : (i < n)%nat -> length x = n -> length y = n -> vget (vadd x y) i = vget x i + vget y i.
Proof. intros. apply vget_vadd; lia. Qed.
Lemma get_vsub n (x y : vecR) i : (i < n)%nat -> length x = n -> length y = n -> vget (vsub x y) i = vget x i - vget y i.
Proof. intros. apply vget_vsub; lia. Qed.
Lemma vext_n n (x y : vecR) : length x = n -> length y = n -> (forall i, (i < n)%nat -> vget x i = vget y i) -> x = y.
Proof. intros H1 H2 H. apply vext; [lia|]. intros i Hi. apply H. lia. Qed.
Ltac vec_ring n :=
  apply (vext_n n); [vl | vl | let i := fresh "i" in let Hi := fresh "Hi" in intros i Hi;
    repeat first [rewrite (get_vadd n) by first [exact Hi | vl] | rewrite (get_vsub n) by first [exact Hi | vl] | rewrite vget_vopp | rewrite vget_vscale | rewrite vget_zeros]; ring].

(** *** blocks *)
Lemma mv_meye n (x : vecR) : length x = n -> mv (meye n) x = x.
Proof.
  intros Hx. apply vext; [vlen|]. intros i Hi. rewrite mv_length, meye_length in Hi.
  rewrite vget_mv by vlen. unfold meye, mdiag. rewrite nth_map_seq by vlen.
  rewrite vones_length. subst n.
  rewrite (map_ext_in _ (fun j => if Nat.eqb i j then 1 else 0)).
  2:{ intros j _. destruct (Nat.eqb i j); auto. now apply vget_ones. }
  clear -Hi. revert i Hi. induction x as [|a x IH]; intros i Hi; [inversion Hi|].
  cbn [length seq map]. destruct i as [|i].
  - rewrite dot_cons. cbn [Nat.eqb vget nth]. rewrite <- seq_shift, map_map.
    replace (map (fun _ : nat => 0) (seq 0 (length x))) with (vzeros (length x) : vecR).
    + rewrite dot_zeros_l. ring.
    + unfold vzeros. clear. generalize 0%nat. induction (length x); intros; cbn; f_equal; auto.
  - rewrite dot_cons. cbn [Nat.eqb]. rewrite <- seq_shift, map_map. rewrite (IH i) by (cbn in Hi; lia).
    change (vget (a :: x) (S i)) with (vget x i). ring.
Qed.
Lemma mv_mscale k (A : matR) x : mv (mscale k A) x = vscale k (mv A x).
Proof. unfold mv, mscale, vscale. rewrite !map_map. apply map_ext. intros r. exact (dot_vscale_l k r x). Qed.
Lemma wf_mscale m n k (A : matR) : wf m n A -> wf m n (mscale k A).
Proof. intros [L FA]. split; [unfold mscale; vlen|]. unfold mscale. rewrite Forall_map. revert FA. apply Forall_impl. intros; vlen. Qed.
Lemma vm_hcat m n1 n2 (A B : matR) w : wf m n1 A -> wf m n2 B -> vm (n1 + n2) w (hcat A B) = vm n1 w A ++ vm n2 w B.
Proof.
  intros HA HB. unfold vm, mtr. rewrite seq_app, map_app, mv_app. cbn [Nat.add]. f_equal.
  - f_equal. apply map_ext_in. intros j Hj. apply in_seq in Hj. clear w. revert m B HA HB.
    induction A as [|r A IH]; intros m [|s B] HA HB; auto; [destruct HA as [H _]; destruct HB as [H' _]; cbn in *; lia|].
    destruct m as [|m]; [destruct HA; discriminate|]. apply wf_cons in HA, HB. cbn. f_equal; [|apply (IH m); tauto].
    apply vget_app_l. destruct HA. lia.
  - f_equal. replace (seq n1 n2) with (map (fun j => (n1 + j)%nat) (seq 0 n2)).
    2:{ clear. induction n1; [now rewrite map_id|]. rewrite <- seq_shift, <- IHn1, map_map. now apply map_ext. }
    rewrite map_map. apply map_ext. intros j. clear w. revert m B HA HB.
    induction A as [|r A IH]; intros m [|s B] HA HB; auto; [destruct HA as [H _]; destruct HB as [H' _]; cbn in *; lia|].
    destruct m as [|m]; [destruct HA; discriminate|]. apply wf_cons in HA, HB. cbn. f_equal; [|apply (IH m); tauto].
    destruct HA as [<- _]. apply vget_app_r.
Qed.
Lemma vm_meye n (x : vecR) : length x = n -> vm n x (meye n) = x.
Proof.
  intros Hx. unfold vm. replace (mtr n (meye n)) with (meye n : matR); [now apply mv_meye|].
  apply (mat_ext n n); [apply wf_meye|apply wf_mtr; apply meye_length|]. intros i j Hi Hj.
  rewrite mget_mtr by (rewrite ?meye_length; lia). unfold meye. rewrite !mget_mdiag by (rewrite vones_length; lia).
  rewrite Nat.eqb_sym. destruct (Nat.eqb_spec j i); subst; auto.
Qed.
Lemma vm_mzeros n m (w : vecR) : vm n w (mzeros m n) = vzeros n.
Proof.
  apply vext; [vlen|]. intros i Hi. rewrite vm_length in Hi. rewrite vget_zeros. unfold vm. rewrite vget_mv by vlen.
  rewrite mtr_nth by auto. unfold mzeros.
  replace (map (fun r : list R => vget r i) (repeat (vzeros n) m)) with (vzeros m : vecR); [apply dot_zeros_l|].
  unfold vzeros at 1. clear. induction m; cbn [repeat map]; f_equal; auto. symmetry. apply vget_zeros.
Qed.

(** block assignment at the left or right end of the rows *)
Lemma row_put_0 k (r b : vecR) : length b = k -> row_put r 0 b = b ++ skipn k r.
Proof. intros <-. unfold row_put. reflexivity. Qed.

Lemma app_inj_l {A} (a b c d : list A) : length a = length c -> a ++ b = c ++ d -> a = c /\ b = d.
Proof. revert c; induction a as [|x a IH]; intros [|y c] H E; try discriminate; auto. cbn in *. injection E as -> E. destruct (IH c) as [-> ->]; auto. Qed.
Section Reg.
Variable la : lapack R.
Hypothesis HL : lapack_ok la.
Variables nz nineq neq : nat.

Lemma reg_H_blocks (Q D : matR) : wf nz nz Q -> wf nineq nineq D ->
  reg_H nz nineq Q D = vcat (hcat Q (mzeros nz nineq)) (hcat (mzeros nineq nz) D).
Proof.
  intros HQ HD. unfold reg_H, vcat. rewrite mzeros_app.
  pose proof (blk_put_app [] (mzeros nz (nz + nineq)) (mzeros nineq (nz + nineq)) Q 0) as E. cbn [app length] in E. rewrite E by (rewrite mzeros_length; symmetry; apply HQ). clear E.
  assert (E1 : map2 (fun r b : list R => row_put r 0 b) (mzeros nz (nz + nineq)) Q = hcat Q (mzeros nz nineq)).
  { clear HD D. destruct HQ as [LQ FQ]. revert FQ. rewrite <- LQ at 1 3. clear LQ. intros FQ. induction FQ as [|r Q Hr FQ IH]; [reflexivity|].
    cbn [length]. unfold mzeros, hcat in *. cbn [repeat map2]. f_equal; [|exact IH].
    rewrite (row_put_0 nz) by auto. f_equal. unfold vzeros. rewrite repeat_app, skipn_app, skipn_all2 by (rewrite repeat_length; lia).
    rewrite repeat_length, Nat.sub_diag. reflexivity. }
  match goal with |- context [?a ++ mzeros nineq (nz + nineq)] => change a with (map2 (fun r b : list R => row_put r 0 b) (mzeros nz (nz + nineq)) Q) end.
  rewrite E1. pose proof (blk_put_app (hcat Q (mzeros nz nineq)) (mzeros nineq (nz + nineq)) [] D nz) as E.
  rewrite app_nil_r in E. replace (length (hcat Q (mzeros nz nineq))) with nz in E by (pose proof (wf_length _ _ _ HQ); vlen).
  etransitivity; [apply E; rewrite mzeros_length; symmetry; apply HD|]. rewrite app_nil_r. f_equal.
  clear E E1 HQ Q. destruct HD as [LD FD]. revert FD. rewrite <- LD at 1 3. clear LD. intros FD. induction FD as [|r D Hr FD IH]; [reflexivity|].
  cbn [length]. unfold mzeros, hcat in *. cbn [repeat map2]. f_equal; [|exact IH].
  unfold row_put, vzeros. rewrite repeat_app, firstn_app, repeat_length, Nat.sub_diag, firstn_all2 by (rewrite repeat_length; lia).
  cbn [firstn]. rewrite app_nil_r. rewrite skipn_all2; [now rewrite app_nil_r|]. rewrite app_length, !repeat_length. rewrite Hr. lia.
Qed.
Lemma wf_reg_H (Q D : matR) : wf nz nz Q -> wf nineq nineq D -> wf (nz + nineq) (nz + nineq) (reg_H nz nineq Q D).
Proof. intros. rewrite reg_H_blocks by auto. apply wf_app; apply wf_hcat; auto using wf_mzeros. Qed.
Lemma mv_reg_H (Q D : matR) x s : wf nz nz Q -> wf nineq nineq D -> length x = nz -> length s = nineq ->
  mv (reg_H nz nineq Q D) (x ++ s) = mv Q x ++ mv D s.
Proof.
  intros HQ HD Hx Hs. rewrite reg_H_blocks by auto. unfold vcat. rewrite mv_app.
  rewrite (mv_hcat nz nz nineq), (mv_hcat nineq nz nineq) by auto using wf_mzeros. rewrite !mv_mzeros.
  pose proof (wf_length _ _ _ HQ). pose proof (wf_length _ _ _ HD). rewrite vadd_zeros_r, vadd_zeros_l by vlen. reflexivity.
Qed.
Lemma neq_cases : {neq = 0%nat} + {Nat.ltb 0 neq = true}.
Proof. destruct neq; auto. Qed.
Lemma wf_reg_A (G A : matR) : wf nineq nz G -> wf neq nz A -> wf (nineq + neq) (nz + nineq) (reg_A nineq neq G A).
Proof.
  intros HG HA. unfold reg_A. destruct neq_cases as [E|E].
  - rewrite E. rewrite Nat.add_0_r. cbn [Nat.ltb]. apply wf_hcat; auto using wf_meye.
  - rewrite E. apply wf_app; apply wf_hcat; auto using wf_meye, wf_mzeros.
Qed.
Lemma wf_0 n (A : matR) : wf 0 n A -> A = [].
Proof. intros [H _]. now destruct A. Qed.
Lemma mv_reg_A (G A : matR) x s : wf nineq nz G -> wf neq nz A -> length x = nz -> length s = nineq ->
  mv (reg_A nineq neq G A) (x ++ s) = vadd (mv G x) s ++ mv A x.
Proof.
  intros HG HA Hx Hs. unfold reg_A. pose proof (wf_length _ _ _ HG). pose proof (wf_length _ _ _ HA).
  destruct neq_cases as [E|E].
  - rewrite E in *. cbn [Nat.ltb Nat.leb]. rewrite (mv_hcat nineq nz nineq) by auto using wf_meye. rewrite mv_meye by auto.
    rewrite (wf_0 _ _ HA). now rewrite app_nil_r.
  - rewrite E. unfold vcat. rewrite mv_app, (mv_hcat nineq nz nineq), (mv_hcat neq nz nineq) by auto using wf_meye, wf_mzeros.
    rewrite mv_meye, mv_mzeros by auto. rewrite (vadd_zeros_r (mv A x)) by vlen. reflexivity.
Qed.
Lemma vm_reg_A (G A : matR) z y : wf nineq nz G -> wf neq nz A -> length z = nineq -> length y = neq ->
  vm (nz + nineq) (z ++ y) (reg_A nineq neq G A) = vadd (vm nz z G) (vm nz y A) ++ z.
Proof.
  intros HG HA Hz Hy. unfold reg_A. destruct neq_cases as [E|E].
  - rewrite E in *. cbn [Nat.ltb Nat.leb]. destruct y; [|discriminate]. rewrite app_nil_r.
    rewrite (vm_hcat nineq nz nineq), vm_meye, vm_nil by auto using wf_meye. rewrite vadd_zeros_r by vlen. reflexivity.
  - rewrite E. unfold vcat. rewrite (vm_app nineq neq) by auto using wf_hcat, wf_meye, wf_mzeros.
    rewrite (vm_hcat nineq nz nineq), (vm_hcat neq nz nineq), vm_meye, vm_mzeros by auto using wf_meye, wf_mzeros.
    rewrite vadd_app by vlen. f_equal. apply vadd_zeros_r. auto.
Qed.

(** *** the solve *)
Lemma reg_solve_ok (H A_ : matR) shift (X : vecR -> vecR) rx rs rz ry d :
  let nh := (nz + nineq)%nat in let nw := (neq + nineq)%nat in
  wf nh nh H -> wf nw nh A_ ->
  (forall S, wf nw nw S -> wf nw nw (shift S) /\ forall w, length w = nw -> mv (shift S) w = vadd (mv S w) (X w) /\ length (X w) = nw) ->
  length rx = nz -> length rs = nineq -> length rz = nineq -> length ry = neq ->
  reg_solve la nz nineq neq H A_ shift rx rs rz ry = Ok d ->
  let '(dx, ds, dz, dy) := d in
  parts nz nineq neq d /\
  mv H (dx ++ ds) = vopp (vadd (rx ++ rs) (vm nh (dz ++ dy) A_)) /\
  vadd (mv A_ (dx ++ ds)) (rz ++ ry) = X (dz ++ dy).
Proof.
  intros nh nw WH WA HX Lx Ls Lz Ly E. unfold reg_solve in E. fold nh in E. fold nw in E.
  assert (Eh : (if Nat.ltb 0 neq then rz ++ ry else rz) = rz ++ ry).
  { destruct neq_cases as [E0|E0]; rewrite E0 in *; auto. destruct ry; [|discriminate]. cbn. now rewrite app_nil_r. }
  rewrite Eh in E. clear Eh. bind_inv E as HLU EH. pose proof (getrf_ok la HL _ _ _ WH EH) as FH.
  assert (WT : wf nh nw (mtr nh A_)) by (apply wf_mtr, WA).
  pose proof (wf_getrs_mat la nh nw H HLU _ WH FH WT) as WI. set (IA := getrs_mat la HLU nh nw (mtr nh A_)) in *.
  assert (WS : wf nw nw (mm nw A_ IA)) by (apply wf_mm, WA).
  destruct (HX _ WS) as [WSS HS]. bind_inv E as SLU ES. pose proof (getrf_ok la HL _ _ _ WSS ES) as FS.
  set (g := rx ++ rs) in *. assert (Lg : length g = nh) by (unfold g; vlen).
  destruct (getrs_solves la HL nh H HLU g WH FH Lg) as [Lu Eu]. set (u := la_getrs la HLU g) in *.
  set (t := vsub (mv A_ u) (rz ++ ry)) in *. pose proof (wf_length _ _ _ WA) as LA.
  assert (Lh : length (rz ++ ry) = nw) by (unfold nw; vlen).
  assert (Lt : length t = nw) by (unfold t; rewrite vsub_length, mv_length, LA, Lh; lia).
  destruct (getrs_solves la HL nw _ SLU t WSS FS Lt) as [Lw Ew]. set (w0 := la_getrs la SLU t) in *.
  set (w := vopp w0) in *. assert (Lw' : length w = nw) by (unfold w; vlen).
  set (rhs := vsub (vopp g) (vm nh w A_)) in *. assert (Lr : length rhs = nh) by (unfold rhs; rewrite vsub_length, vopp_length, vm_length; lia).
  destruct (getrs_solves la HL nh H HLU rhs WH FH Lr) as [Lv Ev]. set (v := la_getrs la HLU rhs) in *.
  set (q := la_getrs la HLU (mv (mtr nh A_) w)).
  assert (LqT : length (mv (mtr nh A_) w) = nh) by (rewrite mv_length; apply WT).
  destruct (getrs_solves la HL nh H HLU _ WH FH LqT) as [Lq Eq]. fold q in Lq, Eq.
  assert (Evq : v = vsub (vopp u) q).
  { unfold v. apply (getrs_unique la HL nh H); auto; [rewrite vsub_length, vopp_length; lia|].
    rewrite mv_vsub by (rewrite vopp_length; lia). rewrite mv_vopp, Eu, Eq. reflexivity. }
  injection E as <-. cbn [parts].
  assert (Lv1 : length (firstn nz v) = nz) by (rewrite firstn_length; unfold nh in *; lia).
  assert (Lw1 : length (firstn nineq w) = nineq) by (rewrite firstn_length; unfold nw in *; lia).
  repeat split; auto; try (rewrite skipn_length; unfold nh, nw in *; lia).
  - rewrite !firstn_skipn. rewrite Ev. unfold rhs. clear -Lg. assert (Lm := vm_length nh w A_). vec_eq. ring.
  - rewrite !firstn_skipn. destruct (HS w Lw') as [ESw LX].
    assert (E1 : mv (shift (mm nw A_ IA)) w = vopp t) by (unfold w; rewrite mv_vopp, Ew; reflexivity).
    rewrite ESw in E1. rewrite (mv_mm nw nh nw) in E1 by auto.
    unfold IA in E1. rewrite (getrs_mat_mv la HL nh nw H) in E1 by auto. fold q in E1.
    rewrite Evq, mv_vsub by (rewrite vopp_length; lia). rewrite mv_vopp.
    assert (E2 : X w = vsub (vopp t) (mv A_ q)).
    { rewrite <- E1. assert (length (mv A_ q) = nw) by (rewrite mv_length; auto). clear -LX H0. vec_eq. ring. }
    rewrite E2. unfold t. assert (length (mv A_ q) = nw) by (rewrite mv_length; auto). assert (length (mv A_ u) = nw) by (rewrite mv_length; auto).
    clear -H0 H1 Lh. vec_eq. ring.
Qed.

(** factor_solve_kkt_reg for any C *)
Lemma kkt_reg_ok (Q D G A C : matR) rx rs rz ry d :
  wf nz nz Q -> wf nineq nineq D -> wf nineq nz G -> wf neq nz A -> wf (nineq + neq) (nineq + neq) C ->
  parts nz nineq neq (rx, rs, rz, ry) ->
  factor_solve_kkt_reg la nz nineq neq Q D G A C rx rs rz ry = Ok d ->
  let '(dx, ds, dz, dy) := d in
  parts nz nineq neq d /\
  vadd (vadd (mv Q dx) (vm nz dz G)) (vadd (vm nz dy A) rx) = vzeros nz /\
  vadd (vadd (mv D ds) dz) rs = vzeros nineq /\
  vadd (vadd (vadd (mv G dx) ds ++ mv A dx) (mv C (dz ++ dy))) (rz ++ ry) = vzeros (nineq + neq).
Proof.
  intros WQ WD WG WA WC (Lx & Ls & Lz & Ly) E. pose proof (wf_reg_H Q D WQ WD) as WH. pose proof (wf_reg_A G A WG WA) as WAA.
  rewrite (Nat.add_comm nineq neq) in WAA, WC |- *.
  pose proof (reg_solve_ok (reg_H nz nineq Q D) (reg_A nineq neq G A) (fun S => msub S C) (fun w => vopp (mv C w)) rx rs rz ry d WH WAA) as H.
  cbv zeta in H. assert (HS : forall S, wf (neq + nineq) (neq + nineq) S ->
    wf (neq + nineq) (neq + nineq) (msub S C) /\ (forall w, length w = (neq + nineq)%nat -> mv (msub S C) w = vadd (mv S w) (vopp (mv C w)) /\ length (vopp (mv C w)) = (neq + nineq)%nat)).
  { intros S WS. split; [now apply wf_msub|]. intros w _. split; [rewrite (mv_msub _ _ S C w WS WC); apply vsub_vadd|].
    pose proof (wf_length _ _ _ WC). vlen. }
  specialize (H HS Lx Ls Lz Ly E). destruct d as [[[dx ds] dz] dy]. destruct H as (HP & H1 & H2). split; [exact HP|].
  destruct HP as (Ldx & Lds & Ldz & Ldy). pose proof (wf_length _ _ _ WQ). pose proof (wf_length _ _ _ WD).
  rewrite mv_reg_H in H1 by auto. rewrite (vm_reg_A G A dz dy WG WA Ldz Ldy) in H1.
  rewrite vadd_app in H1 by (unfold vec in *; rewrite vadd_length, !vm_length; lia). rewrite vopp_app in H1.
  apply app_inj_l in H1; [|rewrite mv_length, vopp_length, !vadd_length, !vm_length; lia]. destruct H1 as [H1 H3].
  repeat split.
  - rewrite H1. assert (L1 := vm_length nz dz G). assert (L2 := vm_length nz dy A). clear -L1 L2 Lx. vec_eq. ring.
  - rewrite H3. clear -Ls Ldz. vec_eq. ring.
  - rewrite mv_reg_A in H2 by auto. clear HS WAA. pose proof (wf_length _ _ _ WG). pose proof (wf_length _ _ _ WA). pose proof (wf_length _ _ _ WC).
    assert (LL : length (vadd (mv G dx) ds ++ mv A dx) = (neq + nineq)%nat) by (unfold vec in *; rewrite app_length, vadd_length, !mv_length; lia).
    assert (LR : length (rz ++ ry) = (neq + nineq)%nat) by (rewrite app_length; lia).
    assert (E1 : mv C (dz ++ dy) = vopp (vadd (vadd (mv G dx) ds ++ mv A dx) (rz ++ ry))) by (rewrite H2, vopp_vopp; reflexivity).
    rewrite E1. set (a := vadd (mv G dx) ds ++ mv A dx) in *. set (b := rz ++ ry) in *. clearbody a b. clear -LL LR. vec_eq. ring.
Qed.

(** factor_solve_kkt: the same with the opposite sign of C *)
Lemma kkt_opp_ok (Q D G A C : matR) rx rs rz ry d :
  wf nz nz Q -> wf nineq nineq D -> wf nineq nz G -> wf neq nz A -> wf (nineq + neq) (nineq + neq) C ->
  parts nz nineq neq (rx, rs, rz, ry) ->
  factor_solve_kkt la nz nineq neq Q D (reg_A nineq neq G A) C rx rs rz ry = Ok d ->
  factor_solve_kkt_reg la nz nineq neq Q D G A (mopp C) rx rs rz ry = Ok d.
Proof.
  intros WQ WD WG WA WC HP E. unfold factor_solve_kkt, factor_solve_kkt_reg in *. rewrite <- E. unfold reg_solve.
  destruct (la_getrf la (reg_H nz nineq Q D)) as [f|]; cbn [bind]; [|reflexivity].
  assert (X : forall S : matR, msub S (mopp C) = madd S C); [|now rewrite X].
  clear. intros S. unfold msub, madd, mopp. revert C. induction S as [|r S IH]; intros [|c C]; auto. cbn [map map2]. f_equal; [|apply IH].
  rewrite vsub_vadd. f_equal. apply vopp_vopp.
Qed.

(** *** the regularised matrices *)
Lemma eps_pos : 0 < (ir_eps : R).
Proof. unfold ir_eps. cbn [ndiv nofZ RNum n1]. rnum. apply Rdiv_lt_0_compat; [lra|]. apply IZR_lt. reflexivity. Qed.
Lemma wf_sub k n (C : matR) : wf n n C -> (k <= n)%nat -> wf k k (map (firstn k) (firstn k C)).
Proof.
  intros [LC FC] Hk. split; [rewrite map_length, firstn_length; lia|]. rewrite Forall_map. rewrite <- (firstn_skipn k C) in FC.
  apply Forall_app in FC. destruct FC as [FC _]. revert FC. apply Forall_impl. intros r Hr. rewrite firstn_length. lia.
Qed.
Lemma mv_sub k n (C : matR) z : wf n n C -> (k <= n)%nat -> length z = k ->
  mv (map (firstn k) (firstn k C)) z = firstn k (mv C (z ++ vzeros (n - k))).
Proof.
  intros [LC FC] Hk Hz. unfold mv. rewrite firstn_map, map_map. apply map_ext_in. intros r Hr.
  assert (Lr : length r = n). { rewrite Forall_forall in FC. apply FC. rewrite <- (firstn_skipn k C). apply in_or_app. now left. }
  rewrite <- (firstn_skipn k r) at 2. rewrite dot_app by (rewrite firstn_length; lia). rewrite dot_zeros_r. rnum. ring.
Qed.
Lemma blk_00 (C B : matR) k : length B = k -> (k <= length C)%nat -> blk_put C 0 0 B = map2 (fun r b => row_put r 0 b) (firstn k C) B ++ skipn k C.
Proof.
  intros HB HC. rewrite <- (firstn_skipn k C) at 1. exact (blk_put_app [] (firstn k C) (skipn k C) B 0 ltac:(rewrite firstn_length; lia)).
Qed.
Lemma mv_blk_sub k n (C F : matR) z y : wf n n C -> wf k k F -> (k <= n)%nat -> length z = k -> length y = (n - k)%nat ->
  wf n n (blk_put C 0 0 (msub (map (firstn k) (firstn k C)) F)) /\
  mv (blk_put C 0 0 (msub (map (firstn k) (firstn k C)) F)) (z ++ y) = vsub (mv C (z ++ y)) (mv F z ++ vzeros (n - k)).
Proof.
  intros WC WF Hk Hz Hy. pose proof (wf_length _ _ _ WC) as LC. pose proof (wf_length _ _ _ WF) as LF.
  assert (LB : length (msub (map (firstn k) (firstn k C)) F) = k) by (rewrite msub_length, map_length, firstn_length; lia).
  rewrite (blk_00 C _ k LB) by (unfold mat in *; lia). rewrite mv_app.
  set (C1 := firstn k C). assert (E : C = C1 ++ skipn k C) by (symmetry; apply firstn_skipn).
  assert (L1 : length C1 = k) by (unfold C1; rewrite firstn_length; lia).
  destruct WC as [_ FC]. rewrite E in FC. apply Forall_app in FC. destruct FC as [F1 F2].
  assert (G1 : Forall (fun r => length r = n) (map2 (fun r b : vecR => row_put r 0 b) C1 (msub (map (firstn k) C1) F)) /\
    mv (map2 (fun r b : vecR => row_put r 0 b) C1 (msub (map (firstn k) C1) F)) (z ++ y) = vsub (mv C1 (z ++ y)) (mv F z)).
  { destruct WF as [_ FF]. clear -F1 FF Hz Hy Hk L1 LF. clearbody C1. rewrite <- LF in L1. clear LF.
    revert F FF L1. induction F1 as [|r C1 Hr F1 IH]; intros [|f F] FF L1; try discriminate; [split; [constructor|reflexivity]|].
    inversion FF as [|? ? Hf FF']; subst. cbn [map map2 msub]. unfold msub in *. destruct (IH F FF') as [I1 I2]; [now injection L1|].
    assert (Lf : length (firstn (length z) r) = length z) by (rewrite firstn_length; lia).
    rewrite (row_put_0 (length z)) by (rewrite vsub_length; lia). split.
    - constructor; [|exact I1]. rewrite app_length, vsub_length, skipn_length. lia.
    - rewrite !mv_cons, I2. unfold vsub at 3. cbn [vmap2]. fold (vsub (mv C1 (z ++ y)) (mv F z)). f_equal.
      rewrite dot_app by (rewrite vsub_length; lia). rewrite dot_vsub_l by lia.
      rewrite <- (firstn_skipn (length z) r) at 3. rewrite (dot_app (firstn _ _) _ z y) by lia. rnum. ring. }
  destruct G1 as [G1 G2]. split.
  - split; [rewrite app_length, map2_length, skipn_length; unfold C1, mat, vec in *; lia|]. apply Forall_app. split; auto.
  - etransitivity; [apply f_equal2; [exact G2|reflexivity]|].
    replace (mv C (z ++ y)) with (mv C1 (z ++ y) ++ mv (skipn k C) (z ++ y)) by (rewrite <- mv_app, <- E; reflexivity).
    assert (Ls : length (mv (skipn k C) (z ++ y)) = (n - k)%nat) by (rewrite mv_length, skipn_length; unfold mat in *; lia).
    assert (Lm : length (mv C1 (z ++ y)) = length (mv F z)) by (rewrite !mv_length; lia).
    set (a := mv C1 (z ++ y)) in *. set (b := mv F z) in *. set (c := mv (skipn k C) (z ++ y)) in *. clearbody a b c. clear -Ls Lm.
    rewrite !vsub_vadd, vopp_app. rewrite vadd_app by (rewrite vopp_length; auto). f_equal. rewrite vopp_zeros. symmetry. now apply vadd_zeros_r.
Qed.
Lemma ir_C_ok (F : option matR) z y : match F with Some F => wf nineq nineq F | None => True end -> length z = nineq -> length y = neq ->
  wf (nineq + neq) (nineq + neq) (ir_C nineq neq F) /\
  mv (ir_C nineq neq F) (z ++ y) = vopp (vadd (F_times nineq F z) (vscale ir_eps z)) ++ vopp (vscale ir_eps y).
Proof.
  intros WF Hz Hy. unfold ir_C. rewrite (Nat.add_comm neq nineq).
  set (C := mscale _ _). assert (WC : wf (nineq + neq) (nineq + neq) C) by (apply wf_mscale, wf_meye).
  assert (EC : mv C (z ++ y) = vopp (vscale ir_eps z) ++ vopp (vscale ir_eps y)).
  { unfold C. rewrite mv_mscale, mv_meye by (rewrite app_length; lia). rewrite vscale_app. f_equal; rewrite vopp_scale, vscale_mult; f_equal; rnum; ring. }
  destruct F as [F|].
  - destruct (mv_blk_sub nineq (nineq + neq) C F z y WC WF) as [W E]; [lia|auto|lia|]. split; [exact W|]. rewrite E, EC.
    replace (nineq + neq - nineq)%nat with neq by lia. pose proof (wf_length _ _ _ WF).
    rewrite vsub_vadd, vopp_app, vadd_app by vlen. rewrite vopp_zeros, vadd_zeros_r by vlen. f_equal. cbn [F_times].
    assert (L : length (mv F z) = nineq) by (rewrite mv_length; auto). clear -L Hz. vec_eq. ring.
  - split; [exact WC|]. rewrite EC. f_equal. f_equal. cbn [F_times]. symmetry. apply vadd_zeros_l. vlen.
Qed.
Lemma F_times_len F z : match F with Some F => wf nineq nineq F | None => True end -> length (F_times nineq F z) = nineq.
Proof. destruct F as [F|]; cbn; intros H; [rewrite mv_length; apply H|apply vzeros_length]. Qed.
Lemma ir_F_ok (F : option matR) z : match F with Some F => wf nineq nineq F | None => True end -> length z = nineq ->
  mv (ir_F nineq neq F) z = vopp (vadd (F_times nineq F z) (vscale ir_eps z)).
Proof.
  intros WF Hz. unfold ir_F. destruct (ir_C_ok F z (vzeros neq) WF Hz (vzeros_length neq)) as [W E].
  rewrite (mv_sub nineq (nineq + neq)) by (auto; lia). replace (nineq + neq - nineq)%nat with neq by lia. rewrite E.
  rewrite firstn_app, firstn_all2; [|pose proof (F_times_len F z WF); vlen].
  replace (nineq - _)%nat with 0%nat; [cbn [firstn]; apply app_nil_r|]. pose proof (F_times_len F z WF). vlen.
Qed.
Lemma ir_reg_ok n (Q : matR) x : wf n n Q -> length x = n -> wf n n (ir_reg n Q) /\ mv (ir_reg n Q) x = vadd (mv Q x) (vscale ir_eps x).
Proof.
  intros WQ Hx. unfold ir_reg. assert (W : wf n n (mscale ir_eps (meye n))) by (apply wf_mscale, wf_meye). split; [now apply wf_madd|].
  rewrite (mv_madd n n) by auto. now rewrite mv_mscale, mv_meye.
Qed.

(** *** what the refinement leaves *)
Variables (Q D G A : matR) (F : option matR).
Hypothesis HS : shapes nz nineq neq Q D G A F.
Notation left := (leftover nz nineq neq Q D G A F).
Notation solve := (factor_solve_kkt_reg la nz nineq neq (ir_reg nz Q) (ir_reg nineq D) G A (ir_C nineq neq F)).
Let eps : R := ir_eps.
Let WQ := shp_Q _ _ _ _ _ _ _ _ HS.
Let WD := shp_D _ _ _ _ _ _ _ _ HS.
Let WG := shp_G _ _ _ _ _ _ _ _ HS.
Let WA := shp_A _ _ _ _ _ _ _ _ HS.
Let WF := shp_F _ _ _ _ _ _ _ _ HS.

Lemma resid_left d rx rs rz ry : parts nz nineq neq d -> parts nz nineq neq (rx, rs, rz, ry) ->
  kkt_resid_reg nz neq Q D G A (ir_F nineq neq F) eps d rx rs rz ry = left eps eps d (rx, rs, rz, ry).
Proof.
  destruct d as [[[dx ds] dz] dy]. intros (L1 & L2 & L3 & L4) (M1 & M2 & M3 & M4). unfold kkt_resid_reg, leftover.
  rewrite ir_F_ok by auto. fold eps. pose proof (wf_length _ _ _ WQ) as LQ. pose proof (wf_length _ _ _ WG) as LG. pose proof (wf_length _ _ _ WA) as LA.
  pose proof (F_times_len F dz WF) as LF. assert (N1 := vm_length nz dz G). assert (N2 := vm_length nz dy A).
  assert (N3 : length (mv Q dx) = nz) by (rewrite mv_length; auto). assert (N4 : length (mv G dx) = nineq) by (rewrite mv_length; auto).
  f_equal; [f_equal; [f_equal|]|].
  - destruct neq_cases as [E|E].
    + rewrite E in *. cbn [Nat.ltb Nat.leb]. destruct dy; [|discriminate]. rewrite vm_nil, vadd_zeros_l by auto. reflexivity.
    + rewrite E. clear -N1 N2 N3 M1. vec_eq. ring.
  - clear -N4 LF L2 L3 M3. vec_eq. ring.
  - destruct neq_cases as [E|E]; rewrite E in *; cbn [Nat.ltb Nat.leb]; auto. destruct ry; [|discriminate].
    rewrite (wf_0 _ _ WA). reflexivity.
Qed.

Definition dir_x (d : dirs R) : vecR := fst (fst (fst d)).
Definition dir_s (d : dirs R) : vecR := snd (fst (fst d)).

Lemma ir_solve d r : parts nz nineq neq r -> solve (fst (fst (fst r))) (snd (fst (fst r))) (snd (fst r)) (snd r) = Ok d ->
  parts nz nineq neq d /\ left eps eps d r = (vscale (- eps) (dir_x d), vscale (- eps) (dir_s d), vzeros nineq, vzeros neq).
Proof.
  destruct r as [[[rx rs] rz] ry]. cbn [fst snd]. intros HP E. pose proof HP as (M1 & M2 & M3 & M4).
  assert (WC := proj1 (ir_C_ok F (vzeros nineq) (vzeros neq) WF (vzeros_length _) (vzeros_length _))).
  assert (WQ' := proj1 (ir_reg_ok nz Q (vzeros nz) WQ (vzeros_length _))). assert (WD' := proj1 (ir_reg_ok nineq D (vzeros nineq) WD (vzeros_length _))).
  pose proof (kkt_reg_ok _ _ _ _ _ rx rs rz ry d WQ' WD' WG WA WC HP E) as H.
  destruct d as [[[dx ds] dz] dy]. destruct H as (HP' & H1 & H2 & H3). split; [exact HP'|]. destruct HP' as (L1 & L2 & L3 & L4).
  rewrite (proj2 (ir_reg_ok nz Q dx WQ L1)) in H1. rewrite (proj2 (ir_reg_ok nineq D ds WD L2)) in H2.
  rewrite (proj2 (ir_C_ok F dz dy WF L3 L4)) in H3. fold eps in H1, H2, H3. cbn [leftover dir_x dir_s fst snd].
  pose proof (wf_length _ _ _ WQ) as LQ. pose proof (wf_length _ _ _ WD) as LD. pose proof (wf_length _ _ _ WG) as LG. pose proof (wf_length _ _ _ WA) as LA.
  pose proof (F_times_len F dz WF) as LF. assert (N1 := vm_length nz dz G). assert (N2 := vm_length nz dy A).
  assert (N3 : length (mv Q dx) = nz) by (rewrite mv_length; auto). assert (N4 : length (mv G dx) = nineq) by (rewrite mv_length; auto).
  assert (N5 : length (mv D ds) = nineq) by (rewrite mv_length; auto). assert (N6 : length (mv A dx) = neq) by (rewrite mv_length; auto).
  rewrite !vadd_app in H3 by (rewrite ?vadd_length, ?vopp_length, ?vadd_length, ?vscale_length; lia).
  assert (EZ : vzeros (nineq + neq) = vzeros nineq ++ vzeros neq :> vecR) by apply repeat_app. rewrite EZ in H3.
  apply app_inj_l in H3; [|rewrite ?vadd_length, ?vopp_length, ?vadd_length, ?vscale_length, vzeros_length; lia]. destruct H3 as [H3 H4].
  f_equal; [f_equal; [f_equal|]|].
  - rewrite <- (vadd_zeros_l (vscale (- eps) dx) nz) by vlen. rewrite <- H1. clear -N1 N2 N3 L1 M1. vec_eq. ring.
  - rewrite <- (vadd_zeros_l (vscale (- eps) ds) nineq) by vlen. rewrite <- H2. clear -N5 L2 L3 M2. vec_eq. ring.
  - rewrite <- H3. clear -N4 LF L2 L3 M3. vec_eq. ring.
  - rewrite <- H4. clear -N6 L4 M4. vec_eq. ring.
Qed.

(** adding a direction *)
Lemma left_add d dd r ex es : parts nz nineq neq d -> parts nz nineq neq dd -> parts nz nineq neq r ->
  left eps eps d r = (ex, es, vzeros nineq, vzeros neq) ->
  left eps eps dd (vopp ex, vopp es, vopp (vzeros nineq), vopp (vzeros neq)) = (vscale (- eps) (dir_x dd), vscale (- eps) (dir_s dd), vzeros nineq, vzeros neq) ->
  parts nz nineq neq (dirs_add d dd) /\
  left eps eps (dirs_add d dd) r = (vsub (vscale 2 ex) (vscale eps (dir_x dd)), vsub (vscale 2 es) (vscale eps (dir_s dd)), vzeros nineq, vzeros neq).
Proof.
  destruct d as [[[dx ds] dz] dy], dd as [[[ax as_] az] ay], r as [[[rx rs] rz] ry].
  intros (L1 & L2 & L3 & L4) (K1 & K2 & K3 & K4) (M1 & M2 & M3 & M4). cbn [leftover dirs_add dir_x dir_s fst snd parts]. intros E1 E2.
  injection E1 as Ex Es Ez Ey. injection E2 as Ax As Az Ay.
  pose proof (wf_length _ _ _ WQ) as LQ. pose proof (wf_length _ _ _ WD) as LD. pose proof (wf_length _ _ _ WG) as LG. pose proof (wf_length _ _ _ WA) as LA.
  assert (N3 : forall x, length (mv Q x) = nz) by (intros; rewrite mv_length; auto). assert (N4 : forall x, length (mv G x) = nineq) by (intros; rewrite mv_length; auto).
  assert (N5 : forall x, length (mv D x) = nineq) by (intros; rewrite mv_length; auto). assert (N6 : forall x, length (mv A x) = neq) by (intros; rewrite mv_length; auto).
  assert (N7 : forall x, length (F_times nineq F x) = nineq) by (intros; apply F_times_len; auto).
  assert (N1 := vm_length nz dz G). assert (N2 := vm_length nz dy A). assert (N1' := vm_length nz az G). assert (N2' := vm_length nz ay A).
  split; [repeat split; rewrite vadd_length; lia|].
  assert (EF : F_times nineq F (vadd dz az) = vadd (F_times nineq F dz) (F_times nineq F az)).
  { destruct F as [F0|]; cbn [F_times]; [apply mv_vadd; lia|]. symmetry. apply vadd_zeros_r. apply vzeros_length. }
  rewrite EF, !mv_vadd, !vm_vadd by lia.
  assert (X1 := N3 dx). assert (X2 := N3 ax). assert (X3 := N4 dx). assert (X4 := N4 ax). assert (X5 := N5 ds). assert (X6 := N5 as_).
  assert (X7 := N6 dx). assert (X8 := N6 ax). assert (X9 := N7 dz). assert (X10 := N7 az).
  assert (Lex : length ex = nz) by (rewrite <- Ex; rewrite !vadd_length; lia). assert (Les : length es = nineq) by (rewrite <- Es; rewrite !vadd_length; lia).
  f_equal; [f_equal; [f_equal|]|].
  - replace (vsub (vscale 2 ex) (vscale eps ax)) with (vadd (vadd ex ex) (vscale (- eps) ax)) by vec_ring nz.
    rewrite <- Ax. rewrite <- Ex at 1. vec_ring nz.
  - replace (vsub (vscale 2 es) (vscale eps as_)) with (vadd (vadd es es) (vscale (- eps) as_)) by vec_ring nineq.
    rewrite <- As. rewrite <- Es at 1. vec_ring nineq.
  - rewrite <- (vadd_zeros_r (vzeros nineq) nineq) by apply vzeros_length. rewrite <- Ez at 1. rewrite <- Az. vec_ring nineq.
  - rewrite <- (vadd_zeros_r (vzeros neq) neq) by apply vzeros_length. rewrite <- Ey at 1. rewrite <- Ay. vec_ring neq.
Qed.

(** one more iteration at the end *)
Lemma ir_loop_S rx rs rz ry : forall k d, ir_loop la nz nineq neq (S k) Q D G A F rx rs rz ry d =
  do d' <- ir_loop la nz nineq neq k Q D G A F rx rs rz ry d; ir_loop la nz nineq neq 1 Q D G A F rx rs rz ry d'.
Proof.
  induction k as [|k IH]; intros d; [reflexivity|]. change (ir_loop la nz nineq neq (S (S k)) Q D G A F rx rs rz ry d) with
    (let '(resx, ress, resz, resy) := kkt_resid_reg nz neq Q D G A (ir_F nineq neq F) ir_eps d rx rs rz ry in
      do dd <- solve (vopp resx) (vopp ress) (vopp resz) (vopp resy); ir_loop la nz nineq neq (S k) Q D G A F rx rs rz ry (dirs_add d dd)).
  cbn [ir_loop] in *. destruct (kkt_resid_reg nz neq Q D G A (ir_F nineq neq F) ir_eps d rx rs rz ry) as [[[resx ress] resz] resy].
  destruct (solve (vopp resx) (vopp ress) (vopp resz) (vopp resy)) as [dd|]; cbn [bind]; [apply IH|reflexivity].
Qed.
Notation ir := (fun r k => solve_kkt_ir la nz nineq neq Q D G A F (fst (fst (fst r))) (snd (fst (fst r))) (snd (fst r)) (snd r) k).
Lemma ir_S r k : ir r (S k) = do d <- ir r k; ir_loop la nz nineq neq 1 Q D G A F (fst (fst (fst r))) (snd (fst (fst r))) (snd (fst r)) (snd r) d.
Proof. cbv beta. unfold solve_kkt_ir. destruct (solve _ _ _ _) as [d|]; cbn [bind]; [apply ir_loop_S|reflexivity]. Qed.

Lemma ir_next r d d' ex es : parts nz nineq neq r -> parts nz nineq neq d -> left eps eps d r = (ex, es, vzeros nineq, vzeros neq) ->
  ir_loop la nz nineq neq 1 Q D G A F (fst (fst (fst r))) (snd (fst (fst r))) (snd (fst r)) (snd r) d = Ok d' ->
  exists dd, d' = dirs_add d dd /\ parts nz nineq neq dd /\
    left eps eps dd (vopp ex, vopp es, vopp (vzeros nineq), vopp (vzeros neq)) = (vscale (- eps) (dir_x dd), vscale (- eps) (dir_s dd), vzeros nineq, vzeros neq).
Proof.
  intros HP Hd E H. destruct r as [[[rx rs] rz] ry]. cbn [fst snd] in H. cbn [ir_loop] in H. fold eps in H. rewrite (resid_left d rx rs rz ry Hd HP) in H. rewrite E in H.
  bind_inv H as dd Edd. injection H as <-. exists dd. split; [reflexivity|].
  apply (ir_solve dd (vopp ex, vopp es, vopp (vzeros nineq), vopp (vzeros neq))); [|exact Edd].
  destruct d as [[[dx ds] dz] dy]. destruct Hd as (L1 & L2 & L3 & L4). destruct HP as (M1 & M2 & M3 & M4). injection E as <- <- _ _.
  pose proof (wf_length _ _ _ WQ). pose proof (wf_length _ _ _ WD).
  cbn [parts]. repeat split; rewrite vopp_length; rewrite ?vzeros_length; auto; rewrite !vadd_length, ?mv_length, ?vm_length; lia.
Qed.
Lemma ir_state r : parts nz nineq neq r -> forall k d, ir r k = Ok d ->
  parts nz nineq neq d /\ exists ex es, left eps eps d r = (ex, es, vzeros nineq, vzeros neq).
Proof.
  intros HP. induction k as [|k IH]; intros d E.
  - unfold solve_kkt_ir in E. cbn [ir_loop] in E. bind_inv E as d0 E0. injection E as <-. destruct (ir_solve d0 r HP E0) as [H1 H2].
    split; [exact H1|]. eexists _, _. exact H2.
  - rewrite ir_S in E. bind_inv E as d0 E0. destruct (IH d0 E0) as (Hd & ex & es & El).
    destruct (ir_next r d0 d ex es HP Hd El E) as (dd & -> & Hdd & Edd). destruct (left_add d0 dd r ex es Hd Hdd HP El Edd) as [H1 H2].
    split; [exact H1|]. eexists _, _. exact H2.
Qed.

End Reg.
