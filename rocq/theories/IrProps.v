(** Iterative refinement: exactness of the regularised solve, totality, growth of the residual *)
From Coq Require Import List Arith ZArith Bool Reals Lra Lia Psatz.
From Verif Require Import Num Tensor Lapack LapackRef Pdipm KktIr RBase ResFacts LinAlg SysFacts LapackSpec PivFacts LuFacts KktSpec KktFacts KktTotal IrSpec IrFacts.
Import ListNotations.
Open Scope R_scope.

Definition ir (la : lapack R) nz nineq neq Q D G A F (r : dirs R) k : res (dirs R) :=
  let '(rx, rs, rz, ry) := r in solve_kkt_ir la nz nineq neq Q D G A F rx rs rz ry k.
Lemma ir_eq la nz nineq neq Q D G A F r k : ir la nz nineq neq Q D G A F r k =
  solve_kkt_ir la nz nineq neq Q D G A F (fst (fst (fst r))) (snd (fst (fst r))) (snd (fst r)) (snd r) k.
Proof. now destruct r as [[[rx rs] rz] ry]. Qed.
Lemma eps_val : (ir_eps : R) = / 10000000.
Proof. unfold ir_eps. rnum. unfold Rdiv. now rewrite Rmult_1_l. Qed.

Local Opaque ir_eps.
Section Ir.
Variable la : lapack R.
Hypothesis HL : lapack_ok la.
Variables nz nineq neq : nat.
Variables (Q D G A : matR) (F : option matR).
Hypothesis HS : shapes nz nineq neq Q D G A F.
Notation left := (leftover nz nineq neq Q D G A F ir_eps ir_eps).

(** the leftover of the plain system *)
Lemma left_plain d r rx rs rz ry : parts nz nineq neq d -> parts nz nineq neq r -> left d r = (rx, rs, rz, ry) ->
  leftover nz nineq neq Q D G A F 0 0 d r = (rx, rs, vadd rz (vscale ir_eps (snd (fst d))), vadd ry (vscale ir_eps (snd d))).
Proof.
  destruct d as [[[dx ds] dz] dy], r as [[[sx ss] sz] sy]. intros (L1 & L2 & L3 & L4) (M1 & M2 & M3 & M4) E. cbn [leftover fst snd] in *.
  injection E as E1 E2 E3 E4. destruct HS as [WQ WD WG WA WF]. pose proof (wf_length _ _ _ WG) as LG. pose proof (wf_length _ _ _ WA) as LA.
  assert (N4 : length (mv G dx) = nineq) by (rewrite mv_length; auto). assert (N6 : length (mv A dx) = neq) by (rewrite mv_length; auto).
  pose proof (F_times_len nineq F dz WF) as N7.
  rewrite E1, E2. f_equal; [f_equal|].
  - rewrite <- E3. vec_ring nineq.
  - rewrite <- E4. vec_ring neq.
Qed.
Lemma ir_regularised r d : parts nz nineq neq r -> ir la nz nineq neq Q D G A F r 0 = Ok d ->
  let '(dx, ds, dz, dy) := d in
  leftover nz nineq neq Q D G A F 0 0 d r = (vscale (- ir_eps) dx, vscale (- ir_eps) ds, vscale ir_eps dz, vscale ir_eps dy).
Proof.
  intros HP E. rewrite ir_eq in E. unfold solve_kkt_ir in E. cbn [ir_loop] in E. bind_inv E as d0 E0. injection E as <-.
  destruct (ir_solve la HL nz nineq neq Q D G A F HS d0 r HP E0) as [H1 H2]. pose proof (left_plain d0 r _ _ _ _ H1 HP H2) as H3.
  destruct d0 as [[[dx ds] dz] dy]. destruct H1 as (L1 & L2 & L3 & L4). rewrite H3. cbn [dir_x dir_s fst snd].
  rewrite !vadd_zeros_l by vl. reflexivity.
Qed.
Lemma ir_step r k d d' : parts nz nineq neq r ->
  ir la nz nineq neq Q D G A F r k = Ok d -> ir la nz nineq neq Q D G A F r (S k) = Ok d' ->
  exists ex es dd, parts nz nineq neq d /\ parts nz nineq neq dd /\ d' = dirs_add d dd /\
    left d r = (ex, es, vzeros nineq, vzeros neq) /\
    left dd (vopp ex, vopp es, vopp (vzeros nineq), vopp (vzeros neq)) = (vscale (- ir_eps) (dir_x dd), vscale (- ir_eps) (dir_s dd), vzeros nineq, vzeros neq) /\
    left d' r = (vsub (vscale 2 ex) (vscale ir_eps (dir_x dd)), vsub (vscale 2 es) (vscale ir_eps (dir_s dd)), vzeros nineq, vzeros neq).
Proof.
  intros HP E E'. rewrite ir_eq in E, E'. rewrite (ir_S la nz nineq neq Q D G A F r k) in E'. rewrite E in E'. cbn [bind] in E'.
  destruct (ir_state la HL nz nineq neq Q D G A F HS r HP k d E) as (Hd & ex & es & El).
  destruct (ir_next la HL nz nineq neq Q D G A F HS r d d' ex es HP Hd El E') as (dd & -> & Hdd & Edd).
  exists ex, es, dd. split; [exact Hd|]. split; [exact Hdd|]. split; [reflexivity|]. split; [exact El|]. split; [exact Edd|].
  exact (proj2 (left_add nz nineq neq Q D G A F HS d dd r ex es Hd Hdd HP El Edd)).
Qed.
Lemma ir_doubles r k d d' : parts nz nineq neq r ->
  ir la nz nineq neq Q D G A F r k = Ok d -> ir la nz nineq neq Q D G A F r (S k) = Ok d' ->
  let '(dx, ds, _, _) := d in let '(dx', ds', _, _) := d' in
  exists ex es, left d r = (ex, es, vzeros nineq, vzeros neq) /\
    left d' r = (vsub (vscale 2 ex) (vscale ir_eps (vsub dx' dx)), vsub (vscale 2 es) (vscale ir_eps (vsub ds' ds)), vzeros nineq, vzeros neq).
Proof.
  intros HP E E'. destruct (ir_step r k d d' HP E E') as (ex & es & dd & Hd & Hdd & -> & El & _ & El'). destruct d as [[[dx ds] dz] dy], dd as [[[ax as_] az] ay].
  cbn [dirs_add] in *. exists ex, es. split; [exact El|]. rewrite El'. cbn [dir_x dir_s fst snd]. destruct Hd as (L1 & L2 & _), Hdd as (K1 & K2 & _).
  replace (vsub (vadd dx ax) dx) with ax by vec_ring nz. replace (vsub (vadd ds as_) ds) with as_ by vec_ring nineq. reflexivity.
Qed.

(** *** semidefinite data *)
Hypothesis HP : semidefinite nz nineq Q D F.
Lemma left_energy dd ex es : parts nz nineq neq dd -> length ex = nz -> length es = nineq ->
  left dd (vopp ex, vopp es, vopp (vzeros nineq), vopp (vzeros neq)) = (vscale (- ir_eps) (dir_x dd), vscale (- ir_eps) (dir_s dd), vzeros nineq, vzeros neq) ->
  ir_eps * (dot (dir_x dd) (dir_x dd) + dot (dir_s dd) (dir_s dd)) <= dot ex (dir_x dd) + dot es (dir_s dd).
Proof.
  destruct dd as [[[dx ds] dz] dy]. intros (L1 & L2 & L3 & L4) Lex Les E. cbn [leftover dir_x dir_s fst snd] in *. injection E as E1 E2 E3 E4.
  destruct HS as [WQ WD WG WA WF]. pose proof (wf_length _ _ _ WQ) as LQ. pose proof (wf_length _ _ _ WD) as LD. pose proof (wf_length _ _ _ WG) as LG. pose proof (wf_length _ _ _ WA) as LA.
  assert (N1 := vm_length nz dz G). assert (N2 := vm_length nz dy A).
  assert (N3 : length (mv Q dx) = nz) by (rewrite mv_length; auto). assert (N4 : length (mv G dx) = nineq) by (rewrite mv_length; auto).
  assert (N5 : length (mv D ds) = nineq) by (rewrite mv_length; auto). assert (N6 : length (mv A dx) = neq) by (rewrite mv_length; auto).
  pose proof (F_times_len nineq F dz WF) as N7.
  assert (X1 : ex = vadd (vadd (mv Q dx) (vm nz dz G)) (vadd (vm nz dy A) (vscale ir_eps dx))).
  { replace ex with (vsub (vscale (- ir_eps) dx) (vsub (vopp ex) (vscale ir_eps dx))) by vec_ring nz. rewrite <- E1. vec_ring nz. }
  assert (X2 : es = vadd (vadd (mv D ds) dz) (vscale ir_eps ds)).
  { replace es with (vsub (vscale (- ir_eps) ds) (vsub (vopp es) (vscale ir_eps ds))) by vec_ring nineq. rewrite <- E2. vec_ring nineq. }
  assert (X3 : vadd (mv G dx) ds = vadd (F_times nineq F dz) (vscale ir_eps dz)).
  { rewrite <- (vadd_zeros_r (vadd (F_times nineq F dz) (vscale ir_eps dz)) nineq) by vl. rewrite <- E3. vec_ring nineq. }
  assert (X4 : mv A dx = vscale ir_eps dy).
  { rewrite <- (vadd_zeros_r (vscale ir_eps dy) neq) by vl. rewrite <- E4. vec_ring neq. }
  assert (D1 : dot ex dx = dot dx (mv Q dx) + dot dz (mv G dx) + dot dy (mv A dx) + ir_eps * dot dx dx).
  { rewrite X1. rewrite !dot_vadd_l by (rewrite ?vadd_length, ?vscale_length; lia). rewrite (dot_vm nineq nz G dx dz), (dot_vm neq nz A dx dy) by auto.
    rewrite dot_vscale_l, (dot_comm (mv Q dx)). ring. }
  assert (D2 : dot es ds = dot ds (mv D ds) + dot dz ds + ir_eps * dot ds ds).
  { rewrite X2. rewrite !dot_vadd_l by (rewrite ?vadd_length, ?vscale_length; lia). rewrite dot_vscale_l, (dot_comm (mv D ds)). ring. }
  assert (D3 : dot dz (mv G dx) + dot dz ds = dot dz (F_times nineq F dz) + ir_eps * dot dz dz).
  { rewrite <- dot_vadd_r by lia. rewrite X3, dot_vadd_r by (rewrite vscale_length; lia). now rewrite dot_vscale_r. }
  assert (D4 : dot dy (mv A dx) = ir_eps * dot dy dy) by (rewrite X4; apply dot_vscale_r).
  pose proof (sd_Q _ _ _ _ _ HP dx L1). pose proof (sd_D _ _ _ _ _ HP ds L2). pose proof (sd_F _ _ _ _ _ HP dz L3).
  pose proof eps_pos as He. pose proof (Rmult_le_pos _ _ (Rlt_le _ _ He) (dot_self_nonneg dz)). pose proof (Rmult_le_pos _ _ (Rlt_le _ _ He) (dot_self_nonneg dy)).
  rewrite D1, D2. lra.
Qed.
Lemma grow n (e c : vecR) : length e = n -> length c = n -> 
  dot (vsub (vscale 2 e) c) (vsub (vscale 2 e) c) = dot e e + 3 * dot (vsub e c) (vsub e c) + 2 * (dot e c - dot c c).
Proof.
  intros He Hc. rewrite !dot_vsub_l, !dot_vsub_r by (rewrite ?vscale_length; lia). rewrite !dot_vscale_l, !dot_vscale_r, (dot_comm c e). ring.
Qed.
Lemma ir_grows r k d d' : parts nz nineq neq r ->
  ir la nz nineq neq Q D G A F r k = Ok d -> ir la nz nineq neq Q D G A F r (S k) = Ok d' ->
  size2 (left d r) <= size2 (left d' r).
Proof.
  intros HPr E E'. destruct (ir_step r k d d' HPr E E') as (ex & es & dd & Hd & Hdd & -> & El & Edd & El').
  assert (Lex : length ex = nz /\ length es = nineq).
  { destruct d as [[[dx ds] dz] dy], r as [[[rx rs] rz] ry]. destruct Hd as (L1 & L2 & L3 & L4), HPr as (M1 & M2 & M3 & M4), HS as [WQ WD _ _ _].
    pose proof (wf_length _ _ _ WQ). pose proof (wf_length _ _ _ WD). cbn [leftover] in El. injection El as <- <- _ _.
    split; rewrite !vadd_length, ?mv_length, ?vm_length; lia. }
  destruct Lex as [Lex Les]. pose proof (left_energy dd ex es Hdd Lex Les Edd) as HE.
  rewrite El, El'. cbn [size2]. destruct dd as [[[ax as_] az] ay]. destruct Hdd as (K1 & K2 & _). cbn [dir_x dir_s fst snd] in *.
  rewrite (grow nz ex), (grow nineq es) by vl. rewrite !dot_zeros_l. rewrite !dot_vscale_r, !dot_vscale_l.
  pose proof (dot_self_nonneg (vsub ex (vscale ir_eps ax))). pose proof (dot_self_nonneg (vsub es (vscale ir_eps as_))).
  pose proof eps_pos as He. pose proof (Rmult_le_compat_l ir_eps _ _ (Rlt_le _ _ He) HE). lra.
Qed.
Lemma ir_grows_all r k j d d' : parts nz nineq neq r -> (forall i, exists x, ir la nz nineq neq Q D G A F r i = Ok x) ->
  ir la nz nineq neq Q D G A F r k = Ok d -> ir la nz nineq neq Q D G A F r (k + j) = Ok d' -> size2 (left d r) <= size2 (left d' r).
Proof.
  intros HPr HT E. revert d'. induction j as [|j IH]; intros d' E'; [rewrite Nat.add_0_r in E'; assert (d' = d) by congruence; subst; lra|].
  destruct (HT (k + j)%nat) as [x Ex]. eapply Rle_trans; [apply (IH x Ex)|]. apply (ir_grows r (k + j)); auto. now rewrite <- plus_n_Sm in E'.
Qed.

(** totality *)
Lemma dot_pos (x : vecR) n : length x = n -> dot x x <= 0 -> x = vzeros n.
Proof. intros <- H. apply dot_self_zero. pose proof (dot_self_nonneg x). lra. Qed.
Lemma ir_H_quad (v : vecR) : length v = (nz + nineq)%nat ->
  ir_eps * dot v v <= dot v (mv (reg_H nz nineq (ir_reg nz Q) (ir_reg nineq D)) v).
Proof.
  intros Lv. rewrite <- (firstn_skipn nz v). set (x := firstn nz v). set (s := skipn nz v).
  assert (Lx : length x = nz) by (unfold x; rewrite firstn_length; lia). assert (Ls : length s = nineq) by (unfold s; rewrite skipn_length; lia).
  destruct HS as [WQ WD _ _ _]. pose proof (wf_length _ _ _ WQ) as LQ. pose proof (wf_length _ _ _ WD) as LD.
  destruct (ir_reg_ok nz Q x WQ Lx) as [W1 E1]. destruct (ir_reg_ok nineq D s WD Ls) as [W2 E2].
  rewrite mv_reg_H by auto. rewrite E1, E2. rewrite !dot_app by (rewrite ?vadd_length, ?mv_length, ?vscale_length; lia).
  rewrite !dot_vadd_r by (rewrite ?mv_length, ?vscale_length; lia). rewrite !dot_vscale_r.
  pose proof (sd_Q _ _ _ _ _ HP x Lx). pose proof (sd_D _ _ _ _ _ HP s Ls). lra.
Qed.
Lemma quad_nonsing n (M : matR) : (forall v, length v = n -> ir_eps * dot v v <= dot v (mv M v)) -> nonsingular n M.
Proof.
  intros H v Lv E. specialize (H v Lv). rewrite E, dot_zeros_r in H. apply dot_pos; auto.
  pose proof eps_pos as He. pose proof (dot_self_nonneg v). nra.
Qed.
Lemma solve_total r : parts nz nineq neq r ->
  exists d, factor_solve_kkt_reg la nz nineq neq (ir_reg nz Q) (ir_reg nineq D) G A (ir_C nineq neq F) (fst (fst (fst r))) (snd (fst (fst r))) (snd (fst r)) (snd r) = Ok d.
Proof.
  intros HPr. pose proof HS as [WQ WD WG WA WF]. unfold factor_solve_kkt_reg, reg_solve. set (nh := (nz + nineq)%nat). set (nw := (neq + nineq)%nat).
  assert (WQ' := proj1 (ir_reg_ok nz Q (vzeros nz) WQ (vzeros_length _))). assert (WD' := proj1 (ir_reg_ok nineq D (vzeros nineq) WD (vzeros_length _))).
  pose proof (wf_reg_H nz nineq _ _ WQ' WD') as WH. pose proof (wf_reg_A nz nineq neq G A WG WA) as WAA.
  assert (WC := proj1 (ir_C_ok nineq neq F (vzeros nineq) (vzeros neq) WF (vzeros_length _) (vzeros_length _))).
  rewrite (Nat.add_comm nineq neq) in WAA, WC. fold nw nh in WH, WAA, WC. set (H := reg_H _ _ _ _) in *. set (A_ := reg_A _ _ _ _) in *. set (C := ir_C _ _ _) in *.
  destruct (getrf_total la HL nh H WH (quad_nonsing nh H ir_H_quad)) as [HLU EH]. rewrite EH. cbn [bind]. pose proof (getrf_ok la HL _ _ _ WH EH) as FH.
  assert (WT : wf nh nw (mtr nh A_)) by (apply wf_mtr, WAA). pose proof (wf_getrs_mat la nh nw H HLU _ WH FH WT) as WI. set (IA := getrs_mat la HLU nh nw (mtr nh A_)) in *.
  assert (WS : wf nw nw (mm nw A_ IA)) by (apply wf_mm, WAA). assert (WSC : wf nw nw (msub (mm nw A_ IA) C)) by (now apply wf_msub).
  assert (NS : nonsingular nw (msub (mm nw A_ IA) C)).
  { apply quad_nonsing. intros w Lw. rewrite (mv_msub nw nw _ _ w WS WC). rewrite (mv_mm nw nh nw) by auto.
    unfold IA. rewrite (getrs_mat_mv la HL nh nw H) by auto. assert (LT : length (mv (mtr nh A_) w) = nh) by (rewrite mv_length; apply WT).
    destruct (getrs_solves la HL nh H HLU _ WH FH LT) as [Lq Eq]. set (q := la_getrs la HLU _) in *.
    pose proof (wf_length _ _ _ WAA) as LAA. pose proof (wf_length _ _ _ WC) as LC. rewrite dot_vsub_r by (rewrite !mv_length; lia).
    rewrite <- (dot_vm nw nh A_ q w) by auto. change (vm nh w A_) with (mv (mtr nh A_) w). rewrite <- Eq, (dot_comm (mv H q) q).
    pose proof (ir_H_quad q Lq) as Hq. fold H in Hq. pose proof eps_pos as He. pose proof (Rmult_le_pos _ _ (Rlt_le _ _ He) (dot_self_nonneg q)).
    rewrite <- (firstn_skipn nineq w). set (z := firstn nineq w). set (y := skipn nineq w).
    assert (Lz : length z = nineq) by (unfold z; rewrite firstn_length; unfold nw in *; lia). assert (Ly : length y = neq) by (unfold y; rewrite skipn_length; unfold nw in *; lia).
    unfold C. rewrite (proj2 (ir_C_ok nineq neq F z y WF Lz Ly)). pose proof (F_times_len nineq F z WF) as LF.
    rewrite !dot_app by (rewrite ?vopp_length, ?vadd_length, ?vscale_length; lia).
    rewrite !dot_vopp_r, dot_vscale_r, dot_vadd_r by (rewrite vscale_length; lia). rewrite dot_vscale_r.
    pose proof (sd_F _ _ _ _ _ HP z Lz). lra. }
  destruct (getrf_total la HL nw _ WSC NS) as [SLU ES]. rewrite ES. cbn [bind]. eexists. reflexivity.
Qed.
Lemma ir_total r k : parts nz nineq neq r -> exists d, ir la nz nineq neq Q D G A F r k = Ok d.
Proof.
  intros HPr. induction k as [|k IH].
  - destruct (solve_total r HPr) as [d E]. exists d. rewrite ir_eq. unfold solve_kkt_ir. rewrite E. reflexivity.
  - destruct IH as [d E]. rewrite ir_eq in E. destruct (ir_state la HL nz nineq neq Q D G A F HS r HPr k d E) as (Hd & ex & es & El).
    rewrite ir_eq, (ir_S la nz nineq neq Q D G A F r k), E. cbn [bind ir_loop].
    assert (Er : kkt_resid_reg nz neq Q D G A (ir_F nineq neq F) ir_eps d (fst (fst (fst r))) (snd (fst (fst r))) (snd (fst r)) (snd r) = (ex, es, vzeros nineq, vzeros neq)).
    { rewrite <- El. destruct r as [[[rx rs] rz] ry]. exact (resid_left nz nineq neq Q D G A F HS d rx rs rz ry Hd HPr). }
    rewrite Er.
    assert (HPe : parts nz nineq neq (vopp ex, vopp es, vopp (vzeros nineq), vopp (vzeros neq))).
    { destruct d as [[[dx ds] dz] dy], r as [[[rx rs] rz] ry]. destruct Hd as (L1 & L2 & L3 & L4), HPr as (M1 & M2 & M3 & M4), HS as [WQ WD _ _ _].
      pose proof (wf_length _ _ _ WQ). pose proof (wf_length _ _ _ WD). cbn [leftover] in El. injection El as <- <- _ _.
      cbn [parts]. repeat split; rewrite vopp_length; rewrite ?vzeros_length; auto; rewrite !vadd_length, ?mv_length, ?vm_length; lia. }
    destruct (solve_total _ HPe) as [dd Edd]. cbn [fst snd] in Edd. rewrite Edd. cbn [bind]. eexists. reflexivity.
Qed.
End Ir.

(** *** one unknown, one inequality it does not occur in: the leftover grows without bound *)
Definition one_r : dirs R := ([1], [0], [0], []).
Lemma one_shapes : shapes 1 1 0 [[1]] [[1]] [[0]] [] None.
Proof. split; try (split; [reflexivity|repeat constructor]). exact I. Qed.
Lemma one_semi : semidefinite 1 1 [[1]] [[1]] None.
Proof.
  split; intros [|a [|b x]] L; try discriminate; cbn [mv map F_times vzeros repeat]; rewrite ?dot_cons, ?dot_nil_l; rnum; nra.
Qed.
Section One.
Variable la : lapack R.
Hypothesis HL : lapack_ok la.
Lemma one_parts : parts 1 1 0 one_r.
Proof. cbn. auto. Qed.
Notation left := (leftover 1 1 0 [[1]] [[1]] [[0]] [] None ir_eps ir_eps).
Lemma one_left k : exists d e, ir la 1 1 0 [[1]] [[1]] [[0]] [] None one_r k = Ok d /\
  fst (fst (fst (left d one_r))) = [e] /\ ir_eps / (1 + ir_eps) * (3 / 2) ^ k <= e.
Proof.
  pose proof eps_pos as He. assert (He1 : ir_eps < 1) by (rewrite eps_val; lra).
  induction k as [|k (d & e & E & El & Hb)].
  - destruct (ir_total la HL _ _ _ _ _ _ _ _ one_shapes one_semi one_r 0 one_parts) as [d E]. exists d.
    pose proof E as E1. rewrite ir_eq in E1. destruct (ir_state la HL _ _ _ _ _ _ _ _ one_shapes one_r one_parts 0 d E1) as (Hd & _).
    pose proof (ir_regularised la HL _ _ _ _ _ _ _ _ one_shapes one_r d one_parts E) as H. destruct d as [[[dx ds] dz] dy].
    destruct Hd as (L1 & L2 & L3 & L4). destruct dx as [|x [|? ?]]; try discriminate. destruct dz as [|z [|? ?]]; try discriminate. destruct dy; try discriminate.
    cbn in H. cbn [leftover fst one_r]. cbn. rnum. injection H as H1 _ _. exists (1 * x + 0 + (0 * z + 0) + (0 + 1)). split; [exact E|]. split; [f_equal; ring|].
    assert (X : x = - / (1 + ir_eps)). { apply (Rmult_eq_reg_l (1 + ir_eps)); [|lra]. rewrite <- Ropp_mult_distr_r, Rinv_r by lra. lra. }
    rewrite X. apply Req_le. field. lra.
  - destruct (ir_total la HL _ _ _ _ _ _ _ _ one_shapes one_semi one_r (S k) one_parts) as [d' E'].
    destruct (ir_step la HL _ _ _ _ _ _ _ _ one_shapes one_r k d d' one_parts E E') as (ex & es & dd & Hd & Hdd & -> & E1 & E2 & E3).
    exists (dirs_add d dd). rewrite E3. cbn [fst]. rewrite E1 in El. cbn [fst] in El. subst ex.
    destruct dd as [[[dx ds] dz] dy]. destruct Hdd as (L1 & L2 & L3 & L4). destruct dx as [|x [|? ?]]; try discriminate. destruct dz as [|z [|? ?]]; try discriminate. destruct dy; try discriminate.
    cbn [leftover dir_x dir_s fst snd] in *. injection E2 as E2 _ _. cbn in E2. rnum.
    exists (2 * e - ir_eps * x). split; [exact E'|]. split; [reflexivity|].
    assert (X : x = e / (1 + ir_eps)). { apply (Rmult_eq_reg_l (1 + ir_eps)); [|lra]. unfold Rdiv. replace ((1 + ir_eps) * (e * / (1 + ir_eps))) with e by (field; lra). lra. }
    assert (P : 0 <= ir_eps / (1 + ir_eps) * (3 / 2) ^ k). { apply Rmult_le_pos; [apply Rlt_le, Rdiv_lt_0_compat; lra|apply pow_le; lra]. }
    rewrite X. replace (2 * e - ir_eps * (e / (1 + ir_eps))) with (e * (1 + / (1 + ir_eps))) by (field; lra).
    assert (Q1 : / 2 <= / (1 + ir_eps)) by (apply Rinv_le_contravar; lra).
    replace ((3 / 2) ^ S k) with ((3 / 2) ^ k * (3 / 2)) by (cbn; ring). nra.
Qed.
Lemma one_unbounded B : exists k d, ir la 1 1 0 [[1]] [[1]] [[0]] [] None one_r k = Ok d /\ B < size2 (left d one_r).
Proof.
  pose proof eps_pos as He. set (c := ir_eps / (1 + ir_eps)). assert (Hc : 0 < c) by (apply Rdiv_lt_0_compat; lra).
  destruct (Pow_x_infinity (3 / 2) ltac:(rewrite Rabs_right; lra) ((1 + Rabs B) / c)) as [k Hk]. specialize (Hk k (le_n k)).
  destruct (one_left k) as (d & e & E & El & Hb). exists k, d. split; [exact E|]. destruct (left d one_r) as [[[ex es] ez] ey]. cbn [fst] in El. subst ex. cbn [size2].
  pose proof (dot_self_nonneg es). pose proof (dot_self_nonneg ez). pose proof (dot_self_nonneg ey). rewrite dot_cons, dot_nil_l.
  rewrite Rabs_right in Hk by (apply Rle_ge, pow_le; lra). fold c in Hb. assert (1 + Rabs B <= e).
  { apply Rle_trans with (c * (3 / 2) ^ k); auto. apply Rge_le in Hk. apply (Rmult_le_compat_l c) in Hk; [|lra]. replace (c * ((1 + Rabs B) / c)) with (1 + Rabs B) in Hk by (field; lra). exact Hk. }
  pose proof (Rabs_pos B). pose proof (RRle_abs B). nra.
Qed.
End One.
Lemma kkt_opposite la (HL : lapack_ok la) nz nineq neq Q D G A C rx rs rz ry dx ds dz dy :
  wf nz nz Q -> wf nineq nineq D -> wf nineq nz G -> wf neq nz A -> wf (nineq + neq) (nineq + neq) C ->
  parts nz nineq neq (rx, rs, rz, ry) -> (0 < neq)%nat ->
  factor_solve_kkt la nz nineq neq Q D (hcat G (meye nineq) ++ hcat A (mzeros neq nineq)) C rx rs rz ry = Ok (dx, ds, dz, dy) ->
  parts nz nineq neq (dx, ds, dz, dy) /\
  vadd (vadd (mv Q dx) (vm nz dz G)) (vadd (vm nz dy A) rx) = vzeros nz /\
  vadd (vadd (mv D ds) dz) rs = vzeros nineq /\
  vadd (vsub (vadd (mv G dx) ds ++ mv A dx) (mv C (dz ++ dy))) (rz ++ ry) = vzeros (nineq + neq).
Proof.
  intros WQ WD WG WA WC HP HN E.
  assert (EA : hcat G (meye nineq) ++ hcat A (mzeros neq nineq) = reg_A nineq neq G A) by (unfold reg_A; destruct neq; [lia|reflexivity]).
  unfold vec, mat in *. rewrite EA in E. apply (kkt_opp_ok la nz nineq neq Q D G A C) in E; auto.
  assert (WC' := wf_mopp _ _ _ WC).
  destruct (kkt_reg_ok la HL nz nineq neq Q D G A (mopp C) rx rs rz ry (dx, ds, dz, dy) WQ WD WG WA WC' HP E) as (P & E1 & E2 & E3).
  split; [exact P|]. split; [exact E1|]. split; [exact E2|]. rewrite mv_mopp in E3. now rewrite vsub_vadd.
Qed.
