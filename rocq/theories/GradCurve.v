(** Curves of solutions through a given interior point, and where the gradients are wrong *)
From Coq Require Import List Arith ZArith Bool Reals Lra Lia.
From Verif Require Import Num Tensor Lapack Pdipm Lcp LinAlg LapackSpec KktSpec PdipmSpec RBase KktFactor KktTotal PdipmFacts PdipmLoop SolverFacts ResFacts GradSpec GradFacts.
Import ListNotations.
Open Scope R_scope.

Lemma lim_line a b : derivable_pt_lim (fun t => a + t * b) 0 b.
Proof.
  intros eps Heps. exists (mkposreal 1 Rlt_0_1). intros h Hh _. replace ((a + (0 + h) * b - (a + 0 * b)) / h - b) with 0 by (field; exact Hh). now rewrite Rabs_R0.
Qed.
Lemma rate_line (a u : vecR) : length u = length a -> vrate (fun t => vadd a (vscale t u)) u.
Proof.
  intros L i. destruct (lt_dec i (length a)) as [Hi|Hi].
  - apply (derivable_pt_lim_ext (fun t => vget a i + t * vget u i)); [intros t; rewrite vget_vadd by (vlen); now rewrite vget_vscale|].
    apply lim_line.
  - rewrite vget_out by (unfold vec in *; lia). apply (lim_const _ 1 0); [lra|]. intros t _. apply vget_out. rewrite vadd_length. lia.
Qed.
Lemma rate_const (a : vecR) : vrate (fun _ => a) (vzeros (length a)).
Proof. intros i. rewrite vget_zeros. apply derivable_pt_lim_const. Qed.
Lemma mget_zeros m n i j : mget (mzeros m n : matR) i j = 0.
Proof.
  unfold mget, mzeros. destruct (lt_dec i m) as [Hi|Hi].
  - rewrite (nth_indep _ [] (vzeros n)) by (rewrite repeat_length; lia). rewrite nth_repeat. apply vget_zeros.
  - rewrite nth_overflow by (rewrite repeat_length; lia). apply vget_out. cbn. lia.
Qed.
Lemma mrate_const (A : matR) m n : mrate (fun _ => A) (mzeros m n).
Proof. intros i j. rewrite mget_zeros. apply derivable_pt_lim_const. Qed.
Lemma symm_mzeros n : symm n (mzeros n n).
Proof.
  split; [apply wf_mzeros|]. apply (mat_ext n n); [apply wf_mtr, mzeros_length|apply wf_mzeros|].
  intros i j Hi Hj. rewrite mget_mtr by (rewrite ?mzeros_length; lia). now rewrite !mget_zeros.
Qed.
Lemma mdot_zeros m n (A : matR) : mdot A (mzeros m n) = 0.
Proof.
  revert A. unfold mzeros. induction m as [|m IH]; intros [|a A]; cbn [repeat mdot]; try reflexivity. rewrite IH. rewrite dot_zeros_r. ring.
Qed.

Lemma prob_eta (q : prob R) : mkProb (pr_Q q) (pr_p q) (pr_G q) (pr_h q) (pr_A q) (pr_b q) (pr_F q) = q.
Proof. now destruct q. Qed.
Lemma iter_eta (q : iter R) : mkIter (i_x q) (i_s q) (i_z q) (i_y q) = q.
Proof. now destruct q. Qed.

Section Curve.
Variables nz nineq neq : nat.
Variables (p0 : prob R) (it0 : iter R) (u w : vecR).
Hypothesis Hsz : sized nz nineq neq p0.
Hypothesis Hpt : point nz nineq neq it0.
Hypothesis Hin : interior it0.
Hypothesis Lu : length u = nz.
Hypothesis Lw : length w = nineq.
Let Q := pr_Q p0. Let G := pr_G p0. Let F := pr_F p0. Let A := pr_A p0.
Let x0 := i_x it0. Let s0 := i_s it0. Let z0 := i_z it0.

(** x moves along u, z along w; s keeps the products; the data follow *)
Definition c_s (t : R) : vecR := vdiv (vmul s0 z0) (vadd z0 (vscale t w)).
Definition c_it (t : R) : iter R := mkIter (vadd x0 (vscale t u)) (c_s t) (vadd z0 (vscale t w)) (i_y it0).
Definition c_pr (t : R) : prob R :=
  mkProb Q (vsub (pr_p p0) (vadd (mv Q (vscale t u)) (vm nz (vscale t w) G))) G
    (vadd (pr_h p0) (vsub (vadd (mv G (vscale t u)) (vsub (c_s t) s0)) (mv F (vscale t w)))) A (vadd (pr_b p0) (mv A (vscale t u))) F.
Definition c_ds : vecR := vopp (vdiv (vmul s0 w) z0).
Definition c_dit : iter R := mkIter u c_ds w (vzeros neq).
Definition c_dpr : prob R :=
  mkProb (mzeros nz nz) (vopp (vadd (mv Q u) (vm nz w G))) (mzeros nineq nz) (vsub (vadd (mv G u) c_ds) (mv F w)) (mzeros neq nz) (mv A u) (mzeros nineq nineq).
(** as long as no multiplier reaches zero *)
Definition c_r : R := fold_right (fun zw a => Rmin (fst zw / (1 + Rabs (snd zw))) a) 1 (combine z0 w).

Let SQ : symm nz Q. Proof. apply Hsz. Qed.
Let WQ : wf nz nz Q. Proof. apply Hsz. Qed.
Let WG : wf nineq nz G. Proof. apply Hsz. Qed.
Let WF : wf nineq nineq F. Proof. apply Hsz. Qed.
Let WA : wf neq nz A. Proof. apply Hsz. Qed.
Let Lp : length (pr_p p0) = nz. Proof. apply Hsz. Qed.
Let Lh : length (pr_h p0) = nineq. Proof. apply Hsz. Qed.
Let Lb : length (pr_b p0) = neq. Proof. apply Hsz. Qed.
Let Lx : length x0 = nz. Proof. apply Hpt. Qed.
Let Ls : length s0 = nineq. Proof. apply Hpt. Qed.
Let Lz : length z0 = nineq. Proof. apply Hpt. Qed.
Let Ly : length (i_y it0) = neq. Proof. apply Hpt. Qed.
Let lQ x : length (mv Q x) = nz. Proof. rewrite mv_length. apply WQ. Qed.
Let lG x : length (mv G x) = nineq. Proof. rewrite mv_length. apply WG. Qed.
Let lF x : length (mv F x) = nineq. Proof. rewrite mv_length. apply WF. Qed.
Let lA x : length (mv A x) = neq. Proof. rewrite mv_length. apply WA. Qed.
Let lGt z : length (vm nz z G) = nz. Proof. apply vm_length. Qed.
Let lAt z : length (vm nz z A) = nz. Proof. apply vm_length. Qed.
Let ls t : length (c_s t) = nineq. Proof. unfold c_s. rewrite vdiv_length, vmul_length, vadd_length, vscale_length. unfold vec in *. lia. Qed.
Let lds : length c_ds = nineq. Proof. unfold c_ds. rewrite vopp_length, vdiv_length, vmul_length. unfold vec in *. lia. Qed.
Ltac ll := unfold vec, mat in *; rewrite ?vsub_length, ?vadd_length, ?vopp_length, ?vscale_length, ?vmul_length, ?vdiv_length, ?lQ, ?lG, ?lF, ?lA, ?lGt, ?lAt, ?ls, ?lds, ?vzeros_length; unfold vec, mat in *; try lia.
Let eQ : length Q = nz. Proof. apply WQ. Qed.
Let eG : length G = nineq. Proof. apply WG. Qed.
Let eF : length F = nineq. Proof. apply WF. Qed.
Let eA : length A = neq. Proof. apply WA. Qed.
Ltac lv := unfold vec, mat in *; repeat first [rewrite vzeros_length|rewrite vsub_length|rewrite vadd_length|rewrite vopp_length|rewrite vscale_length|rewrite vmul_length|rewrite vdiv_length|rewrite lQ|rewrite lG|rewrite lF|rewrite lA|rewrite lGt|rewrite lAt|rewrite ls|rewrite lds]; unfold vec, mat in *; lia.

Lemma c_z_pos t i : - c_r < t < c_r -> (i < nineq)%nat -> 0 < vget z0 i + t * vget w i.
Proof.
  intros Ht Hi. assert (H : c_r <= vget z0 i / (1 + Rabs (vget w i))).
  { unfold c_r. clear Ht. revert Lz Lw Hi. generalize nineq as n. revert i. clear. generalize w. induction z0 as [|a z IH]; intros [|b w'] i n L1 L2 Hi; cbn in L1, L2; subst n; try (cbn in Hi; lia); try discriminate.
    cbn [combine fold_right fst snd]. destruct i as [|i]; [unfold vget; cbn [nth]; apply Rmin_l|].
    eapply Rle_trans; [apply Rmin_r|]. unfold vget. cbn [nth]. apply (IH w' i (length w')); [cbn in *; lia|reflexivity|cbn in *; lia]. }
  assert (P : 0 < vget z0 i) by (apply pos_get; [apply Hin|unfold vec in *; lia]). pose proof (Rabs_pos (vget w i)) as B.
  assert (T : Rabs t < vget z0 i / (1 + Rabs (vget w i))) by (eapply Rlt_le_trans; [|exact H]; apply Rabs_def1; lra).
  assert (T2 : Rabs t * (1 + Rabs (vget w i)) < vget z0 i). { apply (Rmult_lt_compat_r (1 + Rabs (vget w i))) in T; [|lra]. unfold Rdiv in T. rewrite Rmult_assoc, Rinv_l, Rmult_1_r in T by lra. exact T. }
  pose proof (Rabs_pos t). pose proof (Rabs_mult t (vget w i)) as M. pose proof (Rle_abs (- (t * vget w i))) as N. rewrite Rabs_Ropp in N. nra.
Qed.
Lemma c_r_pos : 0 < c_r.
Proof.
  unfold c_r. pose proof (proj2 Hin) as P. fold z0 in P. clear - P. revert w. induction P as [|a z Ha _ IH]; intros [|b w']; cbn [combine fold_right fst snd]; try lra.
  apply Rmin_glb_lt; [|apply IH]. pose proof (Rabs_pos b). apply Rdiv_lt_0_compat; lra.
Qed.
Lemma c_0 : c_pr 0 = p0 /\ c_it 0 = it0.
Proof.
  assert (Es : c_s 0 = s0).
  { apply vext; [ll|]. intros i Hi. rewrite ls in Hi. unfold c_s. rewrite vget_vdiv, vget_vmul, vget_vadd, vget_vscale by lv. assert (P : 0 < vget z0 i) by (apply pos_get; [apply Hin|unfold vec in *; lia]). field. lra. }
  split.
  - unfold c_pr. rewrite Es. rewrite <- (prob_eta p0) at 4. fold Q G A F. rewrite !vscale_0, !mv_zeros, Lw, vm_zeros. f_equal.
    + apply vext; [lv|]. intros i Hi. assert (Hi' : (i < nz)%nat) by (revert Hi; lv). rewrite vget_vsub, vget_vadd, !vget_zeros by lv. ring.
    + apply vext; [lv|]. intros i Hi. assert (Hi' : (i < nineq)%nat) by (revert Hi; lv). rewrite !vget_vadd, !vget_vsub, vget_vadd, !vget_vsub, !vget_zeros by lv. ring.
    + apply vext; [lv|]. intros i Hi. assert (Hi' : (i < neq)%nat) by (revert Hi; lv). rewrite vget_vadd, !vget_zeros by lv. ring.
  - unfold c_it. rewrite Es, !vscale_0. rewrite <- (iter_eta it0) at 2. fold x0 s0 z0. f_equal; rewrite vadd_zeros_r; auto; unfold vec in *; congruence.
Qed.
Lemma c_curve : solution_curve nz nineq neq c_pr c_it c_r.
Proof.
  destruct c_0 as [E1 E2]. constructor.
  - apply c_r_pos.
  - intros t _. constructor; cbn [c_pr pr_Q pr_p pr_G pr_h pr_A pr_b pr_F]; [constructor; auto| | |]; lv.
  - intros t _. constructor; cbn [c_it i_x i_s i_z i_y]; try lv.
  - intros t _. rewrite E1, E2. unfold stationarity. cbn [c_pr c_it pr_Q pr_p pr_G pr_h pr_A pr_b pr_F i_x i_s i_z i_y].
    rewrite mv_vadd, vm_vadd by lv. fold Q G A F x0 z0. vec_eq. ring.
  - intros t _. rewrite E1, E2. unfold inequality. cbn [c_pr c_it pr_Q pr_p pr_G pr_h pr_A pr_b pr_F i_x i_s i_z i_y].
    rewrite !mv_vadd by lv. fold Q G A F x0 z0 s0. apply vext; [lv|]. intros i Hi. assert (Hi' : (i < nineq)%nat) by (revert Hi; lv).
    repeat first [rewrite vget_vadd by lv | rewrite vget_vsub by lv]. ring.
  - intros t _. rewrite E1, E2. unfold equality. cbn [c_pr c_it pr_Q pr_p pr_G pr_h pr_A pr_b pr_F i_x i_s i_z i_y].
    rewrite !mv_vadd by lv. fold Q G A F x0 z0 s0. apply vext; [lv|]. intros i Hi. assert (Hi' : (i < neq)%nat) by (revert Hi; lv).
    repeat first [rewrite vget_vadd by lv | rewrite vget_vsub by lv]. ring.
  - intros t Ht. rewrite E2. cbn [c_it i_s i_z]. fold s0 z0. apply vext; [lv|]. intros i Hi. assert (Hi' : (i < nineq)%nat) by (revert Hi; lv).
    pose proof (c_z_pos t i Ht Hi') as P. unfold c_s. rewrite !vget_vmul, vget_vdiv, vget_vmul, vget_vadd, vget_vscale by lv. field. lra.
Qed.
Lemma c_rate_s : vrate c_s c_ds.
Proof.
  intros i. pose proof c_r_pos as Hr. destruct (lt_dec i nineq) as [Hi|Hi].
  - assert (P : 0 < vget z0 i) by (apply pos_get; [apply Hin|unfold vec in *; lia]).
    apply (derivable_pt_lim_ext (fun t => (vget s0 i * vget z0 i) / (vget z0 i + t * vget w i))).
    { intros t. unfold c_s. now rewrite vget_vdiv, vget_vmul, vget_vadd, vget_vscale by lv. }
    unfold c_ds. rewrite vget_vopp, vget_vdiv, vget_vmul by lv.
    replace (- (vget s0 i * vget w i / vget z0 i)) with ((0 * (vget z0 i + 0 * vget w i) - vget w i * (vget s0 i * vget z0 i)) / Rsqr (vget z0 i + 0 * vget w i)) by (unfold Rsqr; field; lra).
    apply (derivable_pt_lim_div (fct_cte (vget s0 i * vget z0 i)) (fun t => vget z0 i + t * vget w i)); [apply derivable_pt_lim_const|apply lim_line|lra].
  - rewrite vget_out by lv. apply (lim_const _ 1 0); [lra|]. intros t _. apply vget_out. lv.
Qed.
Lemma c_point_rate : point_rate nz nineq neq c_it c_dit.
Proof.
  constructor; cbn [c_it c_dit i_x i_s i_z i_y].
  - constructor; cbn [c_dit i_x i_s i_z i_y]; auto. apply vzeros_length.
  - apply rate_line. lv.
  - apply c_rate_s.
  - apply rate_line. lv.
  - rewrite <- Ly. apply rate_const.
Qed.
Lemma rate_scaled (m : nat) (f : vecR -> vecR) (v : vecR) : (forall t, f (vscale t v) = vscale t (f v)) -> vrate (fun t => f (vscale t v)) (f v).
Proof.
  intros H i. apply (derivable_pt_lim_ext (fun t => 0 + t * vget (f v) i)); [intros t; rewrite H, vget_vscale; ring|apply lim_line].
Qed.
Lemma c_data_rate : data_rate nz nineq neq c_pr c_dpr.
Proof.
  pose proof c_r_pos as Hr.
  constructor; cbn [c_pr c_dpr pr_Q pr_p pr_G pr_h pr_A pr_b pr_F]; try apply mrate_const.
  - constructor; cbn [c_dpr pr_Q pr_p pr_G pr_h pr_A pr_b pr_F]; [|lv|lv|lv]. constructor; try apply wf_mzeros. apply symm_mzeros.
  - replace (vopp (vadd (mv Q u) (vm nz w G))) with (vsub (vzeros (length (pr_p p0))) (vadd (mv Q u) (vm nz w G))) by (vec_eq; try ring; ll).
    apply (rate_vsub (fun _ => pr_p p0) (fun t => vadd (mv Q (vscale t u)) (vm nz (vscale t w) G)) _ _ nz c_r Hr); try (intros; lv); [apply rate_const|].
    apply (rate_vadd (fun t => mv Q (vscale t u)) (fun t => vm nz (vscale t w) G) _ _ nz c_r Hr); try (intros; lv).
    + apply (rate_scaled nz (mv Q)). intros t. apply mv_vscale.
    + apply (rate_scaled nz (fun v => vm nz v G)). intros t. apply vm_vscale.
  - rewrite <- (vadd_zeros_l (vsub (vadd (mv G u) c_ds) (mv F w)) nineq) by lv. rewrite <- Lh at 1.
    apply (rate_vadd (fun _ => pr_h p0) (fun t => vsub (vadd (mv G (vscale t u)) (vsub (c_s t) s0)) (mv F (vscale t w))) _ _ nineq c_r Hr); try (intros; lv); [apply rate_const|].
    apply (rate_vsub (fun t => vadd (mv G (vscale t u)) (vsub (c_s t) s0)) (fun t => mv F (vscale t w)) _ _ nineq c_r Hr); try (intros; lv).
    + apply (rate_vadd (fun t => mv G (vscale t u)) (fun t => vsub (c_s t) s0) _ _ nineq c_r Hr); try (intros; lv).
      * apply (rate_scaled nz (mv G)). intros t. apply mv_vscale.
      * rewrite <- (vsub_zeros_r c_ds nineq) by lv. rewrite <- Ls at 1. apply (rate_vsub c_s (fun _ => s0) _ _ nineq c_r Hr); try (intros; lv); [apply c_rate_s|apply rate_const].
    + apply (rate_scaled nz (mv F)). intros t. apply mv_vscale.
  - rewrite <- (vadd_zeros_l (mv A u) neq) by lv. rewrite <- Lb at 1.
    apply (rate_vadd (fun _ => pr_b p0) (fun t => mv A (vscale t u)) _ _ neq c_r Hr); try (intros; lv); [apply rate_const|].
    apply (rate_scaled nz (mv A)). intros t. apply mv_vscale.
Qed.
End Curve.

(** *** when the gradients are right *)
Section Exact.
Variable la : lapack R.
Hypothesis HL : lapack_ok la.
Variables nz nineq neq : nat.
Variables (o : lcp_opts R) (ps : list (prob R)) (xs : list (vec R)) (sv : lcp_saved R).
Hypothesis Hsz : Forall (sized nz nineq neq) ps.
Hypothesis Hlim : (0 < lo_lim o)%nat.
Hypothesis HF : lcp_forward la o nz nineq neq ps = Ok (Some (xs, sv)).
Variables (dls : list (vec R)) (gs : list (grads R)) (i : nat) (g : grads R) (dl : vec R) (p0 : prob R) (it0 : iter R).
Hypothesis HB : lcp_backward la sv dls = Ok gs.
Hypothesis Hg : nth_error gs i = Some g.
Hypothesis Hdl : nth_error dls i = Some dl.
Hypothesis Ldl : length dl = nz.
Hypothesis Hp : nth_error ps i = Some p0.
Hypothesis Hit : nth_error (sv_best sv) i = Some it0.

Lemma gradient_exact :
  (forall pr it r dpr dit, solution_curve nz nineq neq pr it r -> pr 0 = p0 -> it 0 = it0 -> data_rate nz nineq neq pr dpr -> point_rate nz nineq neq it dit ->
     derivable_pt_lim (fun t => dot dl (i_x (it t))) 0 (chain g dpr)) <->
  (forall w, length w = nineq -> dot w (mv (pr_F p0) (g_h g)) = dot (g_h g) (mv (pr_F p0) w)).
Proof.
  destruct (lcp_forward_start _ _ _ _ _ _ _ HF) as (Hn & _).
  assert (D : forall pr it r dpr dit, solution_curve nz nineq neq pr it r -> pr 0 = p0 -> it 0 = it0 -> data_rate nz nineq neq pr dpr -> point_rate nz nineq neq it dit ->
     derivable_pt_lim (fun t => dot dl (i_x (it t))) 0 (chain g dpr - (dot (i_z dit) (mv (pr_F p0) (g_h g)) - dot (g_h g) (mv (pr_F p0) (i_z dit))))).
  { intros pr it r dpr dit HC P0 I0 HD HP. pose proof (backward_derivative la HL nz nineq neq Hn o ps xs sv Hsz Hlim HF dls gs i g dl p0 it0 pr it r dpr dit HB Hg Hdl Ldl Hp Hit HC P0 I0 HD HP) as X.
    rewrite mv_vopp, dot_vopp_r, dot_vopp_l in X. eapply eq_rect; [exact X|]. ring. }
  split.
  - intros H w Lw. destruct (forward_returned la HL o nz nineq neq ps xs sv Hsz Hlim HF i it0 Hit) as (p2 & Ep2 & Pt & Int & _).
    assert (S0 : sized nz nineq neq p0) by (rewrite Forall_forall in Hsz; apply Hsz; now apply nth_error_In with i).
    destruct (c_0 nz nineq neq p0 it0 (vzeros nz) w S0 Pt Int (vzeros_length nz) Lw) as [C1 C2].
    pose proof (c_curve nz nineq neq p0 it0 (vzeros nz) w S0 Pt Int (vzeros_length nz) Lw) as HC.
    pose proof (c_data_rate nz nineq neq p0 it0 (vzeros nz) w S0 Pt Int (vzeros_length nz) Lw) as HD.
    pose proof (c_point_rate nz nineq neq p0 it0 (vzeros nz) w S0 Pt Int (vzeros_length nz) Lw) as HP.
    pose proof (uniqueness_limite _ _ _ _ (H _ _ _ _ _ HC C1 C2 HD HP) (D _ _ _ _ _ HC C1 C2 HD HP)) as U. cbn [c_dit i_z] in U. lra.
  - intros H pr it r dpr dit HC P0 I0 HD HP. pose proof (D pr it r dpr dit HC P0 I0 HD HP) as X. rewrite (H (i_z dit) (pt_z _ _ _ _ (pr_point _ _ _ _ _ HP))) in X.
    eapply eq_rect; [exact X|]. ring.
Qed.
End Exact.

(** *** a problem on which they are wrong: one variable, two complementarity pairs coupled by an
    antisymmetric F (as the cone variables of friction are) *)
Definition skew : prob R := mkProb [[1]] [0] [[1]; [0]] [-1; -1] [] [] [[0; 1]; [-1; 0]].
Lemma skew_sized : sized 1 2 0 skew.
Proof.
  constructor; [constructor|..]; cbn; try reflexivity; unfold symm, wf; cbn; repeat split; auto.
Qed.
Lemma dot_1 (a b : R) : dot [a] [b] = a * b. Proof. rewrite dot_cons, dot_nil_l. ring. Qed.
Lemma dot_2 (a b c d : R) : dot [a; b] [c; d] = a * c + b * d. Proof. rewrite !dot_cons, dot_nil_l. ring. Qed.
Lemma skew_posed : posed 1 2 0 skew.
Proof.
  constructor.
  - intros [|a [|b x]] L N; try discriminate. unfold skew, dot, mv, vmul; cbn. rnum. unfold dot, vmul; cbn. rnum. assert (a <> 0) by (intros ->; apply N; reflexivity). assert (0 < a * a) by nra. lra.
  - intros [|? ?] L; [reflexivity|discriminate].
  - intros [|a [|b [|c z]]] L; try discriminate. unfold skew, dot, mv, vmul; cbn. rnum. unfold dot, vmul; cbn. rnum. lra.
Qed.
Lemma skew_wrong la o xs sv g : lapack_ok la -> (0 < lo_lim o)%nat -> lcp_forward la o 1 2 0 [skew] = Ok (Some (xs, sv)) -> lcp_backward la sv [[1]] = Ok [g] ->
  exists it0 pr it r dpr dit, nth_error (sv_best sv) 0 = Some it0 /\ solution_curve 1 2 0 pr it r /\ pr 0 = skew /\ it 0 = it0 /\ data_rate 1 2 0 pr dpr /\ point_rate 1 2 0 it dit /\
    (forall t, i_x (it t) = i_x it0) /\ chain g dpr <> 0.
Proof.
  intros HL Hlim HF HB. assert (Hsz : Forall (sized 1 2 0) [skew]) by (constructor; [apply skew_sized|constructor]). assert (Hn : (0 < 2)%nat) by lia.
  destruct (backward_at la HL 1 2 0 Hn o [skew] xs sv Hsz HF [[1]] [g] 0 g HB eq_refl) as (p1 & e & it0 & dl1 & Ep & He & Eit & Edl & Eb).
  injection Ep as <-. injection Edl as <-. destruct (forward_returned la HL o 1 2 0 [skew] xs sv Hsz Hlim HF 0 it0 Eit) as (p2 & Ep2 & Pt & Int & _).
  destruct (backward1_system la HL 1 2 0 Hn skew e it0 [1] g He Pt Int eq_refl Eb) as (dx & ds & dlam & dnu & Eg & K).
  set (w := mv (pr_F skew) dlam). pose proof (ks_lz _ _ _ _ _ _ _ _ _ _ _ _ _ _ _ _ K) as Ll. pose proof (ks_lx _ _ _ _ _ _ _ _ _ _ _ _ _ _ _ _ K) as Lx. pose proof (ks_ly _ _ _ _ _ _ _ _ _ _ _ _ _ _ _ _ K) as Ln.
  assert (Lw : length w = 2%nat) by reflexivity.
  destruct (c_0 1 2 0 skew it0 (vzeros 1) w skew_sized Pt Int eq_refl Lw) as [C1 C2].
  pose proof (c_curve 1 2 0 skew it0 (vzeros 1) w skew_sized Pt Int eq_refl Lw) as HC.
  pose proof (c_data_rate 1 2 0 skew it0 (vzeros 1) w skew_sized Pt Int eq_refl Lw) as HD.
  pose proof (c_point_rate 1 2 0 skew it0 (vzeros 1) w skew_sized Pt Int eq_refl Lw) as HP.
  eexists it0, _, _, _, _, _. split; [exact Eit|]. split; [exact HC|]. split; [exact C1|]. split; [exact C2|]. split; [exact HD|]. split; [exact HP|]. split.
  { intros t. cbn [c_it i_x]. rewrite vscale_zeros. apply vadd_zeros_r, Pt. }
  pose proof (curve_chain 1 2 0 _ _ _ _ _ HC HD HP [1] dx ds dlam dnu) as X. rewrite C2, C1 in X. specialize (X Int eq_refl K). rewrite <- Eg in X. cbn [c_dit i_x i_z] in X.
  rewrite dot_zeros_r in X. destruct K as [K1 K2 K3 K4 Kx Ks Kz Ky]. cbn [skew pr_Q pr_G pr_F pr_A] in *.
  destruct dlam as [|a [|b [|? ?]]]; cbn in Ll; try discriminate. destruct dx as [|c [|? ?]]; cbn in Lx; try discriminate. destruct dnu; [|discriminate].
  destruct ds as [|s1 [|s2 [|? ?]]]; cbn in K2; try discriminate. destruct it0 as [x0 s0 z0 y0]. destruct Pt as [P1 P2 P3 P4]. cbn [i_x i_s i_z i_y] in *.
  destruct s0 as [|q1 [|q2 [|? ?]]]; cbn in P2; try discriminate. destruct z0 as [|r1 [|r2 [|? ?]]]; cbn in P3; try discriminate.
  enough (P : 0 < a * a + b * b).
  { unfold w in X |- *. cbn [skew pr_F] in X |- *. revert X. generalize (chain g (c_dpr 1 2 0 skew (mkIter x0 [q1; q2] [r1; r2] y0) (vzeros 1) (mv [[0; 1]; [-1; 0]] [a; b]))) as ch. intros ch X E.
    unfold mv, dot, vmul in X. cbn in X. unfold dot, vmul in X. cbn in X. rnum. lra. }
  pose proof (Rle_0_sqr a) as Qa. pose proof (Rle_0_sqr b) as Qb. unfold Rsqr in Qa, Qb.
  destruct (Req_dec a 0) as [Ha|Ha]; [|apply Rlt_0_sqr in Ha; unfold Rsqr in Ha; lra]. destruct (Req_dec b 0) as [Hb|Hb]; [|apply Rlt_0_sqr in Hb; unfold Rsqr in Hb; lra]. exfalso. subst a b.
  destruct Int as [I1 I2]. apply Forall_cons_iff in I1. apply Forall_cons_iff in I2. destruct I1 as [I1 _]. destruct I2 as [I2 _]. clear - Kx Ks Kz I1 I2.
  unfold vm, mv, mtr, dot, vmul, vdiv, vadd, vsub, vopp in *. cbn in *. unfold dot, vmul in *. cbn in *. rnum.
  injection Kx as Kx. injection Ks as Ks1 Ks2. injection Kz as Kz1 Kz2. assert (P : 0 < r1 / q1) by (now apply Rdiv_lt_0_compat). nra.
Qed.
Lemma skew_runs la o : lapack_ok la -> (0 < lo_lim o)%nat -> (0 < lo_max_iter o)%nat ->
  exists xs sv g, lcp_forward la o 1 2 0 [skew] = Ok (Some (xs, sv)) /\ lcp_backward la sv [[1]] = Ok [g].
Proof.
  intros HL Hl Hm. assert (Hsz : Forall (sized 1 2 0) [skew]) by (constructor; [apply skew_sized|constructor]). assert (Hw : Forall (posed 1 2 0) [skew]) by (constructor; [apply skew_posed|constructor]).
  assert (Hn : (0 < 2)%nat) by lia.
  destruct (lcp_forward_total la HL 1 2 0 Hn o [skew] Hm Hsz Hw) as (xs & sv & HF).
  destruct (backward_total la HL 1 2 0 Hn o [skew] xs sv Hsz Hl HF [[1]] Hw eq_refl) as (gs & HB & Lg). destruct gs as [|g [|? ?]]; try discriminate. exists xs, sv, g. auto.
Qed.
