(** C38-C43, C46, C47, C55: the LCP solver *)
From Coq Require Import List Arith ZArith Lia Bool Reals Lra Psatz Floats.
From Verif Require Import Num Tensor Lapack LapackRef LapackSpec Pdipm Lcp KktSpec PdipmSpec RBase ResFacts LinAlg PivFacts LuFacts KktFacts
     KktFactor KktTotal PdipmFacts PdipmLoop SolverFacts UnpackFacts SolverEx FloatEx.
Import ListNotations.
Open Scope R_scope.

(** a concrete problem: two unknowns, two inequalities, one equality *)
Definition ex_prob : prob R := mkProb [[2; 0]; [0; 1]] [1; -1] [[1; 1]; [0; -1]] [1; 0] [[1; -1]] [0] [[0; 0]; [0; 0]].
Example ex_sized : sized 2 2 1 ex_prob.
Proof.
  constructor; try reflexivity. constructor; [split; [|reflexivity]| | |]; (split; [reflexivity|repeat constructor]).
Qed.
Example ex_posed : well_posed 2 2 1 (pr_Q ex_prob) (pr_G ex_prob) (pr_F ex_prob) (pr_A ex_prob).
Proof.
  constructor.
  - intros [|a [|b [|c x]]] L N; try discriminate. unfold ex_prob, dot, mv, vmul; cbn. rnum. unfold dot, vmul; cbn. rnum.
    assert (a <> 0 \/ b <> 0) as [A|B]. { destruct (Req_dec a 0) as [->|]; [right; intros ->; apply N; reflexivity|now left]. }
    + assert (0 < a * a) by nra. pose proof (Rle_0_sqr b) as S. unfold Rsqr in S. nra.
    + assert (0 < b * b) by nra. pose proof (Rle_0_sqr a) as S. unfold Rsqr in S. nra.
  - intros [|a [|b y]] L E; try discriminate. unfold ex_prob, vm, mv, mtr, dot, vmul in E; cbn in E. rnum. injection E as E1 E2. unfold vzeros. cbn. f_equal. rnum. lra.
  - intros [|a [|b [|c z]]] L; try discriminate. unfold ex_prob, dot, mv, vmul; cbn. rnum. unfold dot, vmul; cbn. rnum. lra.
Qed.

(** C38.  After pre_factor_kkt and any number of factor_kkt calls, the last with d, solve_kkt returns the
    solution of the Newton system with that d. *)
Theorem C38_solve_kkt :
  forall la nz nineq neq Q G F A Q_LU S0 Rm ds d S rx rs rz ry,
    lapack_ok la -> shaped nz nineq neq Q G F A ->
    pre_factor_kkt la nz nineq neq Q G F A = Ok (Q_LU, S0, Rm) ->
    Forall (fun d => length d = nineq) ds -> length d = nineq -> (forall i, (i < nineq)%nat -> vget d i <> 0) ->
    refactor la nineq neq S0 Rm (ds ++ [d]) = Ok S ->
    length rx = nz -> length rs = nineq -> length rz = nineq -> length ry = neq ->
    let '(dx, ds, dz, dy) := solve_kkt la nz neq Q_LU d G A S rx rs rz ry in
    kkt_solution nz nineq neq Q G F A d rx rs rz ry dx ds dz dy.
Proof. exact solve_after. Qed.
Print Assumptions C38_solve_kkt.

(** C39.  The packed data and pivots after any sequence of factor_kkt calls are an LU factorisation of
    the Schur matrix for the last d. *)
Theorem C39_refactorisation :
  forall la nz nineq neq Q G F A Q_LU S0 Rm ds d S,
    lapack_ok la -> shaped nz nineq neq Q G F A ->
    pre_factor_kkt la nz nineq neq Q G F A = Ok (Q_LU, S0, Rm) ->
    Forall (fun d => length d = nineq) ds -> length d = nineq ->
    refactor la nineq neq S0 Rm (ds ++ [d]) = Ok S ->
    factors_schur nz nineq neq Q G F A d S.
Proof. exact refactor_schur. Qed.
Print Assumptions C39_refactorisation.
(** Both apply to the concrete problem with the reference LAPACK and every sequence of positive d's. *)
Example C38_C39_applicable : forall ds, Forall (fun d => length d = 2%nat /\ pos d) ds -> exists Q_LU S0 Rm S,
  shaped 2 2 1 (pr_Q ex_prob) (pr_G ex_prob) (pr_F ex_prob) (pr_A ex_prob) /\ lapack_ok ref_lapack /\
  pre_factor_kkt ref_lapack 2 2 1 (pr_Q ex_prob) (pr_G ex_prob) (pr_F ex_prob) (pr_A ex_prob) = Ok (Q_LU, S0, Rm) /\
  refactor ref_lapack 2 1 S0 Rm ds = Ok S.
Proof.
  intros ds H. pose proof ref_lapack_ok as HL. pose proof (sz_mat _ _ _ _ ex_sized) as HS.
  destruct (pre_factor_total _ _ _ _ _ _ _ _ HL HS ex_posed) as [[[QL S0] Rm] E]. exists QL, S0, Rm.
  destruct (refactor_total _ _ _ _ _ _ _ _ QL Rm HL HS ex_posed ds S0 (pre_factor_ok _ _ _ _ _ _ _ _ _ _ _ HL HS E) H) as [S ES]. exists S. auto.
Qed.

(** C40.  efficient_btriunpack returns a permutation matrix, a unit lower and an upper triangular matrix
    whose product is the factorised matrix. *)
Theorem C40_btriunpack :
  forall la n A f, lapack_ok la -> wf n n A -> la_getrf la A = Ok f ->
    permutation_matrix n (unpack_P n (snd f)) /\ unit_lower n (unpack_L (fst f)) /\ upper_triangular n (unpack_U (fst f)) /\
    mm n (unpack_P n (snd f)) (mm n (unpack_L (fst f)) (unpack_U (fst f))) = A.
Proof.
  intros la n A f HL W E. pose proof (getrf_ok la HL n A f W E) as HF.
  destruct (unpack_shapes n (fst f) (snd f) (wf_length _ _ _ (proj1 (proj1 HF))) (packed_piv n f (proj1 HF))) as (P1 & P2 & P3).
  split; [exact P1|]. split; [exact P2|]. split; [exact P3|]. now apply unpack_product.
Qed.
Print Assumptions C40_btriunpack.
Example C40_applicable : exists f : lu R, la_getrf ref_lapack [[0; 1]; [2; 1]] = Ok f.
Proof.
  apply (getrf_total ref_lapack ref_lapack_ok 2). { split; [reflexivity|repeat constructor]. }
  intros [|a [|b [|c x]]] L E; try discriminate. unfold mv, dot, vmul in E; cbn in E. rnum. injection E as E1 E2.
  unfold vzeros. cbn. f_equal; [|f_equal]; rnum; lra.
Qed.

(** C41.  get_step is the exact distance to the boundary when the direction has no zero component: 0.999
    of it keeps every component positive. *)
Theorem C41_get_step :
  forall (vs : list (vec R * vec R)) i v dv, nth_error vs i = Some (v, dv) ->
    Forall (fun p => fst p <> [] /\ length (snd p) = length (fst p) /\ pos (fst p) /\ Forall (fun a => a <> 0) (snd p)) vs ->
    exists a, nth_error (get_step vs) i = Some a /\ 0 < a /\
      (forall t, 0 <= t -> t <= 999 / 1000 * a -> pos (vadd v (vscale t dv))) /\
      ((exists k, vget dv k < 0) -> Forall (fun b => 0 <= b) (vadd v (vscale a dv)) /\ In 0 (vadd v (vscale a dv))) /\
      (Forall (fun b => 0 < b) dv -> 1 <= a).
Proof. exact get_step_spec. Qed.
Print Assumptions C41_get_step.
Example C41_applicable : Forall (fun p : vec R * vec R => fst p <> [] /\ length (snd p) = length (fst p) /\ pos (fst p) /\ Forall (fun a => a <> 0) (snd p))
  [([1; 2], [-1; 3]); ([2; 1], [1; 1])].
Proof. unfold pos. repeat constructor; cbn; try discriminate; lra. Qed.
(** Slacks and multipliers stay positive in every iteration without zero direction components.  (Over the
    reals x/0 = 0, so the proof does not need that hypothesis; with IEEE arithmetic the code does.) *)
Theorem C41_interior :
  forall la nz nineq neq ps j i it,
    lapack_ok la -> (0 < nineq)%nat -> Forall (sized nz nineq neq) ps ->
    no_zero_direction la nz nineq neq ps j ->
    iterate la nz nineq neq ps j i it -> pos (i_s it) /\ pos (i_z it).
Proof. intros la nz nineq neq ps j i it HL Hn Hs _ Hi. destruct (iterate_good la HL nz nineq neq Hn ps j i it Hs Hi) as (pr & _ & _ & H & _). exact H. Qed.
Print Assumptions C41_interior.
Example C41_interior_applicable : exists it, no_zero_direction ref_lapack 1 1 0 [ex_one] 1 /\ iterate ref_lapack 1 1 0 [ex_one] 1 0 it.
Proof.
  destruct (iterate_total ref_lapack ref_lapack_ok 1 1 0 ltac:(lia) [ex_one] 1 0 (Forall_cons _ ex_one_sized (Forall_nil _))
    (Forall_cons _ ex_one_posed (Forall_nil _)) ltac:(cbn; lia)) as [it H].
  exists it. split; [apply (ex_one_moving _ ref_lapack_ok)|exact H].
Qed.
(** Finding: a zero component of the direction makes the step minus infinity; the solver then returns a
    wrong answer for the problem  min x^2/2 - x  with 0 x <= 2, x <= 2  (solution 1, returned 1.5). *)
Open Scope float_scope.
Definition zero_row : prob float := mkProb [[1]] [-1] [[0]; [1]] [2; 2] [] [] [[0; 0]; [0; 0]].
Theorem C41_refuted :
  (exists v dv : vec float, forallb (PrimFloat.ltb 0) v = true /\ length dv = length v /\ get_step [(v, dv)] = [neg_infinity]) /\
  (exists sv, lcp_forward ref_lapack default_opts 1 2 0 [zero_row] = Ok (Some ([[1.5]], sv)) /\
     Forall (fun e => i_x (e_it e) = [nan] /\ i_s (e_it e) = [nan; nan]) (sv_elts sv)).
Proof.
  split.
  - exists [1; 1], [0; -1]. vm_compute. auto.
  - eexists. split; [vm_compute; reflexivity|]. repeat constructor.
Qed.
Print Assumptions C41_refuted.
Close Scope float_scope.

(** C42.  forward returns, for each problem of the batch, the iterate with the smallest residual among the K visited; it
    stops before max_iter only if no problem improved in the last not_improved_lim iterations, all residuals are below
    eps, the factorisation failed, or the duality measure exceeds 1e100. *)
Theorem C42_best_iterate :
  forall la (o : lcp_opts R) nz nineq neq ps xs sv,
    lapack_ok la -> Forall (sized nz nineq neq) ps -> (0 < lo_lim o)%nat ->
    lcp_forward la o nz nineq neq ps = Ok (Some (xs, sv)) ->
    xs = map (@i_x R) (sv_best sv) /\ length (sv_best sv) = length ps /\ exists K, (1 <= K <= lo_max_iter o)%nat /\
    (forall i pr it, nth_error ps i = Some pr -> nth_error (sv_best sv) i = Some it ->
      (exists j, (j < K)%nat /\ iterate la nz nineq neq ps j i it) /\
      (forall j it', (j < K)%nat -> iterate la nz nineq neq ps j i it' -> residual nz pr it <= residual nz pr it')) /\
    (forall i j, (i < length ps)%nat -> (j < K)%nat -> exists it', iterate la nz nineq neq ps j i it') /\
    (K = lo_max_iter o \/
     (forall i it, nth_error (sv_best sv) i = Some it -> exists j, (j + lo_lim o < K)%nat /\ iterate la nz nineq neq ps j i it) \/
     (forall i pr it, nth_error ps i = Some pr -> nth_error (sv_best sv) i = Some it -> residual nz pr it < lo_eps o) \/
     (forall i it', ~ iterate la nz nineq neq ps (S K) i it') \/
     (forall i it', iterate la nz nineq neq ps (K - 1) i it' -> Rcst C_1e100 < Rabs (dot (i_s it') (i_z it') / IZR (Z.of_nat nineq)))).
Proof. intros la o nz nineq neq ps xs sv HL Hs Hl HF. exact (forward_best la HL o nz nineq neq ps xs sv Hs Hl HF). Qed.
Print Assumptions C42_best_iterate.
(** The returned slacks and multipliers are positive. *)
Theorem C42_positive :
  forall la (o : lcp_opts R) nz nineq neq ps xs sv,
    lapack_ok la -> Forall (sized nz nineq neq) ps -> (0 < lo_lim o)%nat ->
    lcp_forward la o nz nineq neq ps = Ok (Some (xs, sv)) ->
    Forall (fun it => point nz nineq neq it /\ pos (i_s it) /\ pos (i_z it)) (sv_best sv).
Proof.
  intros la o nz nineq neq ps xs sv HL Hs Hl HF. apply Forall_forall. intros it Hin. destruct (In_nth_error _ _ Hin) as (i & Hi).
  destruct (forward_returned la HL o nz nineq neq ps xs sv Hs Hl HF i it Hi) as (pr & _ & P & I & _). split; [exact P|exact I].
Qed.
Print Assumptions C42_positive.

(** C43.  One iteration multiplies the three linear residuals by the same 1 - alpha, 0 <= alpha <= 1. *)
Theorem C43_residuals :
  forall la nz nineq neq ps j i it it' pr,
    lapack_ok la -> (0 < nineq)%nat -> Forall (sized nz nineq neq) ps -> nth_error ps i = Some pr ->
    iterate la nz nineq neq ps j i it -> iterate la nz nineq neq ps (S j) i it' -> exists a, 0 <= a <= 1 /\
    stationarity nz pr it' = vscale (1 - a) (stationarity nz pr it) /\
    inequality pr it' = vscale (1 - a) (inequality pr it) /\ equality pr it' = vscale (1 - a) (equality pr it).
Proof. exact iterate_next. Qed.
Print Assumptions C43_residuals.
Example C43_applicable : forall j, exists it it', iterate ref_lapack 2 2 1 [ex_prob; ex_prob] j 1 it /\
  iterate ref_lapack 2 2 1 [ex_prob; ex_prob] (S j) 1 it'.
Proof.
  pose proof (fun j => iterate_total ref_lapack ref_lapack_ok 2 2 1 ltac:(lia) [ex_prob; ex_prob] j 1
    (Forall_cons _ ex_sized (Forall_cons _ ex_sized (Forall_nil _))) (Forall_cons _ ex_posed (Forall_cons _ ex_posed (Forall_nil _))) ltac:(cbn; lia)) as H.
  intros j. destruct (H j) as [it H1]. destruct (H (S j)) as [it' H2]. exists it, it'. auto.
Qed.
(** The equality constraints hold exactly at every iterate, and so at every returned point. *)
Theorem C43_equalities :
  forall la nz nineq neq ps j i it pr,
    lapack_ok la -> (0 < nineq)%nat -> Forall (sized nz nineq neq) ps -> nth_error ps i = Some pr ->
    iterate la nz nineq neq ps j i it -> mv (pr_A pr) (i_x it) = pr_b pr.
Proof.
  intros la nz nineq neq ps j i it pr HL Hn Hs Hp Hi. destruct (iterate_good la HL nz nineq neq Hn ps j i it Hs Hi) as (pr' & Hp' & _ & _ & H & _).
  rewrite Hp in Hp'. injection Hp' as <-. exact H.
Qed.
Print Assumptions C43_equalities.
Theorem C43_returned :
  forall la (o : lcp_opts R) nz nineq neq ps xs sv i pr x,
    lapack_ok la -> Forall (sized nz nineq neq) ps -> (0 < lo_lim o)%nat ->
    lcp_forward la o nz nineq neq ps = Ok (Some (xs, sv)) -> nth_error ps i = Some pr -> nth_error xs i = Some x ->
    mv (pr_A pr) x = pr_b pr.
Proof.
  intros la o nz nineq neq ps xs sv i pr x HL Hs Hl HF Hp Hx. destruct (forward_best la HL o nz nineq neq ps xs sv Hs Hl HF) as (-> & _).
  rewrite nth_error_map in Hx. destruct (nth_error (sv_best sv) i) as [it|] eqn:Ei; [|discriminate]. injection Hx as <-.
  destruct (forward_returned la HL o nz nineq neq ps _ sv Hs Hl HF i it Ei) as (pr' & Hp' & _ & _ & H & _). rewrite Hp in Hp'. injection Hp' as <-. exact H.
Qed.
Print Assumptions C43_returned.

(** C47.  The residual bounds every KKT equation and the complementarity gap; a zero residual means an exact solution. *)
Theorem C47_certificate :
  forall nz nineq neq pr it r, (0 < nineq)%nat -> sized nz nineq neq pr -> point nz nineq neq it ->
    Forall (fun a => 0 <= a) (i_s it) -> Forall (fun a => 0 <= a) (i_z it) -> residual nz pr it <= r ->
    (norm2 (stationarity nz pr it) <= r /\ norm2 (inequality pr it) <= r /\ norm2 (equality pr it) <= r /\ 0 <= dot (i_s it) (i_z it) <= r) /\
    (r = 0 -> solves_lcp nz nineq neq pr it).
Proof.
  intros nz nineq neq pr it r Hn Hsz Hpt Hs Hz H. pose proof (residual_bounds nz pr it r Hs Hz H) as B. split; [exact B|]. intros ->.
  apply residual_zero; auto. apply Rle_antisym; [exact H|]. destruct B as (_ & _ & _ & B). unfold residual.
  pose proof (norm2_nonneg (stationarity nz pr it)). pose proof (norm2_nonneg (inequality pr it)). pose proof (norm2_nonneg (equality pr it)). lra.
Qed.
Print Assumptions C47_certificate.
(** The quantity the loop compares and reports is that residual. *)
Theorem C47_reported :
  forall la (o : lcp_opts R) nz nineq neq ps xs sv es0 b es,
    lapack_ok la -> Forall (sized nz nineq neq) ps -> (0 < lo_lim o)%nat ->
    lcp_forward la o nz nineq neq ps = Ok (Some (xs, sv)) ->
    start la nz nineq neq ps = Ok es0 ->
    pd_loop la nz nineq neq (lo_max_iter o) (lo_eps o) (lo_lim o) es0 None 0 = Ok (Some b, es) ->
    forall i pr r it, nth_error ps i = Some pr -> nth_error b i = Some (r, it) -> r = residual nz pr it.
Proof.
  intros la o nz nineq neq ps xs sv es0 b es HL Hs Hl HF E0 EL i pr r it Hp Hb. destruct (lcp_forward_start _ _ _ _ _ _ _ HF) as (Hn & _).
  destruct (pd_loop_first la nz nineq neq Hn es0 (lo_max_iter o) (lo_eps o) (lo_lim o) b es Hl EL) as (K & nni & HK & (S1 & S2 & S3 & S4) & HE).
  destruct (S4 i r it Hb) as [(j & _ & es1 & e & Ev & Ei & -> & ->) _]. now apply (good_resid la HL nz nineq neq ps Hs es0 j es1 i e pr).
Qed.
Print Assumptions C47_reported.
Example C47_applicable : exists it, point 2 2 1 it /\ pos (i_s it) /\ pos (i_z it) /\ residual 2 ex_prob it <= 12.
Proof.
  exists (mkIter [0; 0] [1; 1] [1; 1] [0]). split; [constructor; reflexivity|]. unfold pos. cbn [i_s i_z].
  split; [repeat constructor; lra|]. split; [repeat constructor; lra|]. unfold residual, norm2, equality, inequality, stationarity, ex_prob, vm, mv, mtr, dot, vmul. cbn.
  rnum. unfold vsub, vadd; cbn; rnum. unfold dot, vmul; cbn; rnum.
  assert (S : forall x, 0 <= x <= 9 -> R_sqrt.sqrt x <= 3). { intros x Hx. rewrite <- (sqrt_square 3) by lra. apply sqrt_le_1_alt. lra. }
  repeat match goal with |- context [R_sqrt.sqrt ?x] => let H := fresh in assert (H : R_sqrt.sqrt x <= 3) by (apply S; lra); revert H; generalize (R_sqrt.sqrt x); intros ? H end. lra.
Qed.

(** C55.  On well-posed problems (Q positive definite, independent equalities, F monotone) the solver never fails: every
    factorisation succeeds and forward returns a point. *)
Theorem C55_total :
  forall la (o : lcp_opts R) nz nineq neq ps,
    lapack_ok la -> (0 < nineq)%nat -> (0 < lo_max_iter o)%nat ->
    Forall (sized nz nineq neq) ps ->
    Forall (fun pr => well_posed nz nineq neq (pr_Q pr) (pr_G pr) (pr_F pr) (pr_A pr)) ps ->
    exists xs sv, lcp_forward la o nz nineq neq ps = Ok (Some (xs, sv)).
Proof. intros la o nz nineq neq ps HL Hn Hm Hs Hw. exact (lcp_forward_total la HL nz nineq neq Hn o ps Hm Hs Hw). Qed.
Print Assumptions C55_total.
Example C55_applicable : exists xs sv, lcp_forward ref_lapack default_opts 2 2 1 [ex_prob; ex_prob] = Ok (Some (xs, sv)).
Proof.
  apply C55_total; [apply ref_lapack_ok|lia|cbn; lia|exact (Forall_cons _ ex_sized (Forall_cons _ ex_sized (Forall_nil _)))|exact (Forall_cons _ ex_posed (Forall_cons _ ex_posed (Forall_nil _)))].
Qed.

(** and every further iteration could be done *)
Theorem C55_iterations :
  forall la nz nineq neq ps j i,
    lapack_ok la -> (0 < nineq)%nat ->
    Forall (sized nz nineq neq) ps ->
    Forall (fun pr => well_posed nz nineq neq (pr_Q pr) (pr_G pr) (pr_F pr) (pr_A pr)) ps -> (i < length ps)%nat ->
    exists it, iterate la nz nineq neq ps j i it.
Proof. intros la nz nineq neq ps j i HL Hn Hs Hw Hi. exact (iterate_total la HL nz nineq neq Hn ps j i Hs Hw Hi). Qed.
Print Assumptions C55_iterations.

(** C46 is refuted: next to another problem of the batch a problem gets a wrong answer (5/3 instead of 1), or none. *)
Open Scope float_scope.
Definition alone : prob float := mkProb [[1]] [-1] [[1]; [1]] [2; 2] [] [] [[0; 0]; [0; 0]].
Definition singular_F : prob float := mkProb [[1]] [-1] [[1]; [1]] [2; 2] [] [] [[-1; 0]; [0; -1]].
Theorem C46_refuted :
  (exists x sv sv' y, lcp_forward ref_lapack default_opts 1 2 0 [alone] = Ok (Some ([[x]], sv)) /\
     lcp_forward ref_lapack default_opts 1 2 0 [alone; zero_row] = Ok (Some ([[y]; [1.5]], sv')) /\
     (x <? 1.125 = true)%float /\ (1.625 <? y = true)%float) /\
  (exists er, lcp_forward ref_lapack default_opts 1 2 0 [alone; singular_F] = Err er).
Proof. split; [do 4 eexists; split; [vm_compute; reflexivity|]; split; [vm_compute; reflexivity|]; split; vm_compute; reflexivity|]. eexists. vm_compute. reflexivity. Qed.
Print Assumptions C46_refuted.
