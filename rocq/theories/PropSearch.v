(** C93: the search of the mass-inference experiment *)
From Coq Require Import List Arith ZArith Bool Reals Lra Lia.
From Verif Require Import Num Tensor Utils Bodies Forces Constraints Contacts World Lapack LapackRef Pdipm Lcp Engines Game Infer Search Spec GeoSpec EngineSpec LapackSpec InferSpec SearchSpec RmsSpec
     RBase LuFacts InferRun RmsFacts SearchFacts SearchProps SearchTrail SearchZero SearchEnd FloatEx RealEx ContactEx.
Import ListNotations.
Open Scope R_scope.

(** What the search returns and plots, for every force, number of links, duration, engine and contact
    callback.  The final loss belongs to the final mass.  mass_hist begins with the guess; entry k of
    loss_hist is the loss at entry k of mass_hist, the mean of the squared differences to the true film.
    Losses that follow each other differ by at least 1/1000.  There are 100 iterations, or the search
    stopped early, because the loss at the last mass of mass_hist differed from the last recorded one by less. *)
Theorem C93_report :
  forall fuel lfuel o hd e fs n run_time jac truth start m L ls ms,
    infer_mass fuel lfuel o hd e fs n run_time jac truth start = Ok (m, L, ls, ms) ->
    let film := filmed fuel lfuel o hd e fs n run_time in
    exists g p, film truth g /\ film m p /\ L = mean_sq p g /\
      length ms = S (length ls) /\ (length ls <= 100)%nat /\ nth_error ms 0 = Some start /\
      (forall k a l, nth_error ms k = Some a -> nth_error ls k = Some l -> exists q, film a q /\ l = mean_sq q g) /\
      (forall k l l', nth_error ls k = Some l -> nth_error ls (S k) = Some l' -> 1 / 1000 <= Rabs (l - l')) /\
      (length ls = 100%nat /\ last ms 0 = m \/
       (length ls < 100)%nat /\ exists q, film (last ms 0) q /\ Rabs (last ls 10000000000 - mean_sq q g) < 1 / 1000).
Proof. intros fuel lfuel o hd e fs n run_time jac truth start m L ls ms. exact (report fuel lfuel o hd e fs n run_time jac truth start m L ls ms). Qed.
Print Assumptions C93_report.
(** Each mass that is tried follows from the one before it by a step of RMSprop against the slope of the
    loss, of length at most 5; the first step has the length 5, whatever the slope, unless the slope is about
    1e-7.  (After an early stop the final mass is one step ahead of mass_hist.) *)
Theorem C93_trail :
  forall fuel lfuel o hd e fs n run_time jac truth start m L ls ms g,
    infer_mass fuel lfuel o hd e fs n run_time jac truth start = Ok (m, L, ls, ms) -> filmed fuel lfuel o hd e fs n run_time truth g ->
    let tried := if Nat.eqb (length ls) 100 then ms else ms ++ [m] in
    exists G : nat -> R, forall k a b, nth_error tried k = Some a -> nth_error tried (S k) = Some b ->
      (exists p, filmed fuel lfuel o hd e fs n run_time a p /\ G k = slope (jac k a) p g) /\ b = stepped (1 / 2) G k a /\
      (b - a) * G k <= 0 /\ Rabs (b - a) <= 5 /\ (k = 0%nat -> b = a - 5 * G k / (Rabs (G k) + 1 / 10000000)).
Proof.
  intros fuel lfuel o hd e fs n run_time jac truth start m L ls ms g H Hg. destruct (search_course fuel lfuel o hd e fs n run_time jac truth start m L ls ms g H Hg) as [G Q]. exists G. intros k a b Ha Hb.
  destruct (Q k a b Ha Hb) as (p & F & E & ->). split; [eauto|]. split; [reflexivity|]. split; [|split].
  - destruct (stepped_down (1 / 2) G k a ltac:(lra)) as (r & Hr & ->). replace ((a - r * G k - a) * G k) with (- (r * G k ^ 2)) by ring. pose proof (pow2_ge_0 (G k)). nra.
  - pose proof (stepped_near (1 / 2) G k a ltac:(lra)). lra.
  - intros ->. rewrite stepped_first. replace (10 * (1 / 2)) with 5 by field. reflexivity.
Qed.
Print Assumptions C93_trail.
(** What is handed to the optimiser is the derivative of the loss by the mass, if the derivatives that
    come back from the simulator are those of the recorded numbers. *)
Theorem C93_gradient :
  forall (film : R -> list (list R)) g m jac d, 0 < d -> (forall y, Rabs (y - m) < d -> length (concat (film y)) = length (concat (film m))) ->
    (forall j, (j < length (concat (film m)))%nat -> derivable_pt_lim (fun y => nth j (concat (film y)) 0) m (nth j jac 0)) ->
    derivable_pt_lim (fun y => loss (film y) g) m (backward jac (film m) g) /\ backward jac (film m) g = slope jac (film m) g /\ forall y, loss (film y) g = mean_sq (film y) g.
Proof. intros film g m jac d H0 H1 H2. split; [exact (mean_slope film g m jac d H0 H1 H2)|]. split; [apply backward_slope|intros; apply loss_mean]. Qed.
Print Assumptions C93_gradient.
(** A guess whose film agrees with the true one is returned, after two iterations: in particular the true mass, ... *)
Theorem C93_truth_kept :
  forall fuel lfuel o hd e fs n run_time jac truth start p g,
    filmed fuel lfuel o hd e fs n run_time start p -> filmed fuel lfuel o hd e fs n run_time truth g -> clipped p g = clipped g p ->
    infer_mass fuel lfuel o hd e fs n run_time jac truth start = Ok (start, 0, [0], [start; start]).
Proof. intros fuel lfuel o hd e fs n run_time jac truth start p g. exact (stuck fuel lfuel o hd e fs n run_time jac truth start p g). Qed.
Print Assumptions C93_truth_kept.
(** ... but also every other guess, if the run ends before the projectile arrives: the final loss is 0 and
    the mass is wrong. *)
Theorem C93_found_refuted :
  forall truth start n gf o la mi fuel lfuel run_time K jac, (1 <= n)%nat -> 0 < truth -> 0 < start -> broadphase_sane o -> lapack_ok la -> (0 < mi)%nat -> (18 <= gf)%nat ->
    (K <= 44)%nat -> (forall m, (m < K)%nat -> INR m / 30 < run_time) -> run_time <= INR K / 30 -> (K < fuel)%nat ->
    infer_mass fuel (S lfuel) o (diff_handler gf o) (pdipm_engine la mi) [hor_impulse] n run_time jac truth start = Ok (start, 0, [0], [start; start]).
Proof. exact unseen. Qed.
Print Assumptions C93_found_refuted.
(** Finding: nothing keeps the mass positive.  The first guess is below 1 and the first step has length 5,
    so a positive slope takes the search below -3, and a world with such links is built. *)
Theorem C93_positive_refuted :
  forall fs start g n gf o, (1 <= n)%nat -> (18 <= gf)%nat -> broadphase_sane o -> 0 <= start < 1 -> 1 / 1000000 <= g ->
    exists m sq w, optim_step start 0 g = (m, sq) /\ m < - 3 /\ make_world o (diff_handler gf o) fs m n = Ok w /\
      forall i b, (i < n)%nat -> nth_error (w_bodies w) i = Some b -> b_mass b < 0.
Proof. exact below_zero. Qed.
Print Assumptions C93_positive_refuted.
(** Finding: torch.rand can return 0.  A world with links of mass 0 is built as well (C80_world), but no
    step of it returns, and so the search raises. *)
Theorem C93_massless_refuted :
  forall fs n gf o la mi fuel lfuel run_time jac truth r, (1 <= n)%nat -> broadphase_sane o -> lapack_ok la -> 0 < run_time ->
    (forall p, ~ filmed fuel lfuel o (diff_handler gf o) (pdipm_engine la mi) fs n run_time 0 p) /\
    infer_mass fuel lfuel o (diff_handler gf o) (pdipm_engine la mi) fs n run_time jac truth 0 <> Ok r.
Proof. intros fs n gf o la mi fuel lfuel run_time jac truth r Hn Ho HL Ht. split; [intros p; exact (no_mass fs n gf o la mi fuel lfuel run_time p Hn Ho HL Ht)|exact (no_guess fs n gf o la mi fuel lfuel run_time jac truth r Hn Ho HL Ht)]. Qed.
Print Assumptions C93_massless_refuted.

(** *** the hypotheses can be met: the experiment for one second, and a loss with a slope *)
Example C93_second : forall jac,
  infer_mass 31 9 pair_oracle (diff_handler 18 pair_oracle) (pdipm_engine ref_lapack 10) [hor_impulse] NUM_LINKS 1 jac TOTAL_MASS (1 / 2) = Ok (1 / 2, 0, [0], [1 / 2; 1 / 2]) /\ TOTAL_MASS (T := R) = 7.
Proof.
  intros jac. split; [|reflexivity]. apply (unseen TOTAL_MASS (1 / 2) NUM_LINKS 18 pair_oracle ref_lapack 10 31 8 1 30); try (unfold NUM_LINKS; lia); try (unfold TOTAL_MASS; rnum; lra); [exact pair_sane|exact ref_lapack_ok| |].
  - intros m Hm. apply lt_INR in Hm. replace (INR 30) with 30 in Hm by (rewrite INR_IZR_INZ; reflexivity). lra.
  - replace (INR 30) with 30 by (rewrite INR_IZR_INZ; reflexivity). lra.
Qed.
Example C93_slope_case :
  derivable_pt_lim (fun y => loss [[y; 2 * y]; [4]] [[1; 5]]) 3 (backward [1; 2; 0] [[3; 2 * 3]; [4]] [[1; 5]]) /\ backward [1; 2; 0] [[3; 2 * 3]; [4]] [[1; 5]] = 4 /\
  fst (optim_step (1 / 2) 0 4) < - 4.
Proof.
  split; [|split].
  - apply (mean_slope (fun y => [[y; 2 * y]; [4]]) [[1; 5]] 3 [1; 2; 0] 1 Rlt_0_1); [reflexivity|]. intros j Hj. cbn in Hj. destruct j as [|[|[|j]]]; [| | |lia]; cbn [concat app nth].
    + exact (derivable_pt_lim_id 3).
    + pose proof (derivable_pt_lim_scal id 2 3 1 (derivable_pt_lim_id 3)) as Q. rewrite Rmult_1_r in Q. exact Q.
    + exact (derivable_pt_lim_const 4 3).
  - rewrite backward_slope. unfold slope, overlap, Rsum. cbn. field.
  - destruct (optim_first (1 / 2) 4) as [sq ->]. cbn [fst]. rewrite Rabs_pos_eq by lra. set (D := 4 + 1 / 10000000). assert (HD : 0 < D) by (unfold D; lra). assert (49 / 10 < 5 * 4 / D); [|lra]. apply (Rmult_lt_reg_r D); [assumption|]. unfold Rdiv. rewrite Rmult_assoc, Rmult_assoc, Rinv_l by lra. unfold D. lra.
Qed.
