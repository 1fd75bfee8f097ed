(** Guesses that look like the truth, and guesses of the wrong sign (proofs for C93) *)
From Coq Require Import List Arith ZArith Lia Bool Reals Lra.
From Verif Require Import Num Tensor Utils Bodies Forces Constraints Contacts World Lapack Pdipm Engines Game Infer Search
     Spec EngineSpec LapackSpec InferSpec SearchSpec RBase ResFacts InferRun SearchFacts SearchProps.
Import ListNotations.
Open Scope R_scope.

Theorem unseen truth start n gf o la mi fuel lfuel run_time K jac : (1 <= n)%nat -> 0 < truth -> 0 < start -> broadphase_sane o -> lapack_ok la -> (0 < mi)%nat -> (18 <= gf)%nat ->
  (K <= 44)%nat -> (forall m, (m < K)%nat -> INR m / 30 < run_time) -> run_time <= INR K / 30 -> (K < fuel)%nat ->
  infer_mass fuel (S lfuel) o (diff_handler gf o) (pdipm_engine la mi) [hor_impulse] n run_time jac truth start = Ok (start, 0, [0], [start; start]).
Proof.
  intros Hn Ht Hs Ho HL Hmi Hg HK H1 H2 H3.
  assert (F : forall m, 0 < m -> filmed fuel (S lfuel) o (diff_handler gf o) (pdipm_engine la mi) [hor_impulse] n run_time m (map (expected_frame [hor_impulse] n) (seq 0 (S K)))).
  { intros m Hm. destruct (world_made [hor_impulse] m n gf o Hn Hg Ho) as (w & E & _). destruct (run_before [hor_impulse] m n gf o w la mi fuel lfuel run_time K Hn Hm Ho HL Hmi Hg E (impulse_approaches n K HK) H1 H2 H3) as [z Hz]. exists w, z. auto. }
  apply (stuck fuel (S lfuel) o (diff_handler gf o) (pdipm_engine la mi) [hor_impulse] n run_time jac truth start _ _ (F start Hs) (F truth Ht)). reflexivity.
Qed.
Theorem below_zero fs start g n gf o : (1 <= n)%nat -> (18 <= gf)%nat -> broadphase_sane o -> 0 <= start < 1 -> 1 / 1000000 <= g ->
  exists m sq w, optim_step start 0 g = (m, sq) /\ m < - 3 /\ make_world o (diff_handler gf o) fs m n = Ok w /\
    forall i b, (i < n)%nat -> nth_error (w_bodies w) i = Some b -> b_mass b < 0.
Proof.
  intros Hn Hg Ho Hs Hp. destruct (optim_first start g) as [sq E]. set (m := start - 5 * g / (Rabs g + 1 / 10000000)) in *. destruct (world_made fs m n gf o Hn Hg Ho) as (w & Ew & _ & Em & _). exists m, sq, w. split; [exact E|].
  assert (Hm : m < - 3). { unfold m. rewrite Rabs_pos_eq by lra. set (D := g + 1 / 10000000). assert (0 < D) by (unfold D; lra). assert (4 <= 5 * g / D); [|lra]. apply (Rmult_le_reg_r D); [assumption|]. unfold Rdiv. rewrite Rmult_assoc, Rinv_l, Rmult_1_r by lra. unfold D. lra. }
  split; [exact Hm|]. split; [exact Ew|]. intros i b Hi Hb. apply (map_nth_error b_mass) in Hb. rewrite Em, nth_error_app1, nth_error_repeat in Hb by (rewrite ?repeat_length; lia). injection Hb as <-.
  assert (0 < INR n) by (apply lt_0_INR; lia). pose proof (Rinv_0_lt_compat _ H). unfold Rdiv. nra.
Qed.
