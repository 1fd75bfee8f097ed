(** C80: the mass-inference experiment *)
From Coq Require Import List Arith ZArith Bool Reals Lra Lia.
From Verif Require Import Num Tensor Utils Bodies Forces Constraints Contacts World Lapack LapackRef Pdipm Lcp Engines Game Infer Spec EngineSpec LapackSpec StaticsSpec InferSpec
     RBase LuFacts InferFacts InferRun FloatEx RealEx ContactEx.
Import ListNotations.
Open Scope R_scope.

(** The world is built, whatever the mass: the links hang one below the other and the projectile waits
    level with the last; each link has its share of the mass and the
    default restitution, the projectile restitution 1; every link but the first has its weight. *)
Theorem C80_world :
  forall fs mass n gf o, (1 <= n)%nat -> (18 <= gf)%nat -> broadphase_sane o ->
    exists w, make_world o (diff_handler gf o) fs mass n = Ok w /\ frame w = expected_frame fs n 0 /\ map b_mass (w_bodies w) = repeat (mass / INR n) n ++ [1] /\
      map (fun b => (b_rest b, b_fric b)) (w_bodies w) = repeat (1 / 2, 9 / 10) n ++ [(1, 9 / 10)] /\
      (forall t, world_apply_forces w t = Ok (expected_loads fs mass n t)) /\ w_contacts w = [] /\ w_t w = 0.
Proof. exact world_made. Qed.
Print Assumptions C80_world.
(** Every frame that is recorded before the projectile arrives shows the links where they were, and the
    projectile on the course its forces give it; ... *)
Theorem C80_frames :
  forall fs mass n gf o w la mi fuel lfuel run_time l w' k fr, (1 <= n)%nat -> 0 < mass -> broadphase_sane o -> lapack_ok la ->
    make_world o (diff_handler gf o) fs mass n = Ok w -> positions_run_world fuel lfuel o (diff_handler gf o) (pdipm_engine la mi) run_time w = Ok (l, w') ->
    nth_error l k = Some fr -> approaching fs n k -> fr = expected_frame fs n k.
Proof. exact frames_before. Qed.
Print Assumptions C80_frames.
(** ... and a run that ends before that records one frame at the start and one after each step. *)
Theorem C80_run :
  forall fs mass n gf o w la mi fuel lfuel run_time K, (1 <= n)%nat -> 0 < mass -> broadphase_sane o -> lapack_ok la -> (0 < mi)%nat -> (18 <= gf)%nat ->
    make_world o (diff_handler gf o) fs mass n = Ok w -> approaching fs n K -> (forall m, (m < K)%nat -> INR m / 30 < run_time) -> run_time <= INR K / 30 -> (K < fuel)%nat ->
    exists w', positions_run_world fuel (S lfuel) o (diff_handler gf o) (pdipm_engine la mi) run_time w = Ok (map (expected_frame fs n) (seq 0 (S K)), w').
Proof. exact run_before. Qed.
Print Assumptions C80_run.
(** The experiment's push takes the projectile to velocity 150 in three steps, and it arrives after the
    44th step. *)
Theorem C80_impulse :
  forall n k,
    shot [hor_impulse] n k = ((0, (match k with 0 => 50 | 1 => 155 / 3 | _ => 45 + 5 * INR k end, 50 + 50 * INR (n - 1))), (0, (match k with 0 => 0 | 1 => 50 | 2 => 100 | _ => 150 end, 0))) /\
    (approaching [hor_impulse] n k <-> (k <= 44)%nat).
Proof. exact impulse_arrives. Qed.
Print Assumptions C80_impulse.
(** The loss is never negative, and 0 exactly if the frames agree over their common length; ... *)
Theorem C80_loss :
  forall p g : list (list R), concat p <> [] -> concat g <> [] -> 0 <= loss p g /\ (loss p g = 0 <-> clipped p g = clipped g p).
Proof. exact loss_zero. Qed.
Print Assumptions C80_loss.
(** ... but before the projectile arrives it is 0 for every two masses. *)
Theorem C80_mass_refuted :
  forall mass mass' n gf o la mi fuel lfuel run_time K, (1 <= n)%nat -> 0 < mass -> 0 < mass' -> broadphase_sane o -> lapack_ok la -> (0 < mi)%nat -> (18 <= gf)%nat ->
    (K <= 44)%nat -> (forall m, (m < K)%nat -> INR m / 30 < run_time) -> run_time <= INR K / 30 -> (K < fuel)%nat ->
    exists w w' l l' z z',
      make_world o (diff_handler gf o) [hor_impulse] mass n = Ok w /\ positions_run_world fuel (S lfuel) o (diff_handler gf o) (pdipm_engine la mi) run_time w = Ok (l, z) /\
      make_world o (diff_handler gf o) [hor_impulse] mass' n = Ok w' /\ positions_run_world fuel (S lfuel) o (diff_handler gf o) (pdipm_engine la mi) run_time w' = Ok (l', z') /\
      length l = S K /\ loss l l' = 0.
Proof. exact masses_alike. Qed.
Print Assumptions C80_mass_refuted.

(** *** the hypotheses can be met: the numbers of the experiment, for one second *)
Example C80_case : exists w w',
  make_world pair_oracle (diff_handler 18 pair_oracle) [hor_impulse] 7 10 = Ok w /\
  positions_run_world 31 9 pair_oracle (diff_handler 18 pair_oracle) (pdipm_engine ref_lapack 10) 1 w = Ok (map (expected_frame [hor_impulse] 10) (seq 0 31), w') /\
  approaching [hor_impulse] 10 30 /\ nth_error (expected_frame [hor_impulse] 10 30) 31 = Some 195.
Proof.
  destruct (world_made [hor_impulse] 7 10 18 pair_oracle ltac:(lia) ltac:(lia) pair_sane) as (w & E & _). exists w.
  destruct (run_before [hor_impulse] 7 10 18 pair_oracle w ref_lapack 10 31 8 1 30 ltac:(lia) ltac:(lra) pair_sane ref_lapack_ok ltac:(lia) ltac:(lia) E (impulse_approaches 10 30 ltac:(lia))) as [w' H].
  - intros m Hm. apply lt_INR in Hm. replace (INR 30) with 30 in Hm by (rewrite INR_IZR_INZ; reflexivity). lra.
  - replace (INR 30) with 30 by (rewrite INR_IZR_INZ; reflexivity). lra.
  - lia.
  - exists w'. split; [exact E|]. split; [exact H|]. split; [apply impulse_approaches; lia|]. unfold expected_frame. rewrite impulse_shot. cbn [fst]. cbn. apply f_equal. replace (INR 28) with 28 by (rewrite INR_IZR_INZ; reflexivity). lra.
Qed.
Example C80_loss_case : loss [[1; 2]; [3]] [[1; 2]; [4]; [5]] = 1 / 3 /\ loss [[1; 2]; [3]] [[1; 2]; [3]; [5]] = 0.
Proof. unfold loss. cbn. rnum. split; field. Qed.
