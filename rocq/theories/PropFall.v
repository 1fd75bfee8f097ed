(** C95: joined bodies fall as one *)
From Coq Require Import List Arith ZArith Bool Reals Lra Lia.
From Verif Require Import Num Tensor Utils Bodies Forces Constraints Contacts World Lapack LapackRef Pdipm Lcp Engines Game Infer Demo Spec GeoSpec JointSpec ContactSpec EngineSpec LapackSpec StaticsSpec FallSpec DemoSpec
     RBase LuFacts EngineProps RunTotal StaticsProps BesideRun FallFacts DemoFacts DemoJoint FloatEx RealEx ContactEx FallEx.
Import ListNotations.
Open Scope R_scope.

(** Bodies joined to each other, with one velocity and not turning, that fall with one acceleration: the
    joints do nothing.  After any number of steps without contacts every body has moved by the same vector,
    that of a body falling alone, none has turned, and they still have one velocity. *)
Theorem C95_fall :
  forall la mi o hd bs js w F u g fuel fixed w',
    lapack_ok la -> session la mi o hd bs js w -> Forall (fun b : body R => 0 < b_mass b /\ 0 < b_inertia b) bs -> 0 < w_dt w ->
    (forall t, world_apply_forces w t = Ok (F t)) -> linked js -> falling w F u g ->
    (forall m, (m <= length fixed)%nat -> clear_at o hd w (map fst (shifted w u g m))) ->
    exec fuel o hd (pdipm_engine la mi) (map (@OStep R) fixed) w = Ok w' ->
    w_t w' = w_t w + INR (length fixed) * w_dt w /\ w_contacts w' = [] /\
    map (fun b => (b_p b, b_v b)) (w_bodies w') = shifted w u g (length fixed).
Proof. exact joined_fall. Qed.
Print Assumptions C95_fall.
(** If the joints form no loops the run ends without an exception. *)
Theorem C95_runs :
  forall gf o bs js hh dt eps tol ps st w F u g la mi K lfuel fuel run_time,
    broadphase_sane o -> Forall available bs -> Forall (fit gf) bs -> NoDup (map b_id bs) -> Forall (built bs) js ->
    world_init o (diff_handler gf o) hh bs js dt eps tol 2 ps st = Ok w -> loop_free js -> Forall (fun b : body R => 0 < b_mass b /\ 0 < b_inertia b) bs ->
    (forall t, world_apply_forces w t = Ok (F t)) -> linked js -> falling w F u g -> lapack_ok la -> (0 < mi)%nat ->
    (forall m, (m <= K)%nat -> clear_at o (diff_handler gf o) w (map fst (shifted w u g m))) ->
    (forall m, (m < K)%nat -> INR m * dt < run_time) -> run_time <= INR K * dt -> (K < fuel)%nat ->
    exists w', run_world fuel (S lfuel) o (diff_handler gf o) (pdipm_engine la mi) run_time w = Ok w' /\
      map (fun b => (b_p b, b_v b)) (w_bodies w') = shifted w u g K /\ w_t w' = INR K * dt /\ w_contacts w' = [].
Proof. exact joined_run. Qed.
Print Assumptions C95_runs.
(** fixed_joint_demo: for up to 75 steps the two blocks fall side by side, as the single block of
    slide_demo does, and the plane stays in its place. *)
Theorem C95_demo :
  forall gf o, broadphase_sane o -> (18 <= gf)%nat ->
    exists w0, fixed_joint_demo PI o (diff_handler gf o) = Ok w0 /\
      map (fun c => (b_p c, b_v c)) (w_bodies w0) = [dropped 120 0; dropped 160 0; (plane_pose2, (0, (0, 0)))] /\
      Forall2 made (w_bodies w0) [(60, 60); (60, 60); (900, 10)] /\ joined w0 = [(JFixed, 0%nat, Some 1%nat); (JTotal, 2%nat, None)] /\
      forall la mi k fuel lfuel run_time,
        lapack_ok la -> (0 < mi)%nat -> (k <= 75)%nat -> (forall m, (m < k)%nat -> INR m / 30 < run_time) -> run_time <= INR k / 30 -> (k < fuel)%nat ->
        exists w', run_world fuel (S lfuel) o (diff_handler gf o) (pdipm_engine la mi) run_time w0 = Ok w' /\
          map (fun c => (b_p c, b_v c)) (w_bodies w') = [dropped 120 k; dropped 160 k; (plane_pose2, (0, (0, 0)))] /\ w_t w' = INR k / 30 /\ w_contacts w' = [].
Proof. exact joint_falls. Qed.
Print Assumptions C95_demo.

(** the two blocks of the demo without the plane fall without end *)
Example C95_case : exists (r r2 : body R) hh w, world_init pair_oracle (diff_handler 18 pair_oracle) hh [r; r2] [fixed_init r r2] STEP EPSILON TOL 2 true true = Ok w /\
  forall K, exists w', run_world (S K) 9 pair_oracle (diff_handler 18 pair_oracle) (pdipm_engine ref_lapack 10) (INR K / 30) w = Ok w' /\
    map (fun b => (b_p b, b_v b)) (w_bodies w') = shifted w (0, 0) (0, 100) K.
Proof.
  destruct (joint_made 18 pair_oracle) as (r & r2 & p & _ & Hr & Hr2 & _ & N1 & N2 & F0 & F1 & _).
  destruct (pair_falls r r2 Hr Hr2 N1 N2 F0 F1) as (w & F & Hw & Ho & Av & Fi & Id & Bu & Lf & Ll & Hm & HF & HG & HC).
  exists r, r2, [FGrav 100 (Some (0, (0, 100))); FGrav 100 (Some (0, (0, 100)))], w. split; [exact Hw|]. intros K. assert (ES : STEP = 1 / 30) by reflexivity.
  destruct (joined_run 18 pair_oracle [r; r2] [fixed_init r r2] _ STEP EPSILON TOL true true w F (0, 0) (0, 100) ref_lapack 10 K 8 (S K) (INR K / 30) Ho Av Fi Id Bu Hw Lf Hm HF Ll HG ref_lapack_ok ltac:(lia) (fun m _ => HC m)) as (w' & E & Q & _).
  - intros m Hk. rewrite ES. apply lt_INR in Hk. lra.
  - rewrite ES. lra.
  - lia.
  - exists w'. auto.
Qed.
