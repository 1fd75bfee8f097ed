(** C94: the block of slide_demo falls freely until it reaches the plane *)
From Coq Require Import List Arith ZArith Bool Reals Lra Lia.
From Verif Require Import Num Tensor Utils Bodies Forces Constraints Contacts World Lapack LapackRef Pdipm Lcp Engines Demo Spec GeoSpec EngineSpec LapackSpec DemoSpec
     RBase LuFacts DemoFacts FloatEx RealEx ContactEx.
Import ListNotations.
Open Scope R_scope.

(** slide_demo builds its world, and run_world shows for up to 46 steps the plane in its place, at rest,
    and the block in free fall; all of it without contacts, and without an exception. *)
Theorem C94_slide :
  forall gf o, broadphase_sane o -> (18 <= gf)%nat ->
    exists w0, slide_demo PI o (diff_handler gf o) = Ok w0 /\
      map (fun c => (b_p c, b_v c)) (w_bodies w0) = [(plane_pose, (0, (0, 0))); fallen 0] /\
      Forall2 made (w_bodies w0) [(900, 10); (60, 60)] /\ joined w0 = [(JTotal, 0%nat, None)] /\
      forall la mi k fuel lfuel run_time,
        lapack_ok la -> (0 < mi)%nat -> (k <= 46)%nat -> (forall m, (m < k)%nat -> INR m / 30 < run_time) -> run_time <= INR k / 30 -> (k < fuel)%nat ->
        exists w', run_world fuel (S lfuel) o (diff_handler gf o) (pdipm_engine la mi) run_time w0 = Ok w' /\
          map (fun c => (b_p c, b_v c)) (w_bodies w') = [(plane_pose, (0, (0, 0))); fallen k] /\ w_t w' = INR k / 30 /\ w_contacts w' = [].
Proof. exact slide_falls. Qed.
Print Assumptions C94_slide.
(** The next step of the fall would put the block's lower left corner into the plane: in the frame of the
    plane, 900 long and 10 high, it lies inside. *)
Theorem C94_lands :
  let corner := (70, snd (snd (fst (fallen 47))) + 30) in
  let u := rotate (- (PI / 32)) (v2sub corner (500, 300)) in Rabs (fst u) < 450 /\ Rabs (snd u) < 5.
Proof. exact slide_lands. Qed.
Print Assumptions C94_lands.
(** The plane is flatter than the angle of repose for the friction coefficient of the demo (C91), although
    the demo is called slide_demo. *)
Theorem C94_grips : sin (PI / 32) < 3 / 20 * cos (PI / 32).
Proof. pose proof incline_trig as [[S0 S1] [C0 C1]]. lra. Qed.
Print Assumptions C94_grips.

Example C94_case : exists w0 w', slide_demo PI pair_oracle (diff_handler 18 pair_oracle) = Ok w0 /\
  run_world 47 9 pair_oracle (diff_handler 18 pair_oracle) (pdipm_engine ref_lapack 10) (46 / 30) w0 = Ok w' /\
  map (fun c => (b_p c, b_v c)) (w_bodies w') = [(plane_pose, (0, (0, 0))); ((0, (100, 1981 / 9)), (0, (0, 460 / 3)))].
Proof.
  destruct (slide_falls 18 pair_oracle pair_sane ltac:(lia)) as (w0 & E & _ & _ & _ & H). exists w0.
  assert (I46 : INR 46 = 46) by (rewrite INR_IZR_INZ; reflexivity).
  destruct (H ref_lapack 10%nat 46%nat 47%nat 8%nat (46 / 30) ref_lapack_ok ltac:(lia) ltac:(lia)) as (w' & Er & Eb & _).
  - intros m Hm. apply lt_INR in Hm. lra.
  - lra.
  - lia.
  - exists w'. split; [exact E|]. split; [exact Er|]. rewrite Eb. unfold fallen. rewrite I46. apply f_equal2; [reflexivity|]. apply f_equal2; [|reflexivity]. repeat apply f_equal2; lra.
Qed.
