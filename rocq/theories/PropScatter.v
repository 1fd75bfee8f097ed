(** C100: debug_demo and fric_demo before anything touches *)
From Coq Require Import List Arith ZArith Bool Reals Lra Lia.
From Verif Require Import Num Tensor Utils Bodies Forces Constraints Contacts World Lapack LapackRef Pdipm Lcp Engines Scatter Spec GeoSpec EngineSpec LapackSpec ChainSpec ScatterSpec
     RBase LuFacts DebugRun FloatEx RealEx ContactEx.
Import ListNotations.
Open Scope R_scope.

(** debug_demo builds its world: nine discs and a square, with these sizes, surfaces, constraints and forces.
    run_world shows for up to 24 steps the pushed and the falling balls on their ways, the square turning and
    rising, everything else in its place; without contacts, and without an exception. *)
Theorem C100_debug :
  forall gf o, broadphase_sane o -> (18 <= gf)%nat ->
    exists w0, debug_demo o (diff_handler gf o) = Ok w0 /\
      map (fun c => (b_p c, b_v c)) (w_bodies w0) = debug_at 0 /\ map matter (w_bodies w0) = repeat (1, 1 / 2, 9 / 10) 10 /\ Forall2 (fun s c => s c) debug_shapes (w_bodies w0) /\
      places w0 = [(JJoint, 1%nat, None); (JTotal, 3%nat, None)] /\ anchors w0 = [(140, 220); (301, 230)] /\ w_post_stab w0 = true /\
      (forall t, world_apply_forces w0 t = Ok (debug_loads t)) /\
      forall la mi k fuel lfuel run_time,
        lapack_ok la -> (0 < mi)%nat -> (k <= 24)%nat -> (forall m, (m < k)%nat -> INR m / 30 < run_time) -> run_time <= INR k / 30 -> (k < fuel)%nat ->
        exists w', run_world fuel (S lfuel) o (diff_handler gf o) (pdipm_engine la mi) run_time w0 = Ok w' /\
          map (fun c => (b_p c, b_v c)) (w_bodies w') = debug_at k /\ w_t w' = INR k / 30 /\ w_contacts w' = [].
Proof. exact debug_flies. Qed.
Print Assumptions C100_debug.
(** The next step puts the pushed balls, of radius 20, against those below them. *)
Theorem C100_debug_touches : forall j, j = 0%nat \/ j = 6%nat ->
  v2sub (snd (fst (nth (S j) (debug_at 25) (at_rest 0 0)))) (snd (fst (nth j (debug_at 25) (at_rest 0 0)))) = (0, 20 + 20).
Proof.
  assert (I25 : INR 25 = 25) by (rewrite INR_IZR_INZ; reflexivity).
  intros j [->| ->]; cbn [nth debug_at at_rest fst snd]; unfold v2sub, way; cbn [fst snd]; rewrite I25; rnum; apply f_equal2; field.
Qed.
Print Assumptions C100_debug_touches.
(** fric_demo builds its world: the plate with the ball above it, two discs that may only turn, the clock.  For
    up to 3 steps plate and ball fall together. *)
Theorem C100_fric :
  forall gf o, broadphase_sane o -> (18 <= gf)%nat ->
    exists w0, fric_demo o (diff_handler gf o) = Ok w0 /\
      map (fun c => (b_p c, b_v c)) (w_bodies w0) = fric_at 0 /\ map matter (w_bodies w0) = repeat (1, 1 / 10, 1) 4 ++ [(1, 1 / 2, 9 / 10)] /\ Forall2 (fun s c => s c) fric_shapes (w_bodies w0) /\
      places w0 = [(JX, 2%nat, None); (JY, 2%nat, None); (JX, 3%nat, None); (JY, 3%nat, None)] /\ w_post_stab w0 = true /\
      (forall t, world_apply_forces w0 t = Ok (fric_loads t)) /\
      forall la mi k fuel lfuel run_time,
        lapack_ok la -> (0 < mi)%nat -> (k <= 3)%nat -> (forall m, (m < k)%nat -> INR m / 30 < run_time) -> run_time <= INR k / 30 -> (k < fuel)%nat ->
        exists w', run_world fuel (S lfuel) o (diff_handler gf o) (pdipm_engine la mi) run_time w0 = Ok w' /\
          map (fun c => (b_p c, b_v c)) (w_bodies w') = fric_at k /\ w_t w' = INR k / 30 /\ w_contacts w' = [].
Proof. exact fric_falls. Qed.
Print Assumptions C100_fric.
(** After one more step the plate is closer than a tenth, the world's eps, to the discs below it. *)
Theorem C100_fric_near : 436 - 30 - (snd (snd (fst (nth 0 (fric_at 4) (at_rest 0 0)))) + 10 / 2) < 1 / 10.
Proof. cbn [nth fric_at fst snd]. unfold drop. replace (INR 4) with 4 by (rewrite INR_IZR_INZ; reflexivity). lra. Qed.
Print Assumptions C100_fric_near.

Example C100_case : exists w0 w', debug_demo pair_oracle (diff_handler 18 pair_oracle) = Ok w0 /\
  run_world 25 9 pair_oracle (diff_handler 18 pair_oracle) (pdipm_engine ref_lapack 10) (24 / 30) w0 = Ok w' /\
  option_map b_p (nth_error (w_bodies w') 0) = Some (0, (150, 565 / 3)) /\ option_map b_p (nth_error (w_bodies w') 8) = Some (- (4 / 5), (300, 1400 / 3)).
Proof.
  destruct (debug_flies 18 pair_oracle pair_sane ltac:(lia)) as (w0 & E & _ & _ & _ & _ & _ & _ & _ & H). exists w0.
  assert (I24 : INR 24 = 24) by (rewrite INR_IZR_INZ; reflexivity).
  destruct (H ref_lapack 10%nat 24%nat 25%nat 8%nat (24 / 30) ref_lapack_ok ltac:(lia) ltac:(lia)) as (w' & Er & Eb & _).
  - intros m Hm. apply lt_INR in Hm. rewrite I24 in Hm. lra.
  - rewrite I24. lra.
  - lia.
  - exists w'. split; [exact E|]. split; [exact Er|].
    assert (P : forall i, option_map b_p (nth_error (w_bodies w') i) = option_map fst (nth_error (debug_at 24) i)) by (intros i; rewrite <- Eb, nth_error_map; destruct (nth_error (w_bodies w') i); reflexivity).
    rewrite !P. unfold debug_at. cbn [nth_error option_map fst]. unfold way, drop. rewrite I24.
    split; apply f_equal; (apply f_equal2; [lra|]; apply f_equal2; lra).
Qed.
Example C100_fric_case : exists w0 w', fric_demo pair_oracle (diff_handler 18 pair_oracle) = Ok w0 /\
  run_world 4 9 pair_oracle (diff_handler 18 pair_oracle) (pdipm_engine ref_lapack 10) (3 / 30) w0 = Ok w' /\
  option_map b_p (nth_error (w_bodies w') 0) = Some (0, (400, 1202 / 3)).
Proof.
  destruct (fric_falls 18 pair_oracle pair_sane ltac:(lia)) as (w0 & E & _ & _ & _ & _ & _ & _ & H). exists w0.
  assert (I3 : INR 3 = 3) by (rewrite INR_IZR_INZ; reflexivity).
  destruct (H ref_lapack 10%nat 3%nat 4%nat 8%nat (3 / 30) ref_lapack_ok ltac:(lia) ltac:(lia)) as (w' & Er & Eb & _).
  - intros m Hm. apply lt_INR in Hm. rewrite I3 in Hm. lra.
  - rewrite I3. lra.
  - lia.
  - exists w'. split; [exact E|]. split; [exact Er|].
    assert (P : forall i, option_map b_p (nth_error (w_bodies w') i) = option_map fst (nth_error (fric_at 3) i)) by (intros i; rewrite <- Eb, nth_error_map; destruct (nth_error (w_bodies w') i); reflexivity).
    rewrite !P. unfold fric_at. cbn [nth_error option_map fst]. unfold drop. rewrite I3. apply f_equal. apply f_equal2; [reflexivity|]. apply f_equal2; lra.
Qed.
