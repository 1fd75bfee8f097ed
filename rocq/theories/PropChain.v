(** C99: the chain of chain_demo hangs still until the projectile arrives *)
From Coq Require Import List Arith ZArith Bool Reals Lra Lia.
From Verif Require Import Num Tensor Utils Bodies Forces Constraints Contacts World Lapack LapackRef Pdipm Lcp Engines Chain Spec GeoSpec EngineSpec LapackSpec ChainSpec
     RBase LuFacts ChainRun FloatEx RealEx ContactEx.
Import ListNotations.
Open Scope R_scope.

(** chain_demo builds its world: ten hinged rectangles below each other, the projectile and the clock, with
    these sizes, surfaces, constraints and forces.  run_world shows for up to 33 steps the rectangles in their
    places, at rest, the projectile on its course and the clock turning; all of it without contacts, and
    without an exception. *)
Theorem C99_chain :
  forall gf o, broadphase_sane o -> (18 <= gf)%nat ->
    exists w0, chain_demo o (diff_handler gf o) = Ok w0 /\
      map (fun c => (b_p c, b_v c)) (w_bodies w0) = chain_at 0 /\
      (forall i c, nth_error (w_bodies w0) i = Some c -> chain_shape i c /\ b_mass c = 1 /\ b_fric c = 9 / 10 /\ b_rest c = if (i <? 11)%nat then 9 / 10 else 1 / 2) /\
      places w0 = chain_places /\ skipn 2 (anchors w0) = chain_anchors /\ w_post_stab w0 = true /\
      (forall t, world_apply_forces w0 t = Ok (chain_loads t)) /\
      forall la mi k fuel lfuel run_time,
        lapack_ok la -> (0 < mi)%nat -> (k <= 33)%nat -> (forall m, (m < k)%nat -> INR m / 30 < run_time) -> run_time <= INR k / 30 -> (k < fuel)%nat ->
        exists w', run_world fuel (S lfuel) o (diff_handler gf o) (pdipm_engine la mi) run_time w0 = Ok w' /\
          map (fun c => (b_p c, b_v c)) (w_bodies w') = chain_at k /\ w_t w' = INR k / 30 /\ w_contacts w' = [].
Proof. exact chain_hangs. Qed.
Print Assumptions C99_chain.
(** The next step puts the projectile, of radius 20, against the left side of the last rectangle, which is
    20 wide: it is level with the rectangle's centre, 10 + 20 to its left. *)
Theorem C99_arrives : v2sub (snd (fst (link_state 9))) (snd (fst (shot_state 34))) = (10 + 20, 0).
Proof.
  unfold link_state, shot_state, v2sub. cbn [fst snd]. replace (INR 34) with 34 by (rewrite INR_IZR_INZ; reflexivity). replace (INR 9) with 9 by (rewrite INR_IZR_INZ; reflexivity). rnum. apply f_equal2; field.
Qed.
Print Assumptions C99_arrives.

Example C99_case : exists w0 w', chain_demo pair_oracle (diff_handler 18 pair_oracle) = Ok w0 /\
  run_world 34 9 pair_oracle (diff_handler 18 pair_oracle) (pdipm_engine ref_lapack 10) (33 / 30) w0 = Ok w' /\
  option_map b_p (nth_error (w_bodies w') 9) = Some (0, (300, 500)) /\ option_map b_p (nth_error (w_bodies w') 10) = Some (0, (790 / 3, 500)).
Proof.
  destruct (chain_hangs 18 pair_oracle pair_sane ltac:(lia)) as (w0 & E & _ & _ & _ & _ & _ & _ & H). exists w0.
  assert (I33 : INR 33 = 33) by (rewrite INR_IZR_INZ; reflexivity).
  destruct (H ref_lapack 10%nat 33%nat 34%nat 8%nat (33 / 30) ref_lapack_ok ltac:(lia) ltac:(lia)) as (w' & Er & Eb & _).
  - intros m Hm. apply lt_INR in Hm. rewrite I33 in Hm. lra.
  - rewrite I33. lra.
  - lia.
  - exists w'. split; [exact E|]. split; [exact Er|].
    assert (P : forall i, option_map b_p (nth_error (w_bodies w') i) = option_map fst (nth_error (chain_at 33) i)) by (intros i; rewrite <- Eb, nth_error_map; destruct (nth_error (w_bodies w') i); reflexivity).
    rewrite !P. unfold chain_at. cbn [seq map app nth_error option_map]. unfold link_state, shot_state. cbn [fst]. rewrite I33. replace (INR 9) with 9 by (rewrite INR_IZR_INZ; reflexivity).
    split; apply f_equal; (apply f_equal2; [reflexivity|]; apply f_equal2; lra).
Qed.
