(** Worlds for the non-vacuity and refutation of C73 *)
From Coq Require Import List Arith ZArith Bool Reals Lra Lia Floats.
From Verif Require Import Num Tensor Utils Bodies Forces Constraints Contacts World Lapack LapackRef Pdipm Lcp Engines Spec GeoSpec BodySpec JointSpec FreshSpec EngineSpec WellSpec GroupSpec
     RBase ResFacts LinAlg LayoutFacts EngineFacts FloatEx RealEx ContactEx EngineEx WellProps.
Import ListNotations.
Open Scope R_scope.

(** the two touching discs of EngineEx, and the same with another touching pair far away *)
Section Four.
Variables (vx vy e mu vx' vy' e' mu' a b c d r s : R).
Definition four_discs : list (body R) := two_discs vx vy e mu vx' vy' e' mu' ++ [disc 2 100 a b r s; disc 3 102 c d r s].
Definition four_world : world R := disc_world four_discs [touch 0 1; touch 2 3].
Lemma four_init : world_init pair_oracle disc_hd [] four_discs [] (1/2) (1/10) 0 2 false false = Ok four_world.
Proof.
  unfold world_init, four_discs, two_discs. cbn [app mapM bind forallb fold_left]. change (nofZ 0) with (IZR 0).
  unfold set_v. rewrite cat3_length, map_length. cbn [w_bodies length Nat.eqb Nat.mul Nat.add bind].
  unfold find_contacts. cbn [w_bodies with_state w_clk w_eps o_collide pair_oracle].
  change (all_pairs _) with [(0, 1); (0, 2); (0, 3); (1, 2); (1, 3); (2, 3)]%nat. cbn [fold_left].
  cbn [map mapi mapi_from].
  change (with_v (disc 0 0 vx vy e mu) _) with (disc 0 0 vx vy e mu). change (with_v (disc 1 2 vx' vy' e' mu') _) with (disc 1 2 vx' vy' e' mu').
  change (with_v (disc 2 100 a b r s) _) with (disc 2 100 a b r s). change (with_v (disc 3 102 c d r s) _) with (disc 3 102 c d r s).
  unfold disc_hd. cbn [bind].
  erewrite (disc_call 10 pair_oracle (1/10) _ _ 0 1) by reflexivity. cbn [bind]. erewrite (disc_call 10 pair_oracle (1/10) _ _ 0 2) by reflexivity. cbn [bind].
  erewrite (disc_call 10 pair_oracle (1/10) _ _ 0 3) by reflexivity. cbn [bind]. erewrite (disc_call 10 pair_oracle (1/10) _ _ 1 2) by reflexivity. cbn [bind].
  erewrite (disc_call 10 pair_oracle (1/10) _ _ 1 3) by reflexivity. cbn [bind]. erewrite (disc_call 10 pair_oracle (1/10) _ _ 2 3) by reflexivity. cbn [bind].
  rewrite (disc_touch 0 1 0 2), (disc_far 0 2 0 100), (disc_far 0 3 0 102), (disc_far 1 2 2 100), (disc_far 1 3 2 102), (disc_touch 2 3 100 102) by lra. reflexivity.
Qed.
Lemma four_engine_world mi : engine_world ref_lapack mi four_discs [] four_world.
Proof.
  apply (engine_history _ _ _ _ _ 0 10 pair_oracle disc_hd [] (1/2) (1/10) 0 2 false false four_world []).
  - left; reflexivity.
  - apply pair_sane.
  - cbn. repeat constructor; cbn; intuition discriminate.
  - constructor.
  - exact four_init.
  - reflexivity.
Qed.
Lemma four_forces : world_apply_forces four_world (w_t four_world) = Ok (vzeros 12).
Proof. unfold world_apply_forces. cbn. rnum. reflexivity. Qed.
Definition first_two (i : nat) : bool := Nat.ltb i 2.
Lemma four_group : same_group first_two (two_disc_world vx vy e mu vx' vy' e' mu') four_world.
Proof.
  constructor; try reflexivity.
  - intros [|[|i]] H; [reflexivity|reflexivity|discriminate].
  - split; [intros c0 [<-|[]]; reflexivity|intros j i1 i2 []].
  - split; [intros c0 [<-|[<-|[]]]; reflexivity|intros j i1 i2 []].
Qed.
End Four.

(** a ball falling from (0, 0) with gravity 10; at (100, 0) a ball of velocity [v] heading for one at
    (104, 0).  After one step(fixed_dt=True) with dt = 1/2: the time, position and velocity of the
    falling ball *)
Definition falling (v : float) : res (float * v3 float * v3 float) := (
  do a <- circle_init 0 [0; 0] 1 [0; 0; 0] 1 0.5 0 0.125;
  do b <- circle_init 1 [100; 0] 1 [0; v; 0] 1 0.5 0 0.125;
  do c <- circle_init 2 [104; 0] 1 [0; 0; 0] 1 0.5 0 0.125;
  do w <- world_init pair_oracle (diff_handler 10 pair_oracle) [FExt down_force 10] [with_forces a [0%nat]; b; c] [] 0.5 0.125 0x1p-10 2 false false;
  do u <- exec 20 pair_oracle (diff_handler 10 pair_oracle) ref_engine [OStep true] w;
  do a' <- get_body (w_bodies u) 0;
  Ok (w_t u, b_p a', b_v a'))%float.
(** two balls touching at (0, 0) and (2, 0), two more at (0, 100) and (2, 100), the left ones with
    velocities 1 and [v]: the velocities of the first pair after a step of 1/8 *)
Definition beside (v : float) : res (v3 float * v3 float) := (
  do a <- circle_init 0 [0; 0] 1 [0; 1; 0] 1 0.5 0 0.125;
  do b <- circle_init 1 [2; 0] 1 [0; 0; 0] 1 0.5 0 0.125;
  do c <- circle_init 2 [0; 100] 1 [0; v; 0] 1 0.5 0 0.125;
  do d <- circle_init 3 [2; 100] 1 [0; 0; 0] 1 0.5 0 0.125;
  do w <- world_init pair_oracle (diff_handler 10 pair_oracle) [] [a; b; c; d] [] 0.125 0.125 0x1p-10 2 false false;
  do u <- exec 10 pair_oracle (diff_handler 10 pair_oracle) ref_engine [OStepDt 0.125] w;
  do a' <- get_body (w_bodies u) 0; do b' <- get_body (w_bodies u) 1;
  Ok (b_v a', b_v b'))%float.
