(** Concrete strict worlds for the examples about progress *)
From Coq Require Import List Arith ZArith Lia Bool Reals Lra Floats.
From Verif Require Import Num Tensor Utils Bodies Forces Constraints Contacts World Lapack LapackRef Pdipm Lcp Engines
     Spec GeoSpec BodySpec JointSpec FreshSpec EngineSpec ContactSpec RewindSpec StrictSpec ResFacts RBase LinAlg LapackSpec PdipmSpec LuFacts HandlerFacts PlaneFacts LayoutFacts EngineFacts CollideFacts FloatEx RealEx ContactEx RunTotal EngineEx StrictFacts.
Import ListNotations.
Open Scope R_scope.

(** two touching discs in a strict world *)
Section Pair.
Variables (vx vy e vx' vy' e' : R).
Definition pair_bodies : list (body R) := two_discs vx vy e 0 vx' vy' e' 0.
Definition pair_world : world R := mkWorld pair_bodies [] [] 0 (1/2) (1/10) (1/100) 2 false true (cat3 (map b_v pair_bodies)) [touch 0 1] true 0 (world_M pair_bodies) None 1.
Lemma pair_init : world_init pair_oracle disc_hd [] pair_bodies [] (1/2) (1/10) (1/100) 2 false true = Ok pair_world.
Proof.
  unfold world_init, pair_bodies, two_discs. cbn [mapM bind forallb fold_left]. change (nofZ 0) with (IZR 0).
  unfold set_v. rewrite cat3_length, map_length. cbn [w_bodies length Nat.eqb Nat.mul Nat.add bind].
  unfold find_contacts. cbn [w_bodies with_state w_clk w_eps o_collide pair_oracle].
  change (all_pairs _) with [(0, 1)]%nat. cbn [fold_left].
  unfold disc_hd, diff_handler. cbn -[circle_circle disc world_M].
  change (with_v (disc 0 0 vx vy e 0) _) with (disc 0 0 vx vy e 0). change (with_v (disc 1 2 vx' vy' e' 0) _) with (disc 1 2 vx' vy' e' 0).
  rewrite disc_touch by lra. transitivity (if true && negb (no_penetration pair_world) then Err EAssert else Ok pair_world : res (world R)); [reflexivity|].
  unfold no_penetration. cbn [pair_world w_contacts w_tol forallb touch c_pen]. replace (nleb 0 (1 / 100)) with true; [reflexivity|]. symmetry. rnum. apply Rleb_true. lra.
Qed.
Lemma pair_smooth : smooth_strict 10 pair_bodies [] pair_world.
Proof.
  pose proof (two_smooth vx vy e vx' vy' e') as S. destruct S as [A1 A2 A3 A4 A5 A6 A7 A8 A9 A10 A11]. constructor; auto.
Qed.
Lemma pair_room : roomy 0 pair_world.
Proof.
  assert (G : overlap_at_most 0 (disc 0 0 vx vy e 0) (disc 1 2 vx' vy' e' 0)).
  { exists (-1, 0). split; [unfold unit_vec; cbn; lra|]. intros q1 q2 P1 P2. unfold body_points in P1, P2. cbn in P1, P2. cbn [fst snd].
    pose proof (unit_dot (1, 0) q1 (0, 0)) as D1. pose proof (unit_dot (1, 0) (2, 0) q2) as D2. unfold unit_vec in D1, D2. cbn [fst snd] in D1, D2. rewrite PlaneFacts.dist_sym in D2. specialize (D1 ltac:(lra)). specialize (D2 ltac:(lra)). 
    change (dist q1 (0, 0) <= 1) in P1. change (dist q2 (2, 0) <= 1) in P2. lra. }
  intros i j b1 b2 Hij H1 H2. right. cbn in H1, H2. destruct i as [|[|[|i]]]; try discriminate; destruct j as [|[|[|j]]]; try discriminate; try congruence; cbn in H1, H2; inversion H1; inversion H2; subst; (split; [left; reflexivity|]).
  - exact G.
  - now apply overlap_sym.
Qed.
(** any velocities are bounded *)
Lemma pair_slow v : exists s, 0 < s /\ slower_than s pair_world v.
Proof.
  set (z i := dist (snd (v3_at v i)) (0, 0) + Rabs (fst (v3_at v i))).
  assert (P : forall i, 0 <= z i) by (intros i; unfold z; pose proof (dist_nonneg (snd (v3_at v i)) (0, 0)); pose proof (Rabs_pos (fst (v3_at v i))); lra).
  exists (1 + z 0%nat + z 1%nat). split; [pose proof (P 0%nat); pose proof (P 1%nat); lra|].
  intros i b q Hb Hq. pose proof (P 0%nat) as P0. pose proof (P 1%nat) as P1. assert (K : dist q (b_pos b) <= 1 /\ (i = 0%nat \/ i = 1%nat)).
  { cbn in Hb. destruct i as [|[|[|i]]]; try discriminate; cbn in Hb; inversion Hb; subst; (split; [exact Hq|auto]). }
  destruct K as [K Hi]. pose proof (Rabs_pos (fst (v3_at v i))) as A. assert (Rabs (fst (v3_at v i)) * dist q (b_pos b) <= Rabs (fst (v3_at v i))) by (rewrite <- (Rmult_1_r (Rabs (fst (v3_at v i)))) at 2; apply Rmult_le_compat_l; lra).
  destruct Hi as [-> | ->]; unfold z in *; lra.
Qed.
Lemma pair_session mi : session ref_lapack mi pair_oracle disc_hd pair_bodies [] pair_world.
Proof.
  destruct pair_smooth as [A1 A2 A3 A4 A5 A6 A7 A8 A9].
  apply (session_history _ _ _ _ _ _ _ 0 10 [] (1/2) (1/10) (1/100) 2 false true pair_world []); [left; reflexivity|apply pair_sane|exact A1|exact A2|exact A3|exact pair_init|reflexivity].
Qed.
End Pair.

(** a ball in a slot as wide as itself: both walls overlap it by exactly the tolerance *)
Definition slot : res (world float) := (
  do a <- circle_init 0 [-2 + 0x1p-20; 0] 1 [0; 0; 0] 1 1 0 0x1p-4;
  do b <- circle_init 1 [0; 0] 1 [0; 1; 0] 1 1 0 0x1p-4;
  do c <- circle_init 2 [2 - 0x1p-20; 0] 1 [0; 0; 0] 1 1 0 0x1p-4;
  world_init pair_oracle (diff_handler 10 pair_oracle) [] [a; b; c] [total_init a; total_init c] 0x1p-5 0x1p-4 0x1p-20 2 false true)%float.
