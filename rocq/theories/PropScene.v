(** C66-C68: the same scene of circles, described differently *)
From Coq Require Import List Arith ZArith Bool Reals Lra Lia Permutation.
From Verif Require Import Num Tensor Utils Bodies Forces Constraints Contacts World Lapack LapackRef Pdipm Lcp Engines
     Spec GeoSpec BodySpec JointSpec EngineSpec ContactSpec LapackSpec SymSpec SceneSpec
     RBase ResFacts LuFacts SceneInit SceneSame FloatEx RealEx ContactEx EngineEx WellEx DriftEx SceneEx.
Import ListNotations.
Open Scope R_scope.

(** C66.  What py3ode's broad phase is free to choose has no effect: with two broad phases that both
    report every pair whose boxes overlap, once, in any order, either way round, along with any other
    pairs, the same scene of circles either raises with both, or goes through the same states: same
    bodies, velocities, times and joints, and the same contacts up to order and orientation. *)
Theorem C66_broad_phase :
  forall la mi gf gf' fuel o o' heap bs js dt eps tol fd ps st ops,
    lapack_ok la -> broadphase_ok o -> broadphase_ok o' -> round_scene eps bs -> Forall (built bs) js ->
    alike same_state
      (do w0 <- world_init o (diff_handler gf o) heap bs js dt eps tol fd ps st; exec fuel o (diff_handler gf o) (pdipm_engine la mi) ops w0)
      (do w0 <- world_init o' (diff_handler gf' o') heap bs js dt eps tol fd ps st; exec fuel o' (diff_handler gf' o') (pdipm_engine la mi) ops w0).
Proof. exact broadphase_session. Qed.
Print Assumptions C66_broad_phase.
Example C66_case : forall fixed, exists w, broadphase_ok (pair_oracle (T := R)) /\ broadphase_ok flip_oracle /\ round_scene (1/10) slot_bodies /\ Forall (built slot_bodies) slot_ties /\
  o_collide flip_oracle 0 (map b_geom slot_bodies) = [(2, 1); (2, 0); (1, 0)]%nat /\ o_collide pair_oracle 0 (map b_geom slot_bodies) = [(0, 1); (0, 2); (1, 2)]%nat /\
  (do w0 <- world_init pair_oracle disc_hd [] slot_bodies slot_ties (1/2) (1/10) 0 2 false false; exec 9 pair_oracle disc_hd (pdipm_engine ref_lapack 10) (map OStep fixed) w0) = Ok w.
Proof.
  intros fixed. destruct (slot_runs (-1) 2 0 1 0 10 fixed) as [w E]; [lia|]. exists w. split; [apply pair_ok|]. split; [apply flip_ok|]. split; [apply slot_round|]. split; [apply slot_built|]. split; [reflexivity|]. split; [reflexivity|].
  unfold slot_bodies, slot_ties. rewrite slot_init. exact E.
Qed.

(** C67.  Nor does the order in which bodies and constraints are listed: listing them in another
    order, and giving velocities in that order, leads to the same states listed in that order, or both
    runs raise. *)
Theorem C67_order :
  forall la mi gf gf' fuel o o' heap bs bs' js js' dt eps tol fd ps st ops ops',
    lapack_ok la -> broadphase_ok o -> broadphase_ok o' -> round_scene eps bs -> Forall (built bs) js ->
    Permutation bs bs' -> Permutation js js' -> Forall2 (reordered_call bs bs') ops ops' ->
    alike reordered
      (do w0 <- world_init o (diff_handler gf o) heap bs js dt eps tol fd ps st; exec fuel o (diff_handler gf o) (pdipm_engine la mi) ops w0)
      (do w0 <- world_init o' (diff_handler gf' o') heap bs' js' dt eps tol fd ps st; exec fuel o' (diff_handler gf' o') (pdipm_engine la mi) ops' w0).
Proof. exact order_session. Qed.
Print Assumptions C67_order.
Example C67_case : forall fixed, exists w, broadphase_ok (pair_oracle (T := R)) /\ round_scene (1/10) slot_bodies /\ Forall (built slot_bodies) slot_ties /\
  Permutation slot_bodies (rev slot_bodies) /\ Permutation slot_ties (rev slot_ties) /\ Forall2 (reordered_call slot_bodies (rev slot_bodies)) (map OStep fixed) (map OStep fixed) /\
  reordered_call slot_bodies (rev slot_bodies) (OSetV [1; 2; 3; 4; 5; 6; 7; 8; 9]) (OSetV [7; 8; 9; 4; 5; 6; 1; 2; 3]) /\
  (do w0 <- world_init pair_oracle disc_hd [] slot_bodies slot_ties (1/2) (1/10) 0 2 false false; exec 9 pair_oracle disc_hd (pdipm_engine ref_lapack 10) (map OStep fixed) w0) = Ok w.
Proof.
  intros fixed. destruct (slot_runs (-1) 2 0 1 0 10 fixed) as [w E]; [lia|]. exists w. split; [apply pair_ok|]. split; [apply slot_round|]. split; [apply slot_built|]. split; [apply Permutation_rev|]. split; [apply Permutation_rev|].
  split; [clear; induction fixed; constructor; cbn; auto|]. split; [|unfold slot_bodies, slot_ties; rewrite slot_init; exact E].
  split; [reflexivity|]. assert (N : forall b k1 k2, nth_error slot_bodies k1 = Some b -> nth_error slot_bodies k2 = Some b -> k1 = k2) by (intros b k1 k2 H1 H2; exact (same_place _ _ _ _ _ (slot_ids (-1) 2 0 1 0 0) H1 H2 eq_refl)).
  intros i j b Hi Hj. assert (Lj : (j < 3)%nat) by (change 3%nat with (length (rev slot_bodies)); apply nth_error_Some; congruence).
  destruct j as [|[|[|j]]]; [| | |lia].
  - rewrite (N b i 2%nat Hi Hj). reflexivity.
  - rewrite (N b i 1%nat Hi Hj). reflexivity.
  - rewrite (N b i 0%nat Hi Hj). reflexivity.
Qed.

(** C68.  Nor is there a preferred direction: turning all circles, velocities, anchors and forces by
    any angle turns every later state by that angle, or both runs raise.  X and Y constraints name
    axes, so they are allowed only if the angle is a multiple of a half turn. *)
Theorem C68_rotation :
  forall la mi gf gf' fuel th o o' heap heap' bs bs' js js' dt eps tol fd ps st ops ops',
    lapack_ok la -> broadphase_ok o -> broadphase_ok o' -> round_scene eps bs ->
    up_to_order (fun b b' => b' = turn_body (turned th) b) bs bs' -> up_to_order (built_alike (turned th) bs) js js' ->
    Forall2 (turned_force (turned th)) heap heap' -> Forall2 (same_call (turned th) bs bs') ops ops' ->
    alike (same_scene (turned th))
      (do w0 <- world_init o (diff_handler gf o) heap bs js dt eps tol fd ps st; exec fuel o (diff_handler gf o) (pdipm_engine la mi) ops w0)
      (do w0 <- world_init o' (diff_handler gf' o') heap' bs' js' dt eps tol fd ps st; exec fuel o' (diff_handler gf' o') (pdipm_engine la mi) ops' w0).
Proof. intros la mi gf gf' fuel th. exact (scene_session la mi gf gf' fuel (turned th)). Qed.
Print Assumptions C68_rotation.
Example C68_case : forall th om0 om1 om2 vy0 vy1 vy2 fixed, let bs := chain_bodies om0 om1 om2 vy0 vy1 vy2 in let js := chain_joints om0 om1 om2 vy0 vy1 vy2 in
  exists w, broadphase_ok (pair_oracle (T := R)) /\ broadphase_ok flip_oracle /\ round_scene (1/10) bs /\
  up_to_order (fun b b' => b' = turn_body (turned th) b) bs (rev (map (turn_body (turned th)) bs)) /\ up_to_order (built_alike (turned th) bs) js (turned_chain (turned th) om0 om1 om2 vy0 vy1 vy2) /\
  Forall2 (turned_force (turned th)) falling_heap (turned_heap (turned th)) /\ Forall2 (same_call (turned th) bs (rev (map (turn_body (turned th)) bs))) (map OStep fixed) (map OStep fixed) /\
  (do w0 <- world_init pair_oracle disc_hd falling_heap bs js (1/2) (1/10) 0 2 false false; exec 9 pair_oracle disc_hd (pdipm_engine ref_lapack 10) (map OStep fixed) w0) = Ok w.
Proof.
  intros th om0 om1 om2 vy0 vy1 vy2 fixed bs js. destruct (chain_runs om0 om1 om2 vy0 vy1 vy2 10 fixed) as [w E]; [lia|]. exists w. split; [apply pair_ok|]. split; [apply flip_ok|]. split; [apply chain_round|].
  split; [|split; [apply chain_alike|split; [apply turned_gravity|split; [clear; induction fixed; constructor; cbn; auto|]]]].
  - exists (rev bs). split; [apply Permutation_rev|]. rewrite <- map_rev. induction (rev bs); constructor; auto.
  - unfold bs, js. rewrite chain_init. exact E.
Qed.
