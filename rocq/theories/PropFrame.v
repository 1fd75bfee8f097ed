(** C59, C60: displaced and moving frames of reference *)
From Coq Require Import List Arith ZArith Bool Reals Lra Lia.
From Verif Require Import Num Tensor Utils Bodies Forces Constraints Contacts World Lapack LapackRef Pdipm Lcp Engines
     Spec GeoSpec BodySpec JointSpec FreshSpec EngineSpec ContactSpec LapackSpec BoostSpec
     RBase ResFacts LuFacts EngineProps BoostRun FloatEx RealEx ContactEx EngineEx.
Import ListNotations.
Open Scope R_scope.

(** C59.  The world has no preferred origin: displacing all bodies and anchors by [d] displaces every
    later state by [d] and changes nothing else, neither velocities nor contacts nor times.  Any
    constraints, any shapes, either callback, any history of calls.  py3ode must have the same
    symmetry. *)
Theorem C59_translation :
  forall d la mi o hd gf fuel heap bs js dt eps tol fd ps st w0 ops w,
    lapack_ok la -> (hd = diff_handler gf o \/ hd = ode_handler o) -> broadphase_sane o -> translation_invariant o ->
    NoDup (map b_id bs) -> Forall (built bs) js ->
    world_init o hd heap bs js dt eps tol fd ps st = Ok w0 ->
    exec fuel o hd (pdipm_engine la mi) ops w0 = Ok w ->
    exists w0', world_init o hd heap (map (boost_body (0, 0) d) bs) (map (shift_joint d) js) dt eps tol fd ps st = Ok w0' /\
      exec fuel o hd (pdipm_engine la mi) (map (boost_op (0, 0) (length bs)) ops) w0' = Ok (boost_world (0, 0) d w).
Proof.
  intros d la mi o hd gf fuel heap bs js dt eps tol fd ps st w0 ops w HL Hh Hs Ho Hn Hb H0 Hx.
  destruct (boost_session (0, 0) d la mi o hd gf fuel heap bs js dt eps tol fd ps st w0 ops w HL Hh Hs Ho Hn Hb (or_intror eq_refl) H0 Hx) as (w0' & A & B).
  exists w0'. rewrite v2scale_0, BoostFacts.v2add_0 in B. auto.
Qed.
Print Assumptions C59_translation.
Example C59_case : forall fixed, exists w, translation_invariant pair_oracle /\ broadphase_sane (pair_oracle (T := R)) /\ Forall (built (pinned_discs (-1) 2 (1/2))) [pin (1/2)] /\
  world_init pair_oracle disc_hd [] (pinned_discs (-1) 2 (1/2)) [pin (1/2)] (1/2) (1/10) 0 2 false false = Ok (pinned_world (-1) 2 (1/2)) /\
  exec 9 pair_oracle disc_hd ref_engine (map OStep fixed) (pinned_world (-1) 2 (1/2)) = Ok w.
Proof.
  intros fixed. destruct (pinned_runs (-1) 2 (1/2) 10 fixed) as [w E]; [lia|]. exists w. split; [split; intros; [cbn; now rewrite map_length|reflexivity]|]. split; [apply pair_sane|]. split; [|split; [apply pinned_init|exact E]].
  constructor; [|constructor]. apply (built_total (pinned_discs (-1) 2 (1/2)) (disc 0 0 0 0 (1/2) 0)). now left.
Qed.

(** C60.  Nor has it a preferred inertial frame: if moreover all bodies get the same additional
    velocity [U], every later velocity is larger by [U], every position at time t is displaced by
    d + t U, and the contacts, the times and everything else are the same.  Constraints that tie a
    body to the ground are excluded, except RotConstraint. *)
Theorem C60_moving_frame :
  forall U d la mi o hd gf fuel heap bs js dt eps tol fd ps st w0 ops w,
    lapack_ok la -> (hd = diff_handler gf o \/ hd = ode_handler o) -> broadphase_sane o -> translation_invariant o ->
    NoDup (map b_id bs) -> Forall (built bs) js -> Forall pushless js ->
    world_init o hd heap bs js dt eps tol fd ps st = Ok w0 ->
    exec fuel o hd (pdipm_engine la mi) ops w0 = Ok w ->
    exists w0', world_init o hd heap (map (boost_body U d) bs) (map (shift_joint d) js) dt eps tol fd ps st = Ok w0' /\
      exec fuel o hd (pdipm_engine la mi) (map (boost_op U (length bs)) ops) w0' =
        Ok (boost_world U (v2add d (v2scale (w_t w) U)) w).
Proof. intros U d la mi o hd gf fuel heap bs js dt eps tol fd ps st w0 ops w HL Hh Hs Ho Hn Hb Hp. apply (boost_session U d la mi o hd gf); auto. Qed.
Print Assumptions C60_moving_frame.
Example C60_case : forall vx vy e vx' vy' e' fixed, exists w, NoDup (map b_id (two_discs vx vy e 0 vx' vy' e' 0)) /\
  world_init pair_oracle disc_hd [] (two_discs vx vy e 0 vx' vy' e' 0) [] (1/2) (1/10) 0 2 false false = Ok (two_disc_world vx vy e 0 vx' vy' e' 0) /\
  exec 9 pair_oracle disc_hd ref_engine (map OStep fixed) (two_disc_world vx vy e 0 vx' vy' e' 0) = Ok w.
Proof.
  intros. destruct (two_runs vx vy e vx' vy' e' 10 fixed) as [w E]; [lia|]. exists w. split; [|split; [apply two_init|exact E]].
  cbn. constructor; [intros [H|[]]; discriminate|]. constructor; [intros []|constructor].
Qed.

(** The other observer builds the same scene by passing displaced positions, faster velocities and
    displaced anchors to the constructors; they fail for the one exactly if they fail for the other. *)
Theorem C60_constructors :
  forall U d,
    (forall id pos rad vel m e mu eps, circle_init id (shift_args d pos) rad (shift_args U vel) m e mu eps = result_map (boost_body U d) (circle_init id pos rad vel m e mu eps)) /\
    (forall id rp vs vel m e mu eps, hull_init id (v2add rp d) vs (shift_args U vel) m e mu eps = result_map (boost_body U d) (hull_init id rp vs vel m e mu eps)) /\
    (forall id pos dims vel m e mu eps, rect_init id (shift_args d pos) dims (shift_args U vel) m e mu eps = result_map (boost_body U d) (rect_init id pos dims vel m e mu eps)) /\
    (forall b1 ob2 pos, joint_init (boost_body U d b1) (option_map (boost_body U d) ob2) (v2add pos d) = shift_joint d (joint_init b1 ob2 pos)) /\
    (forall b1 b2, fixed_init (boost_body U d b1) (boost_body U d b2) = shift_joint d (fixed_init b1 b2)) /\
    (forall b, x_init (boost_body U d b) = shift_joint d (x_init b) /\ y_init (boost_body U d b) = shift_joint d (y_init b) /\
               rot_init (boost_body U d b) = shift_joint d (rot_init b) /\ total_init (boost_body U d b) = shift_joint d (total_init b)).
Proof.
  intros U d. repeat split; intros; auto using boost_circle_init, boost_hull_gen, boost_rect_init, boost_joint_init, boost_fixed_init, boost_axis_init, boost_total_init.
  apply boost_hull_gen.
Qed.
Print Assumptions C60_constructors.
