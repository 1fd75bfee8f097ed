(** C79: statics *)
From Coq Require Import List Arith ZArith Bool Reals Lra Lia.
From Verif Require Import Num Tensor Utils Bodies Forces Constraints Contacts World Lapack LapackRef Pdipm Lcp Engines Game Infer Spec GeoSpec JointSpec ContactSpec EngineSpec WellSpec LapackSpec KktSpec PdipmSpec StaticsSpec InferSpec
     RBase ResFacts LinAlg LuFacts HandlerFacts HistFacts EngineFacts EngineProps EngineMore MomentumFacts EngineProps StaticsFacts StaticsProps InferFacts InferRun FloatEx RealEx ContactEx RunTotal EngineEx StaticsEx InferEx BesideRun.
Import ListNotations.
Open Scope R_scope.

(** D'Alembert's principle: without contacts, accelerations that the constraints allow and in which the
    forces do the work of the inertia are the ones with which the velocities change. *)
Theorem C79_dalembert :
  forall la mi bs js w dt f a v c,
    lapack_ok la -> engine_world la mi bs js w -> Forall (fun b : body R => 0 < b_mass b /\ 0 < b_inertia b) bs ->
    w_contacts w = [] -> world_apply_forces w (w_t w) = Ok f -> constraint_velocity w (w_v w) = vzeros (w_num_constraints w) ->
    length a = (3 * length (w_bodies w))%nat -> dalembert w f a ->
    solve_dynamics la mi w dt = Ok (v, c) -> v = vadd (w_v w) (vscale dt a).
Proof. intros la mi bs js w dt f a v c HL HW. destruct (engine_world_sound _ _ _ _ _ HW) as (J0 & HS & HV). intros Hm. apply (dalembert_solve la mi bs js J0 w HL HS HV Hm). Qed.
Print Assumptions C79_dalembert.

(** Virtual work: in a scene at rest without friction the bodies stay at rest - in every response
    physics allows, see C64 - exactly if the forces do no positive work in any possible motion, ... *)
Theorem C79_rest :
  forall la mi bs js w dt f v imps,
    engine_world la mi bs js w -> massive w -> frictionless w -> at_rest w -> 0 < dt -> world_apply_forces w (w_t w) = Ok f ->
    response w dt v imps -> (v = vzeros (3 * length (w_bodies w)) <-> equilibrium w f).
Proof. exact rest_moves. Qed.
Print Assumptions C79_rest.
(** ... which is so exactly if the contacts, pushing only, and the constraints can carry the forces. *)
Theorem C79_carried :
  forall la mi bs js w f,
    engine_world la mi bs js w -> massive w -> frictionless w -> at_rest w -> world_apply_forces w (w_t w) = Ok f ->
    (equilibrium w f <-> exists z y, carried w f z y).
Proof. exact virtual_work. Qed.
Print Assumptions C79_carried.
(** The velocities the engine finds then have little kinetic energy: at most the residual times the
    impulses, the velocities and the impulse of the normal forces [z]. *)
Theorem C79_returned :
  forall la mi bs js w dt it r f z y,
    lapack_ok la -> engine_world la mi bs js w -> w_contacts w <> [] -> 0 <= dt ->
    Forall (fun b => 0 <= b_mass b /\ 0 <= b_inertia b) bs -> frictionless w -> at_rest w -> world_apply_forces w (w_t w) = Ok f -> carried w f z y ->
    engine_point la mi w dt it r ->
    2 * kinetic_energy w (vopp (i_x it)) <=
      r * (slack (length (w_contacts w)) (i_z it) + slip_total w (i_x it) + norm2 (i_x it) + dt * Rsum z).
Proof. exact rest_returned. Qed.
Print Assumptions C79_returned.

(** Without contacts a scene in equilibrium stays exactly as it is for any number of steps. *)
Theorem C79_forever :
  forall la mi o hd bs js w F fuel fixed w',
    lapack_ok la -> session la mi o hd bs js w -> Forall (fun b : body R => 0 < b_mass b /\ 0 < b_inertia b) bs -> 0 < w_dt w ->
    at_rest w -> w_contacts w = [] -> clear_at o hd w (map b_p (w_bodies w)) ->
    (forall t, world_apply_forces w t = Ok (F t) /\ equilibrium w (F t)) ->
    exec fuel o hd (pdipm_engine la mi) (map (@OStep R) fixed) w = Ok w' ->
    w_t w' = w_t w + INR (length fixed) * w_dt w /\ at_rest w' /\ w_contacts w' = [] /\ map b_p (w_bodies w') = map b_p (w_bodies w).
Proof. exact rest_forever. Qed.
Print Assumptions C79_forever.
(** A structure of constrained bodies in balance stays where it is while the other bodies move freely
    beside it (also if they are joined, as long as they move alike), as long as no two bodies come near each other on these courses. *)
Theorem C79_beside :
  forall la mi o hd bs js w rest F fuel fixed w',
    lapack_ok la -> session la mi o hd bs js w -> Forall (fun b : body R => 0 < b_mass b /\ 0 < b_inertia b) bs -> 0 < w_dt w ->
    (forall t, world_apply_forces w t = Ok (F t)) -> jointed w rest F ->
    (forall m, (m < length fixed)%nat -> in_balance w rest (F (w_t w + INR m * w_dt w))) ->
    (forall m, (m <= length fixed)%nat -> clear_at o hd w (map fst (coasting w rest F m))) ->
    exec fuel o hd (pdipm_engine la mi) (map (@OStep R) fixed) w = Ok w' ->
    w_t w' = w_t w + INR (length fixed) * w_dt w /\ w_contacts w' = [] /\
    map (fun b => (b_p b, b_v b)) (w_bodies w') = coasting w rest F (length fixed).
Proof. exact session_coast. Qed.
Print Assumptions C79_beside.
(** If the constraints of a new world form no loops, run_world ends without an exception. *)
Theorem C79_runs :
  forall gf o bs js hh dt eps tol ps st w rest F la mi K lfuel fuel run_time,
    broadphase_sane o -> Forall available bs -> Forall (fit gf) bs -> NoDup (map b_id bs) -> Forall (built bs) js ->
    world_init o (diff_handler gf o) hh bs js dt eps tol 2 ps st = Ok w -> loop_free js -> Forall (fun b : body R => 0 < b_mass b /\ 0 < b_inertia b) bs ->
    (forall t, world_apply_forces w t = Ok (F t)) -> jointed w rest F -> lapack_ok la -> (0 < mi)%nat ->
    (forall m, (m < K)%nat -> in_balance w rest (F (INR m * dt))) ->
    (forall m, (m <= K)%nat -> clear_at o (diff_handler gf o) w (map fst (coasting w rest F m))) ->
    (forall m, (m < K)%nat -> INR m * dt < run_time) -> run_time <= INR K * dt -> (K < fuel)%nat ->
    exists w', run_world fuel (S lfuel) o (diff_handler gf o) (pdipm_engine la mi) run_time w = Ok w' /\
      map (fun b => (b_p b, b_v b)) (w_bodies w') = coasting w rest F K /\ w_t w' = INR K * dt /\ w_contacts w' = [].
Proof. intros. eapply beside_run; eauto. Qed.
Print Assumptions C79_runs.

(** *** the hypotheses can be met *)
(** a disc leans on a disc that is held: it stays if pressed on, and moves if pulled away *)
Example C79_rest_case : forall f e mi,
  engine_world ref_lapack mi (lean_discs e) (lean_joints e) (lean_world f e) /\ massive (lean_world f e) /\ frictionless (lean_world f e) /\ at_rest (lean_world f e) /\
  world_apply_forces (lean_world f e) (w_t (lean_world f e)) = Ok [0; f; 0; 0; 0; 0] /\ w_contacts (lean_world f e) = [touch 0 1] /\
  (equilibrium (lean_world f e) [0; f; 0; 0; 0; 0] <-> 0 <= f) /\ (0 <= f -> carried (lean_world f e) [0; f; 0; 0; 0; 0] [f] [0; - f; 0]) /\
  exists v imps, response (lean_world f e) (1/2) v imps.
Proof.
  intros f e mi. assert (HW := session_world _ _ _ _ _ _ _ (lean_session f e mi)). assert (Ma : massive (lean_world f e)) by (repeat (apply Forall_cons; [cbn; rnum; lra|]); apply Forall_nil).
  split; [exact HW|]. split; [exact Ma|]. split; [apply lean_smoothly|]. split; [unfold at_rest; cbn; rnum; reflexivity|]. split; [apply lean_forces|]. split; [reflexivity|].
  split; [split; [|apply lean_balance]|split; [apply lean_carried|]].
  - intros H. assert (V : virtual (lean_world f e) [0; -1; 0; 0; 0; 0]).
    { split; [reflexivity|]. split; [unfold constraint_velocity; cbn; rnum; repeat (f_equal; try ring)|]. intros c [<-|[]]. unfold normal_velocity, relative_velocity, component, point_velocity, v3_at, vget. cbn. rnum. lra. }
    specialize (H _ V). unfold dot in H. cbn in H. revert H. rnum. lra.
  - apply (WellProps.existence ref_lapack mi _ _ _ (1/2) _ HW Ma (lean_smoothly f e) (lean_forces f e _)). exists (vzeros 6).
    split; [reflexivity|]. split; [unfold constraint_velocity; cbn; rnum; repeat (f_equal; try ring)|]. intros c [<-|[]]. unfold mixed, normal_velocity, relative_velocity, component, point_velocity, v3_at, vget. cbn. rnum. lra.
Qed.
Example C79_returned_case : forall f e, exists it r, engine_point ref_lapack 10 (lean_world f e) (1/2) it r.
Proof.
  intros f e. destruct (lean_runs f e 10 [false]) as [w H]; [lia|]. cbn [map exec] in H. unfold step in H. bind_inv H as w1 E. clear H.
  destruct (MomentumFacts.step_dt_v _ _ _ _ _ _ _ E) as (v & c & Es & _).
  destruct (EngineProps.solved_point ref_lapack 10 _ _ _ (1/2) ref_lapack_ok (session_world _ _ _ _ _ _ _ (lean_session f e 10)) ltac:(discriminate) v c Es) as (it & r & Hp & _). eauto.
Qed.
(** a chain hangs while a disc flies past: the scene of the inference experiment, C80; ... *)
Example C79_beside_case : forall n mass, (1 <= n)%nat -> 0 < mass -> exists bs w F w',
  make_world pair_oracle (diff_handler 18 pair_oracle) [hor_impulse] mass n = Ok w /\
  session ref_lapack 10 pair_oracle (diff_handler 18 pair_oracle) bs (chain_joints n) w /\ Forall (fun b : body R => 0 < b_mass b /\ 0 < b_inertia b) bs /\ 0 < w_dt w /\
  (forall t, world_apply_forces w t = Ok (F t)) /\ jointed w (fun i => (i <? n)%nat) F /\ (forall t, in_balance w (fun i => (i <? n)%nat) (F t)) /\
  (forall m, (m <= 44)%nat -> EngineSpec.clear_at pair_oracle (diff_handler 18 pair_oracle) w (map fst (coasting w (fun i => (i <? n)%nat) F m))) /\
  exec 9 pair_oracle (diff_handler 18 pair_oracle) (pdipm_engine ref_lapack 10) (map (@OStep R) (repeat false 44)) w = Ok w'.
Proof. intros n mass Hn Hm. exact (chain_coasts [hor_impulse] mass n Hn Hm 44 (impulse_approaches n 44 (le_n 44))). Qed.
(** ... if nothing pushes the disc everything stays, its own weight being carried by the joints *)
Example C79_forever_case : forall n mass steps, (1 <= n)%nat -> 0 < mass -> exists bs w F w',
  make_world pair_oracle (diff_handler 18 pair_oracle) [] mass n = Ok w /\
  session ref_lapack 10 pair_oracle (diff_handler 18 pair_oracle) bs (chain_joints n) w /\ Forall (fun b : body R => 0 < b_mass b /\ 0 < b_inertia b) bs /\ 0 < w_dt w /\
  at_rest w /\ w_contacts w = [] /\ EngineSpec.clear_at pair_oracle (diff_handler 18 pair_oracle) w (map b_p (w_bodies w)) /\
  (forall t, world_apply_forces w t = Ok (F t) /\ equilibrium w (F t)) /\
  exec 9 pair_oracle (diff_handler 18 pair_oracle) (pdipm_engine ref_lapack 10) (map (@OStep R) (repeat false steps)) w = Ok w'.
Proof. intros n mass steps. exact (chain_still mass n steps). Qed.
(** ... and d'Alembert's principle says so *)
Example C79_dalembert_case : forall n mass, (1 <= n)%nat -> 0 < mass -> exists bs w f v c,
  make_world pair_oracle (diff_handler 18 pair_oracle) [] mass n = Ok w /\ engine_world ref_lapack 10 bs (chain_joints n) w /\ w_contacts w = [] /\
  world_apply_forces w (w_t w) = Ok f /\ constraint_velocity w (w_v w) = vzeros (w_num_constraints w) /\ dalembert w f (vzeros (3 * length (w_bodies w))) /\
  solve_dynamics ref_lapack 10 w (w_dt w) = Ok (v, c).
Proof.
  intros n mass Hn Hm. destruct (chain_still mass n 1 Hn Hm) as (bs & w & F & w' & E & Se & Ma & Hd & Hr & Hc & _ & HF & Hx).
  cbn [repeat map exec] in Hx. unfold step in Hx. bind_inv Hx as w1 E1. destruct (MomentumFacts.step_dt_v _ _ _ _ _ _ _ E1) as (v & c & Es & _).
  destruct (session_facts _ _ _ _ _ _ _ Se) as (_ & _ & _ & _ & J0 & Sd & _). exists bs, w, (F (w_t w)), v, c. split; [exact E|]. split; [exact (session_world _ _ _ _ _ _ _ Se)|]. split; [exact Hc|]. split; [apply HF|].
  pose proof (zero_motion _ _ _ _ Sd) as Z. split; [rewrite Hr; exact Z|]. split; [|exact Es]. split; [exact Z|].
  intros x Lx Cx. rewrite kinetic_zeros. apply (equilibrium_balance _ _ _ _ _ Sd Hc (proj2 (HF (w_t w))) x Lx Cx). discriminate.
Qed.
