(** C84: simulations with friction return *)
From Coq Require Import List Arith ZArith Bool Reals.
From Verif Require Import Num Tensor Bodies Forces Constraints Contacts World Lapack LapackRef Pdipm Lcp Engines Spec GeoSpec BodySpec JointSpec EngineSpec SceneSpec RegSpec FricSpec
     LapackSpec LuFacts FloatEx EngineEx SceneEx FricFacts FricRun FricEx.
Import ListNotations.
Open Scope R_scope.

(** C84.  With any friction coefficients, a step from a state reached by any history returns, if a push at one
    contact does not move the bodies at the others and a push along the normal opens the contact at least mu times
    as fast as it makes it slide. *)
Theorem C84_step :
  forall la mi gf o bs js w0 heap dt eps tol fd ps st fuel ops w fuel' d,
    lapack_ok la -> (0 < mi)%nat -> broadphase_sane o -> rough gf bs js w0 ->
    world_init o (diff_handler gf o) heap bs js dt eps tol fd ps st = Ok w0 ->
    exec fuel o (diff_handler gf o) (pdipm_engine la mi) ops w0 = Ok w ->
    apart w -> (forall c, In c (w_contacts w) -> no_wedge w c) ->
    0 < d <= w_dt w0 -> (4 <= fuel')%nat ->
    exists w', step_dt fuel' o (diff_handler gf o) (pdipm_engine la mi) w d = Ok w'.
Proof. intros la mi gf o bs js w0 heap dt eps tol fd ps st fuel ops w fuel' d HL Hmi Ho HR H0. exact (rough_step la mi gf o bs js w0 HL Hmi Ho HR heap dt eps tol fd ps st H0 fuel ops w fuel' d). Qed.
Print Assumptions C84_step.
(** Both hold when the contacts are between discs without constraints and bodies held in place and no disc is in two
    contacts. *)
Theorem C84_discs :
  forall la mi gf o bs js w0 heap dt eps tol fd ps st fuel ops w,
    broadphase_sane o -> rough gf bs js w0 ->
    world_init o (diff_handler gf o) heap bs js dt eps tol fd ps st = Ok w0 ->
    exec fuel o (diff_handler gf o) (pdipm_engine la mi) ops w0 = Ok w ->
    sparse js w -> apart w /\ forall c, In c (w_contacts w) -> no_wedge w c.
Proof. intros la mi gf o bs js w0 heap dt eps tol fd ps st fuel ops w Ho HR H0. exact (sparse_apart la mi gf o bs js w0 Ho HR heap dt eps tol fd ps st H0 fuel ops w). Qed.
Print Assumptions C84_discs.
(** So a simulation of such bodies, each disc with at most one partner it can touch, never raises: any number of steps
    of either kind, after any history, ... *)
Theorem C84_steps_return :
  forall la mi gf o bs js w0 heap dt eps tol fd ps st fuel ops w fixed,
    lapack_ok la -> (0 < mi)%nat -> broadphase_sane o -> broadphase_once o -> rough gf bs js w0 -> paired js bs ->
    world_init o (diff_handler gf o) heap bs js dt eps tol fd ps st = Ok w0 ->
    (9 <= fuel)%nat -> exec fuel o (diff_handler gf o) (pdipm_engine la mi) ops w0 = Ok w ->
    exists w', exec fuel o (diff_handler gf o) (pdipm_engine la mi) (map OStep fixed) w = Ok w'.
Proof. intros la mi gf o bs js w0 heap dt eps tol fd ps st fuel ops w fixed HL Hmi Ho Hon HR Hp H0. exact (paired_steps la mi gf o bs js w0 HL Hmi Ho HR heap dt eps tol fd ps st H0 Hon Hp fuel ops w fixed). Qed.
Print Assumptions C84_steps_return.
(** ... and run_world ends, less than dt after the time it was given. *)
Theorem C84_run_ends :
  forall la mi gf o bs js w0 heap dt eps tol fd ps st lfuel n ops w run_time,
    lapack_ok la -> (0 < mi)%nat -> broadphase_sane o -> broadphase_once o -> rough gf bs js w0 -> paired js bs ->
    world_init o (diff_handler gf o) heap bs js dt eps tol fd ps st = Ok w0 ->
    (4 <= lfuel)%nat -> exec lfuel o (diff_handler gf o) (pdipm_engine la mi) ops w0 = Ok w ->
    8 * (run_time - w_t w) / w_dt w0 <= INR n -> w_t w < run_time + w_dt w0 ->
    exists w', run_world (S n) lfuel o (diff_handler gf o) (pdipm_engine la mi) run_time w = Ok w' /\
      run_time <= w_t w' < run_time + w_dt w0.
Proof. intros la mi gf o bs js w0 heap dt eps tol fd ps st lfuel n ops w rt HL Hmi Ho Hon HR Hp H0. exact (paired_run la mi gf o bs js w0 HL Hmi Ho HR heap dt eps tol fd ps st H0 Hon Hp lfuel n ops w rt). Qed.
Print Assumptions C84_run_ends.
(** a disc that hits another, held in place: any velocity, restitution and friction *)
Example C84_case : forall vx vy e mu, 0 <= mu -> rough 10 (held_discs vx vy e mu) [hold e mu] (held_world vx vy e mu) /\
  paired [hold e mu] (held_discs vx vy e mu) /\ broadphase_once (@pair_oracle R) /\ w_contacts (held_world vx vy e mu) <> [] /\
  world_init pair_oracle disc_hd [] (held_discs vx vy e mu) [hold e mu] (1/2) (1/10) 0 2 false false = Ok (held_world vx vy e mu).
Proof. intros vx vy e mu H. split; [now apply held_rough|]. split; [apply held_paired|]. split; [apply pair_ok|]. split; [discriminate|apply held_init]. Qed.
(** With one contact the condition is exact: the linear systems the solver meets for the problem it is given are all
    solvable, for every positive weight, exactly if the contact does not wedge. *)
Theorem C84_exact :
  forall la mi gf o bs js w0 heap dt eps tol fd ps st fuel ops w c u pr,
    lapack_ok la -> broadphase_sane o -> rough gf bs js w0 ->
    world_init o (diff_handler gf o) heap bs js dt eps tol fd ps st = Ok w0 ->
    exec fuel o (diff_handler gf o) (pdipm_engine la mi) ops w0 = Ok w ->
    w_contacts w = [c] -> contact_problem w u = Ok pr ->
    regular (3 * length (w_bodies w)) 4 (w_num_constraints w) (pr_Q pr) (pr_G pr) (pr_F pr) (pr_A pr) <-> no_wedge w c.
Proof. intros la mi gf o bs js w0 heap dt eps tol fd ps st fuel ops w c u pr HL Ho HR H0. exact (one_exact la mi gf o bs js w0 HL Ho HR heap dt eps tol fd ps st H0 fuel ops w c u pr). Qed.
Print Assumptions C84_exact.
(** Finding: a disc on a lever that touches a held disc with friction 1 wedges: some of the systems are singular. *)
Theorem C84_wedge_refuted :
  exists bs js w0 c pr,
    rough 10 bs js w0 /\ world_init pair_oracle disc_hd [] bs js (1/2) (1/10) 0 2 false false = Ok w0 /\ w_contacts w0 = [c] /\
    contact_problem w0 (mv (w_M w0) (w_v w0)) = Ok pr /\ ~ no_wedge w0 c /\
    ~ regular (3 * length (w_bodies w0)) 4 (w_num_constraints w0) (pr_Q pr) (pr_G pr) (pr_F pr) (pr_A pr).
Proof. exact lever_singular. Qed.
Print Assumptions C84_wedge_refuted.
