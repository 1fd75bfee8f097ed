(** C77: units of mass and time *)
From Coq Require Import List Arith ZArith Bool Reals Lra Lia Floats.
From Verif Require Import Num Tensor Utils Bodies Forces Constraints Contacts World Lapack LapackRef Pdipm Lcp Engines
     Spec GeoSpec BodySpec JointSpec FreshSpec EngineSpec WellSpec SymSpec BoostSpec ScaleSpec LapackSpec
     RBase ResFacts LuFacts EngineFacts EngineProps FloatEx RealEx ContactEx EngineEx DriftEx ScaleFacts ScaleResp ScaleEx.
Import ListNotations.
Open Scope R_scope.

(** C77.  Describe the same scene in other units: masses [c] times as large, times [tau] times as long,
    lengths as they are (velocities divided by tau, forces multiplied by c / tau^2, the length of the steps
    by tau).  As long as nothing touches, every history of calls that succeeds in the old units succeeds in
    the new ones, and the states correspond: the same positions and angles, velocities divided by tau,
    clock multiplied by tau.  Any constraints and shapes, either callback. *)
Theorem C77_session :
  forall c tau la mi o hd gf fuel heap heap' bs js dt eps tol fd ps st w0 ops w,
    0 < c -> 0 < tau -> lapack_ok la -> (hd = diff_handler gf o \/ hd = ode_handler o) -> broadphase_sane o ->
    NoDup (map b_id bs) -> Forall (built bs) js -> Forall2 (rescaled_force c tau) heap heap' ->
    world_init o hd heap bs js dt eps tol fd ps st = Ok w0 ->
    exec fuel o hd (until_contact (pdipm_engine la mi)) ops w0 = Ok w ->
    exists w0' w', world_init o hd heap' (map (rescale_body c tau) bs) js (tau * dt) eps tol fd ps st = Ok w0' /\
      exec fuel o hd (until_contact (pdipm_engine la mi)) (map (rescale_op tau) ops) w0' = Ok w' /\
      exec fuel o hd (pdipm_engine la mi) ops w0 = Ok w /\
      exec fuel o hd (pdipm_engine la mi) (map (rescale_op tau) ops) w0' = Ok w' /\
      rescaled c tau w w'.
Proof.
  intros c tau la mi o hd gf fuel heap heap' bs js dt eps tol fd ps st w0 ops w Hc Ht HL Hh Ho Hn Hb Hf H0 Hx.
  destruct (scale_session c tau la mi o hd gf fuel heap heap' bs js dt eps tol fd ps st w0 ops w Hc Ht HL Hh Ho Hn Hb Hf H0 Hx) as (w0' & w' & A & B & D).
  exists w0', w'. split; [exact A|]. split; [exact B|]. split; [eapply until_exec; exact Hx|]. split; [eapply until_exec; exact B|exact D].
Qed.
Print Assumptions C77_session.

(** With contacts: the responses physics allows (C64) correspond too, with friction and constraints; the
    impulses are multiplied by c / tau. *)
Theorem C77_response :
  forall c tau w w' dt v imps,
    0 < c -> 0 < tau -> rescaled c tau w w' ->
    (response w dt v imps <-> response w' (tau * dt) (vscale (/ tau) v) (rescale_imps c tau imps)).
Proof. exact scale_response. Qed.
Print Assumptions C77_response.

(** The user gets the scene in the new units by passing the new masses and velocities to the constructors
    (moments of inertia follow), the same positions and anchors, and to Gravity the new acceleration. *)
Theorem C77_constructors :
  forall c tau,
    (forall id pos rad vel m e mu eps, circle_init id pos rad (vscale (/ tau) vel) (c * m) e mu eps = result_map (rescale_body c tau) (circle_init id pos rad vel m e mu eps)) /\
    (forall id rp vs vel m e mu eps, hull_init id rp vs (vscale (/ tau) vel) (c * m) e mu eps = result_map (rescale_body c tau) (hull_init id rp vs vel m e mu eps)) /\
    (forall id pos dims vel m e mu eps, rect_init id pos dims (vscale (/ tau) vel) (c * m) e mu eps = result_map (rescale_body c tau) (rect_init id pos dims vel m e mu eps)) /\
    (forall b1 ob2 pos, joint_init (rescale_body c tau b1) (option_map (rescale_body c tau) ob2) pos = joint_init b1 ob2 pos) /\
    (forall b1 b2, fixed_init (rescale_body c tau b1) (rescale_body c tau b2) = fixed_init b1 b2) /\
    (forall b, x_init (rescale_body c tau b) = x_init b /\ y_init (rescale_body c tau b) = y_init b /\
               rot_init (rescale_body c tau b) = rot_init b /\ total_init (rescale_body c tau b) = total_init b).
Proof.
  intros c tau. repeat split; intros; auto using hull_gen_scale, rect_scale, joint_scale.
  - apply body_init_scale.
  - apply hull_gen_scale.
Qed.
Print Assumptions C77_constructors.
Theorem C77_forces :
  forall c tau, 0 < tau ->
    (forall g k m, rescaled_force c tau (set_body (FGrav g k) m) (set_body (FGrav (g / (tau * tau)) k) (c * m))) /\
    (forall f mult, rescaled_force c tau (FExt f mult) (FExt (fun t => f (t / tau)) (c / (tau * tau) * mult))).
Proof. intros c tau Ht. split; intros; [apply gravity_scale|apply external_scale]; lra. Qed.
Print Assumptions C77_forces.

(** But the engine's answers to contacts do not correspond: its solver compares its residuals, which have
    different units, with each other and with fixed numbers.  A disc runs into another one at rest with
    velocity 1, restitution 1/2: with masses 1 both move on with 1/4 and 3/4, as they should; with masses
    1024 the first one keeps more than 98% of its velocity and the second one gets less than 2%, so that the
    discs run on into each other. *)
Theorem C77_refuted :
  exists va vb va' vb' : float, bounce 1 = Ok (va, vb) /\ bounce 1024 = Ok (va', vb') /\
    (PrimFloat.abs (va - 0.25) <? 0x1p-30)%float = true /\ (PrimFloat.abs (vb - 0.75) <? 0x1p-30)%float = true /\
    (0.984375 <? va')%float = true /\ (vb' <? 0.015625)%float = true.
Proof.
  assert (E : res_check (bounce 1) (fun '(a, b) => (PrimFloat.abs (a - 0.25) <? 0x1p-30)%float && (PrimFloat.abs (b - 0.75) <? 0x1p-30)%float) = true) by (vm_compute; reflexivity).
  assert (E' : res_check (bounce 1024) (fun '(a, b) => (0.984375 <? a)%float && (b <? 0.015625)%float) = true) by (vm_compute; reflexivity).
  apply res_check_ok in E. destruct E as ([va vb] & E & P). apply res_check_ok in E'. destruct E' as ([va' vb'] & E' & P').
  apply andb_prop in P. apply andb_prop in P'. exists va, vb, va', vb'. tauto.
Qed.
Print Assumptions C77_refuted.

(** a chain of discs, pinned, hinged and fixed together, falling, in units of 1/1000 of the mass and
    1/60 of the time *)
Example C77_case : forall om0 om1 om2 vy0 vy1 vy2,
  let bs := chain_bodies om0 om1 om2 vy0 vy1 vy2 in
  NoDup (map b_id bs) /\ Forall (built bs) (chain_joints om0 om1 om2 vy0 vy1 vy2) /\ broadphase_sane (pair_oracle (T := R)) /\
  Forall2 (rescaled_force 1000 60) falling_heap [FExt down_force (1000 / (60 * 60) * 10)] /\
  world_init pair_oracle disc_hd falling_heap bs (chain_joints om0 om1 om2 vy0 vy1 vy2) (1/2) (1/10) 0 2 false false = Ok (chain_world om0 om1 om2 vy0 vy1 vy2) /\
  exists w, exec 9 pair_oracle disc_hd (until_contact ref_engine) [OStepDt (1/2)] (chain_world om0 om1 om2 vy0 vy1 vy2) = Ok w.
Proof.
  intros om0 om1 om2 vy0 vy1 vy2 bs. pose proof (chain_smooth om0 om1 om2 vy0 vy1 vy2) as Sm. split; [apply (sm_ids _ _ _ _ Sm)|]. split; [apply (sm_built _ _ _ _ Sm)|]. split; [apply pair_sane|].
  split; [constructor; [apply (external_scale 1000 60 down_force 10); lra|constructor]|]. split; [apply chain_init|].
  destruct (chain_step om0 om1 om2 vy0 vy1 vy2 10) as [w E]; [lia|]. exists w. cbn [exec]. rewrite (until_step 9 pair_oracle disc_hd ref_engine _ _ w); [reflexivity|reflexivity|reflexivity|exact E].
Qed.
(** the sliding collision of C34 *)
Example C77_response_case :
  response slide_world (1/2) [- (3/2); - (1/2); 37/4; - (3/2); 1/2; 3/4] [(3/2, - (3/4))] /\
  rescaled 1000 60 slide_world (rw 1000 60 [] None slide_world).
Proof. split; [apply slide_response|apply rw_rescaled; constructor]. Qed.
