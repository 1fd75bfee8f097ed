(** C08, C23, C24, C33-C37, C44, C49, C56-C58: the engine *)
From Coq Require Import List Arith ZArith Bool Reals Lra Lia Floats.
From Verif Require Import Num Tensor Utils Bodies Forces Constraints Contacts World Lapack LapackRef Pdipm Lcp Engines
     Spec GeoSpec BodySpec JointSpec FreshSpec EngineSpec ContactSpec LapackSpec KktSpec PdipmSpec
     RBase ResFacts LinAlg LuFacts HandlerFacts EngineFacts ContactSys EngineBalance CacheFacts EnergyFacts MomentumFacts EngineTotal PostFacts HeldFacts
     FreeFacts FlightFacts EngineProps EngineMore RunTotal FloatEx RealEx ContactEx EngineEx DriftEx.
Import ListNotations.
Open Scope R_scope.

(** C23.  Newton's law: whatever velocity [v] the engine returns, with or without contacts and whether
    or not the LCP solver converged, there are impulses at the contacts and in the constraints that,
    together with the external forces during [dt], produce it exactly; and [v] violates no constraint.
    Without contacts there are no contact impulses: [imps] has one entry per contact. *)
Theorem C23_newton :
  forall la mi bs js w dt v c,
    lapack_ok la -> engine_world la mi bs js w -> solve_dynamics la mi w dt = Ok (v, c) ->
    exists f imps y, world_apply_forces w (w_t w) = Ok f /\ length v = (3 * length (w_bodies w))%nat /\
      balance w dt f v imps y (vzeros (3 * length (w_bodies w))) /\
      constraint_velocity w v = vzeros (w_num_constraints w).
Proof. exact engine_newton. Qed.
Print Assumptions C23_newton.
(** A body without contacts and constraints gets M v' = M v + dt f. *)
Theorem C23_free_body :
  forall la mi bs js w dt v c i b,
    lapack_ok la -> engine_world la mi bs js w -> solve_dynamics la mi w dt = Ok (v, c) ->
    untouched w i -> nth_error (w_bodies w) i = Some b ->
    exists f, world_apply_forces w (w_t w) = Ok f /\
      body_momentum b (v3_at v i) = v3add (body_momentum b (b_v b)) (v3scale dt (v3_at f i)).
Proof. exact engine_free. Qed.
Print Assumptions C23_free_body.
(** a ball hits a disc held by a TotalConstraint: contact and constraint; the engine returns *)
Example C23_case : exists v c, lapack_ok ref_lapack /\ engine_world ref_lapack 10 (pinned_discs (-1) 2 (1/2)) [pin (1/2)] (pinned_world (-1) 2 (1/2)) /\
  w_contacts (pinned_world (-1) 2 (1/2)) <> [] /\ w_num_constraints (pinned_world (-1) 2 (1/2)) = 3%nat /\
  solve_dynamics ref_lapack 10 (pinned_world (-1) 2 (1/2)) (1/2) = Ok (v, c).
Proof.
  destruct (pinned_runs (-1) 2 (1/2) 10 [false]) as [w H]; [lia|]. cbn [map exec] in H. unfold step in H. bind_inv H as w1 E. clear H.
  destruct (step_dt_v _ _ _ _ _ _ _ E) as (v & c & Es & _). exists v, c. split; [apply ref_lapack_ok|].
  split; [eapply session_world; apply pinned_session|]. split; [discriminate|]. split; [reflexivity|exact Es].
Qed.
Example C23_free_case : exists v c, engine_world ref_lapack 10 falling_discs [] falling_world /\ untouched falling_world 0 /\
  world_apply_forces falling_world (w_t falling_world) = Ok falling_force /\ solve_dynamics ref_lapack 10 falling_world (1/2) = Ok (v, c).
Proof.
  destruct (falling_runs 10 [false]) as [w H]; [lia|]. cbn [map exec] in H. unfold step in H. bind_inv H as w1 E. clear H.
  destruct (step_dt_v _ _ _ _ _ _ _ E) as (v & c & Es & _). exists v, c.
  split; [eapply session_world; apply falling_session|]. split; [split; [intros ? []|intros ? ? ? []]|]. split; [apply falling_forces|exact Es].
Qed.

(** C08.  However often a step was halved, a body without contacts and constraints receives the impulse
    of the full [dt] while time advances, and the body moves, by dt/2^k: the relied-on equality holds
    exactly in the steps that were not halved. *)
Theorem C08_free_body :
  forall la mi o hd bs js w fuel dt w' i b,
    lapack_ok la -> session la mi o hd bs js w -> step_dt fuel o hd (pdipm_engine la mi) w dt = Ok w' ->
    untouched w i -> nth_error (w_bodies w) i = Some b ->
    exists k f b', world_apply_forces w (w_t w) = Ok f /\ w_t w' = w_t w + dt / 2 ^ k /\ nth_error (w_bodies w') i = Some b' /\
      body_momentum b (b_v b') = v3add (body_momentum b (b_v b)) (v3scale dt (v3_at f i)) /\
      (w_post_stab w = false -> b_p b' = v3add (b_p b) (v3scale (dt / 2 ^ k) (b_v b'))).
Proof. exact session_free. Qed.
Print Assumptions C08_free_body.
Example C08_free_case : exists w', session ref_lapack 10 pair_oracle disc_hd falling_discs [] falling_world /\ untouched falling_world 1 /\
  step_dt 9 pair_oracle disc_hd (pdipm_engine ref_lapack 10) falling_world (1/2) = Ok w'.
Proof.
  destruct (falling_runs 10 [false]) as [w H]; [lia|]. cbn [map exec] in H. unfold step in H. bind_inv H as w1 E. exists w1.
  split; [apply falling_session|]. split; [split; [intros ? []|intros ? ? ? []]|exact E].
Qed.

(** C24.  For every arithmetic, LAPACK, callback and history: the engine with its cached inverse and
    the same engine recomputing it in every call end in the same state or the same exception ... *)
Theorem C24_cache_transparent :
  forall (T : Type) (N : Num T) (la : lapack T) mi fuel o hd heap bs js dt eps tol fd ps st w0 ops,
    handler_frame hd -> world_init o hd heap bs js dt eps tol fd ps st = Ok w0 ->
    exec fuel o hd (without_cache (pdipm_engine la mi)) ops w0 =
    (do w <- exec fuel o hd (pdipm_engine la mi) ops w0; Ok (with_cache w None)).
Proof. intros T N la mi. exact (@cache_never_stale T N la mi). Qed.
Print Assumptions C24_cache_transparent.
(** ... and whenever there is a cached inverse it is that of the present system matrix. *)
Theorem C24_cache_is_current :
  forall (T : Type) (N : Num T) (la : lapack T) mi fuel o hd heap bs js dt eps tol fd ps st w0 ops w inv,
    handler_frame hd -> world_init o hd heap bs js dt eps tol fd ps st = Ok w0 ->
    exec fuel o hd (pdipm_engine la mi) ops w0 = Ok w -> w_cache w = Some inv ->
    la_inv la (sys w) = Ok inv.
Proof. intros T N la mi. exact (@cache_correct T N la mi). Qed.
Print Assumptions C24_cache_is_current.
(** a moving body with a TotalConstraint beside a free one: the inverse is cached after a step *)
Definition C24_world : res (world float) :=
  (do b0 <- circle_init 0 [0; 0] 1 [0; 0; 0] 1 0.5 0.5 0.125;
  do b1 <- circle_init 1 [4; 0] 1 [0; 1; 0] 1 0.5 0.5 0.125;
  world_init pair_oracle (diff_handler 10 pair_oracle) [] [b0; b1] [total_init b0] 0.125 0.125 0x1p-10 2 false false)%float.
Example C24_case : exists w, (do w0 <- C24_world;
                              exec 20 pair_oracle (diff_handler 10 pair_oracle) ref_engine [OStep false; OStep true; OStep false] w0) = Ok w /\
  match w_cache w with Some _ => true | None => false end = true.
Proof. apply res_check_ok. vm_compute. reflexivity. Qed.

(** C33.  Jc v is the list of normal relative velocities of the contacts, Jf v that of the slip
    velocities along the two opposite tangents. *)
Theorem C33_jacobians :
  forall la mi bs js w x,
    engine_world la mi bs js w -> length x = (3 * length (w_bodies w))%nat ->
    mv (Jc w) x = map (normal_velocity x) (w_contacts w) /\
    forall jf, w_contacts w <> [] -> Jf w = Ok jf -> mv jf x = flat_map (fun c => [slip_velocity x c; - slip_velocity x c]) (w_contacts w).
Proof.
  intros la mi bs js w x HW Hx. destruct (engine_world_sound _ _ _ _ _ HW) as (J0 & S & _). pose proof (so_range _ _ _ _ S) as Hr. split.
  - exact (mv_Jc w x Hr Hx).
  - intros jf Hc E. destruct (Jf_inv w jf Hc E) as [_ ->]. exact (mv_jf w x Hr Hx).
Qed.
Print Assumptions C33_jacobians.
(** Restitution and friction of a contact are the averages of the bodies' coefficients. *)
Theorem C33_mixing :
  forall w : world R,
    restitutions w = map (mixed w b_rest) (w_contacts w) /\ mu_vec w = map (mixed w b_fric) (w_contacts w) /\
    (w_fric_dirs w = 2%nat -> forall g, length g = length (w_contacts w) -> mv (world_E w) g = flat_map (fun a => [a; a]) g).
Proof.
  intros w. split; [|split].
  - apply map_ext. intros c. unfold mixed. rnum. reflexivity.
  - apply map_ext. intros c. unfold mixed. rnum. lra.
  - intros E g Hg. unfold world_E. rewrite E. now rewrite mv_E.
Qed.
Print Assumptions C33_mixing.
(** Nothing depends on which body of a pair is called the first. *)
Theorem C33_order :
  forall w x c, normal_velocity x (mirror c) = normal_velocity x c /\ slip_velocity x (mirror c) = slip_velocity x c /\
    mixed w b_rest (mirror c) = mixed w b_rest c /\ mixed w b_fric (mirror c) = mixed w b_fric c.
Proof.
  intros w x c. unfold normal_velocity, slip_velocity, mixed, relative_velocity, component, tangent, mirror, v2opp, v2sub, point_velocity. cbn [c_normal c_p1 c_p2 c_i1 c_i2 fst snd]. rnum.
  repeat split; unfold Rdiv; ring.
Qed.
Print Assumptions C33_order.
Example C33_case : engine_world ref_lapack 10 (two_discs 1 10 (1/2) (1/4) (-1) 0 (1/2) (3/4)) [] (two_disc_world 1 10 (1/2) (1/4) (-1) 0 (1/2) (3/4)) /\
  w_contacts (two_disc_world 1 10 (1/2) (1/4) (-1) 0 (1/2) (3/4)) = [touch 0 1] /\
  normal_velocity [0; 1; 10; 0; -1; 0] (touch 0 1) = -2 /\ slip_velocity [0; 1; 10; 0; -1; 0] (touch 0 1) = 10 /\
  mixed (two_disc_world 1 10 (1/2) (1/4) (-1) 0 (1/2) (3/4)) b_fric (touch 0 1) = 1/2.
Proof.
  split; [apply two_engine_world|]. split; [reflexivity|]. split; [|split].
  - unfold normal_velocity, relative_velocity, component, point_velocity, v3_at, vget, v2sub. cbn. rnum. lra.
  - unfold slip_velocity, tangent, relative_velocity, component, point_velocity, v3_at, vget, v2sub. cbn. rnum. lra.
  - unfold mixed. cbn. lra.
Qed.

(** C34.  An exact solution of the LCP is the response to unilateral contacts with Newton's restitution
    and Coulomb's friction, and obeys Newton's law and the constraints. *)
Theorem C34_exact_solution :
  forall la mi bs js w dt it,
    engine_world la mi bs js w -> w_contacts w <> [] -> solves_engine w dt it ->
    exists f imps y, world_apply_forces w (w_t w) = Ok f /\
      balance w dt f (vopp (i_x it)) imps y (vzeros (3 * length (w_bodies w))) /\
      constraint_velocity w (vopp (i_x it)) = vzeros (w_num_constraints w) /\
      Forall2 (fun c im => coulomb w (vopp (i_x it)) c (fst im) (snd im)) (w_contacts w) imps.
Proof.
  intros la mi bs js w dt it HW Hc Hs. destruct (exact_response la mi bs js w dt HW Hc it Hs) as (f & Ef & _ & _ & _ & B & C & L).
  exists f, (impulses (length (w_contacts w)) (i_z it)), (i_y it). split; [exact Ef|]. split; [exact B|]. split; [exact C|]. now apply impulses_coulomb.
Qed.
Print Assumptions C34_exact_solution.
(** Coulomb's law takes energy out. *)
Theorem C34_friction_dissipates :
  forall w v c l t, coulomb w v c l t -> t * slip_velocity v c <= 0.
Proof.
  intros w v c l t [H1 _ _ H4 H5]. rewrite H5. pose proof (Rabs_pos (slip_velocity v c)). pose proof (Rabs_pos t). nra.
Qed.
Print Assumptions C34_friction_dissipates.
(** What the solver returns satisfies the same law up to its residual [r], and Newton's law up to [r]
    with the multipliers of the point. *)
Theorem C34_returned_point :
  forall la mi bs js w dt v c,
    lapack_ok la -> engine_world la mi bs js w -> w_contacts w <> [] -> solve_dynamics la mi w dt = Ok (v, c) ->
    exists it r f err, engine_point la mi w dt it r /\ v = vopp (i_x it) /\
      world_apply_forces w (w_t w) = Ok f /\ norm2 err <= r /\
      balance w dt f v (impulses (length (w_contacts w)) (i_z it)) (i_y it) err /\
      constraint_velocity w v = vzeros (w_num_constraints w) /\
      forall i c, nth_error (w_contacts w) i = Some c ->
        let '(l, b1, b2, g) := multipliers (length (w_contacts w)) (i_z it) i in contact_law r w v c l b1 b2 g.
Proof.
  intros la mi bs js w dt v c HL HW Hc H. destruct (solved_point la mi bs js w dt HL HW Hc v c H) as (it & r & Hp & Ev).
  destruct (point_response la mi bs js w dt HL HW Hc it r v Hp Ev) as (f & err & Ef & _ & _ & _ & _ & Ne & B & C & L). exists it, r, f, err.
  split; [exact Hp|]. split; [exact Ev|]. split; [exact Ef|]. split; [exact Ne|]. split; [exact B|]. split; [exact C|exact L].
Qed.
Print Assumptions C34_returned_point.
(** discs that slide past each other while they collide, and the exact solution *)
Example C34_exact_case : engine_world ref_lapack 10 (two_discs 1 10 (1/2) (1/2) (-1) 0 (1/2) (1/2)) [] slide_world /\ w_contacts slide_world <> [] /\
  solves_engine slide_world (1/2) slide_solution.
Proof.
  split; [apply two_engine_world|]. split; [discriminate|]. destruct slide_problem as (pr & E & Hs). exists pr. split; [|exact Hs].
  unfold engine_problem. change slide_world with (two_disc_world 1 10 (1/2) (1/2) (-1) 0 (1/2) (1/2)) at 1 2. rewrite two_forces. exact E.
Qed.
Example C34_returned_case : exists v c, engine_world ref_lapack 10 (two_discs 1 10 (1/2) 0 (-1) 0 (1/2) 0) [] (two_disc_world 1 10 (1/2) 0 (-1) 0 (1/2) 0) /\
  w_contacts (two_disc_world 1 10 (1/2) 0 (-1) 0 (1/2) 0) <> [] /\ solve_dynamics ref_lapack 10 (two_disc_world 1 10 (1/2) 0 (-1) 0 (1/2) 0) (1/2) = Ok (v, c).
Proof.
  destruct (two_runs 1 10 (1/2) (-1) 0 (1/2) 10 [false]) as [w H]; [lia|]. cbn [map exec] in H. unfold step in H. bind_inv H as w1 E. clear H.
  destruct (step_dt_v _ _ _ _ _ _ _ E) as (v & c & Es & _). exists v, c. split; [apply two_engine_world|]. split; [discriminate|exact Es].
Qed.

(** C35.  A step changes the total momentum by dt times the total external force, whatever the LCP
    solver did, if the constraints are between bodies or only hold rotations ... *)
Theorem C35_step :
  forall la mi o hd bs js w fuel dt w',
    lapack_ok la -> session la mi o hd bs js w -> Forall pushless js ->
    step_dt fuel o hd (pdipm_engine la mi) w dt = Ok w' ->
    exists f, world_apply_forces w (w_t w) = Ok f /\
      momentum w' (w_v w') = v2add (momentum w (w_v w)) (v2scale dt (total_force w f)).
Proof. exact session_momentum. Qed.
Print Assumptions C35_step.
(** ... so without forces it is conserved for ever. *)
Theorem C35_history :
  forall la mi o hd bs js w fuel ops w',
    lapack_ok la -> session la mi o hd bs js w -> Forall pushless js ->
    Forall (fun b => b_forces b = []) bs -> undisturbed ops ->
    exec fuel o hd (pdipm_engine la mi) ops w = Ok w' ->
    momentum w' (w_v w') = momentum w (w_v w).
Proof. exact session_momentum_exec. Qed.
Print Assumptions C35_history.
(** C36.  The impulses of a step do not change the total angular momentum about any point [q]: only the
    torque of the external forces does.  With ODE's contacts always; with the default callback if no
    contact is between bodies in one of the positions excluded in C26; without post-stabilisation,
    which displaces the bodies. *)
Theorem C36_step :
  forall la mi o hd bs js w fuel dt w' q,
    lapack_ok la -> session la mi o hd bs js w -> Forall between_bodies js ->
    hd = ode_handler o \/ regular_contacts w -> w_post_stab w = false ->
    step_dt fuel o hd (pdipm_engine la mi) w dt = Ok w' ->
    exists f, world_apply_forces w (w_t w) = Ok f /\
      angular_momentum q w' (w_v w') = angular_momentum q w (w_v w) + dt * total_torque q w f.
Proof. intros la mi o hd bs js w fuel dt w' q HL Hs Hb Hc. apply session_angular with (1 := HL) (2 := Hs) (3 := Hb). eapply session_consistent; eauto. Qed.
Print Assumptions C36_step.
(** With post-stabilisation the engine's velocity still has the angular momentum it should have. *)
Theorem C36_engine :
  forall la mi o hd bs js w dt v c q,
    lapack_ok la -> session la mi o hd bs js w -> Forall between_bodies js ->
    hd = ode_handler o \/ regular_contacts w -> solve_dynamics la mi w dt = Ok (v, c) ->
    exists f, world_apply_forces w (w_t w) = Ok f /\
      angular_momentum q w v = angular_momentum q w (w_v w) + dt * total_torque q w f.
Proof.
  intros la mi o hd bs js w dt v c q HL Hs Hb Hc H. pose proof (session_consistent _ _ _ _ _ _ _ Hs Hc) as Hk. destruct (session_facts _ _ _ _ _ _ _ Hs) as (_ & _ & _ & _ & J0 & S & V).
  destruct (solve_balance bs js J0 w la mi S HL V dt v c H) as (f & imps & y & Ef & _ & B & _). exists f. split; [exact Ef|].
  destruct (LayoutFacts.apply_forces_layout _ _ _ Ef) as [Lf _]. exact (balance_angular bs js J0 w S q dt f v imps y Lf Hb Hk B).
Qed.
Print Assumptions C36_engine.
(** two discs collide off their common motion and go on for any number of steps *)
Example C35_C36_case : forall fixed, exists w',
  session ref_lapack 10 pair_oracle disc_hd (two_discs 1 10 (1/2) 0 (-1) 0 1 0) [] (two_disc_world 1 10 (1/2) 0 (-1) 0 1 0) /\
  Forall (fun b => b_forces b = []) (two_discs 1 10 (1/2) 0 (-1) 0 1 0) /\
  regular_contacts (two_disc_world 1 10 (1/2) 0 (-1) 0 1 0) /\ w_post_stab (two_disc_world 1 10 (1/2) 0 (-1) 0 1 0) = false /\
  w_contacts (two_disc_world 1 10 (1/2) 0 (-1) 0 1 0) = [touch 0 1] /\
  exec 9 pair_oracle disc_hd (pdipm_engine ref_lapack 10) (map OStep fixed) (two_disc_world 1 10 (1/2) 0 (-1) 0 1 0) = Ok w'.
Proof.
  intros fixed. destruct (two_runs 1 10 (1/2) (-1) 0 1 10 fixed) as [w' H]; [lia|]. exists w'. split; [apply two_session|]. split; [repeat constructor|].
  split; [|split; [reflexivity|split; [reflexivity|exact H]]].
  intros c b1 b2 [<-|[]] H1 H2. cbn in H1, H2. injection H1 as <-. injection H2 as <-. unfold regular. cbn. intros E. injection E as E. lra.
Qed.

(** C37.  No external force.  Without contacts kinetic energy does not increase ... *)
Theorem C37_no_contacts :
  forall la mi bs js w dt v c,
    lapack_ok la -> engine_world la mi bs js w -> Forall (fun b => 0 <= b_mass b /\ 0 <= b_inertia b) (w_bodies w) ->
    w_contacts w = [] -> world_apply_forces w (w_t w) = Ok (vzeros (3 * length (w_bodies w))) ->
    solve_dynamics la mi w dt = Ok (v, c) -> kinetic_energy w v <= kinetic_energy w (w_v w).
Proof. intros la mi bs js w dt v c HL HW Hm. exact (energy_free la mi bs js w dt HL HW Hm v c). Qed.
Print Assumptions C37_no_contacts.
(** ... nor in an exact solution with restitution 0, whatever friction and constraints ... *)
Theorem C37_inelastic :
  forall la mi bs js w dt it,
    engine_world la mi bs js w -> Forall (fun b => 0 <= b_mass b /\ 0 <= b_inertia b) (w_bodies w) ->
    w_contacts w <> [] -> world_apply_forces w (w_t w) = Ok (vzeros (3 * length (w_bodies w))) ->
    solves_engine w dt it -> (forall c, In c (w_contacts w) -> mixed w b_rest c = 0) ->
    kinetic_energy w (vopp (i_x it)) <= kinetic_energy w (w_v w).
Proof. intros la mi bs js w dt it HW Hm Hc Hf. exact (energy_exact_inelastic la mi bs js w dt HW Hm Hc Hf it). Qed.
Print Assumptions C37_inelastic.
(** ... nor without friction if all contacts have the same restitution in [0, 1]. *)
Theorem C37_frictionless :
  forall la mi bs js w dt it e,
    engine_world la mi bs js w -> Forall (fun b => 0 <= b_mass b /\ 0 <= b_inertia b) (w_bodies w) ->
    w_contacts w <> [] -> world_apply_forces w (w_t w) = Ok (vzeros (3 * length (w_bodies w))) ->
    solves_engine w dt it -> 0 <= e <= 1 -> (forall c, In c (w_contacts w) -> mixed w b_rest c = e /\ mixed w b_fric c = 0) ->
    constraint_velocity w (w_v w) = vzeros (w_num_constraints w) ->
    kinetic_energy w (vopp (i_x it)) <= kinetic_energy w (w_v w).
Proof. intros la mi bs js w dt it e HW Hm Hc Hf. exact (energy_exact_frictionless la mi bs js w dt HW Hm Hc Hf e it). Qed.
Print Assumptions C37_frictionless.
(** The point the solver returns obeys the same bounds up to its residual [r] times impulses and speeds. *)
Theorem C37_inelastic_returned :
  forall la mi bs js w dt it r,
    lapack_ok la -> engine_world la mi bs js w -> Forall (fun b => 0 <= b_mass b /\ 0 <= b_inertia b) (w_bodies w) ->
    w_contacts w <> [] -> world_apply_forces w (w_t w) = Ok (vzeros (3 * length (w_bodies w))) ->
    engine_point la mi w dt it r -> (forall c, In c (w_contacts w) -> mixed w b_rest c = 0) ->
    kinetic_energy w (vopp (i_x it)) <= kinetic_energy w (w_v w) + r * (slack (length (w_contacts w)) (i_z it) + norm2 (i_x it)).
Proof. intros la mi bs js w dt it r HL HW Hm Hc Hf. exact (energy_point_inelastic la mi bs js w dt HL HW Hm Hc Hf it r). Qed.
Print Assumptions C37_inelastic_returned.
Theorem C37_frictionless_returned :
  forall la mi bs js w dt it r e,
    lapack_ok la -> engine_world la mi bs js w -> Forall (fun b => 0 <= b_mass b /\ 0 <= b_inertia b) (w_bodies w) ->
    w_contacts w <> [] -> world_apply_forces w (w_t w) = Ok (vzeros (3 * length (w_bodies w))) ->
    engine_point la mi w dt it r -> 0 <= e <= 1 -> (forall c, In c (w_contacts w) -> mixed w b_rest c = e /\ mixed w b_fric c = 0) ->
    constraint_velocity w (w_v w) = vzeros (w_num_constraints w) ->
    (1 + e) * kinetic_energy w (vopp (i_x it)) <= (1 + e) * kinetic_energy w (w_v w) +
      r * (slack (length (w_contacts w)) (i_z it) + slip_total w (vopp (i_x it)) + e * slip_total w (w_v w) + norm2 (i_x it) + e * norm2 (w_v w)).
Proof. intros la mi bs js w dt it r e HL HW Hm Hc Hf. exact (energy_point_frictionless la mi bs js w dt HL HW Hm Hc Hf e it r). Qed.
Print Assumptions C37_frictionless_returned.
(** The energy after a step is that of the velocity the engine returned. *)
Theorem C37_step :
  forall la mi o hd bs js w fuel dt w',
    session la mi o hd bs js w -> step_dt fuel o hd (pdipm_engine la mi) w dt = Ok w' ->
    exists v c, solve_dynamics la mi w dt = Ok (v, c) /\ kinetic_energy w' (w_v w') = kinetic_energy w v.
Proof. exact session_energy. Qed.
Print Assumptions C37_step.
(** With different restitutions kinetic energy can grow: three discs in a row, the pairs with
    restitution 1 and 1/2, no friction.  An exact solution of the LCP takes 5 to 21/4 ... *)
Theorem C37_mixed_restitution_refuted :
  exists la mi bs js w dt it,
    engine_world la mi bs js w /\ Forall (fun b => 0 < b_mass b /\ 0 < b_inertia b) (w_bodies w) /\
    world_apply_forces w (w_t w) = Ok (vzeros (3 * length (w_bodies w))) /\ w_num_constraints w = 0%nat /\
    (forall c, In c (w_contacts w) -> 0 <= mixed w b_rest c <= 1 /\ mixed w b_fric c = 0) /\
    solves_engine w dt it /\ kinetic_energy w (w_v w) < kinetic_energy w (vopp (i_x it)).
Proof.
  exists ref_lapack, 10%nat, (three_discs 3 1 0 1 1 0), [], gain_world, (1/2), gain_solution. split; [apply three_engine_world|].
  split; [repeat (apply Forall_cons; [cbn; rnum; lra|]); apply Forall_nil|]. split; [apply three_forces|]. split; [reflexivity|].
  split; [intros c [<-|[<-|[]]]; unfold mixed; cbn; lra|]. split.
  - destruct gain_problem as (pr & E & Hs). exists pr. split; [|exact Hs]. unfold engine_problem. change gain_world with (three_disc_world 3 1 0 1 1 0) at 1 2. rewrite three_forces. exact E.
  - unfold kinetic_energy, kinetic, component, v3_at, vget. cbn. rnum. lra.
Qed.
Print Assumptions C37_mixed_restitution_refuted.
(** ... and a step of the engine in binary64 does so too. *)
Definition energy (w : world float) : float :=
  fold_right PrimFloat.add 0%float (map (fun b => (b_inertia b * (fst (b_v b) * fst (b_v b)) +
    b_mass b * (fst (snd (b_v b)) * fst (snd (b_v b)) + snd (snd (b_v b)) * snd (snd (b_v b)))) / 2)%float (w_bodies w)).
Definition C37_mixed_world : res (world float) :=
  (do b0 <- circle_init 0 [0; 0] 1 [0; 3; 0] 1 1 0 0.125;
  do b1 <- circle_init 1 [2; 0] 1 [0; 0; 0] 1 1 0 0.125;
  do b2 <- circle_init 2 [4; 0] 1 [0; 1; 0] 1 0 0 0.125;
  world_init pair_oracle (diff_handler 10 pair_oracle) [] [b0; b1; b2] [] 0.125 0.125 0x1p-10 2 false false)%float.
Theorem C37_mixed_restitution_run_refuted :
  exists e, (do w0 <- C37_mixed_world;
             do w <- exec 20 pair_oracle (diff_handler 10 pair_oracle) ref_engine [OStep false] w0; Ok (energy w0, energy w)) = Ok e /\
    ((fst e =? 5) && (5.125 <? snd e))%bool%float = true.
Proof. apply res_check_ok. vm_compute. reflexivity. Qed.
Print Assumptions C37_mixed_restitution_run_refuted.
(** Friction and restitution together can do it with equal coefficients: a square falls onto a disc
    that is held in place, beside its centre; e = 1, mu = 1/2. *)
Definition C37_friction_world : res (world float) :=
  (do b0 <- rect_init 0 [0; 0] (2, 2) [0; -0.5; -1] 1 1 0.5 0.125;
  do b1 <- circle_init 1 [0.5; -2] 1 [0; 0; 0] 1 1 0.5 0.125;
  world_init pair_oracle (diff_handler 18 pair_oracle) [] [b0; b1] [total_init b1] 0.125 0.125 0x1p-10 2 false false)%float.
Theorem C37_friction_restitution_refuted :
  exists e, (do w0 <- C37_friction_world;
             do w <- exec 20 pair_oracle (diff_handler 18 pair_oracle) ref_engine [OStep false] w0; Ok (energy w0, energy w)) = Ok e /\
    ((fst e =? 0.625) && (0.6875 <? snd e))%bool%float = true.
Proof. apply res_check_ok. vm_compute. reflexivity. Qed.
Print Assumptions C37_friction_restitution_refuted.
(** the hypotheses of the exact theorems: a collision with sliding friction and restitution 0, ... *)
Definition soft_world : world R := two_disc_world 1 10 0 (1/2) (-1) 0 0 (1/2).
Definition soft_solution : iter R :=
  {| i_x := [1; 0; -19/2; 1; 0; -1/2]; i_s := [0; 14; 0; 0]; i_z := [1; 0; 1/2; 7]; i_y := [] |}.
Example C37_inelastic_case :
  engine_world ref_lapack 10 (two_discs 1 10 0 (1/2) (-1) 0 0 (1/2)) [] soft_world /\ Forall (fun b => 0 <= b_mass b /\ 0 <= b_inertia b) (w_bodies soft_world) /\
  w_contacts soft_world <> [] /\ world_apply_forces soft_world (w_t soft_world) = Ok (vzeros (3 * length (w_bodies soft_world))) /\
  (forall c, In c (w_contacts soft_world) -> mixed soft_world b_rest c = 0) /\ solves_engine soft_world (1/2) soft_solution.
Proof.
  split; [apply two_engine_world|]. split; [repeat (apply Forall_cons; [cbn; rnum; lra|]); apply Forall_nil|]. split; [discriminate|]. split; [apply two_forces|].
  split; [intros c [<-|[]]; unfold mixed; cbn; lra|]. eexists. split; [unfold engine_problem, soft_world; rewrite two_forces; reflexivity|]. constructor.
  - constructor; reflexivity.
  - lazy -[Rplus Rmult Rdiv Rinv Rminus Ropp IZR]. repeat (apply f_equal2; [field|]). reflexivity.
  - lazy -[Rplus Rmult Rdiv Rinv Rminus Ropp IZR]. repeat (apply f_equal2; [field|]). reflexivity.
  - reflexivity.
  - repeat (apply Forall_cons; [lra|]). apply Forall_nil.
  - repeat (apply Forall_cons; [lra|]). apply Forall_nil.
  - intros [|[|[|[|[|i]]]]]; unfold vget; cbn; rnum; try ring; destruct i; ring.
Qed.
(** ... one without friction, restitution 1/2 ... *)
Definition bounce_world : world R := two_disc_world 1 10 (1/2) 0 (-1) 0 (1/2) 0.
Definition bounce_solution : iter R :=
  {| i_x := [0; 1/2; -10; 0; -1/2; 0]; i_s := [0; 20; 0; 0]; i_z := [3/2; 0; 0; 10]; i_y := [] |}.
Example C37_frictionless_case :
  engine_world ref_lapack 10 (two_discs 1 10 (1/2) 0 (-1) 0 (1/2) 0) [] bounce_world /\ Forall (fun b => 0 <= b_mass b /\ 0 <= b_inertia b) (w_bodies bounce_world) /\
  w_contacts bounce_world <> [] /\ world_apply_forces bounce_world (w_t bounce_world) = Ok (vzeros (3 * length (w_bodies bounce_world))) /\
  (forall c, In c (w_contacts bounce_world) -> mixed bounce_world b_rest c = 1/2 /\ mixed bounce_world b_fric c = 0) /\
  constraint_velocity bounce_world (w_v bounce_world) = vzeros (w_num_constraints bounce_world) /\ solves_engine bounce_world (1/2) bounce_solution.
Proof.
  split; [apply two_engine_world|]. split; [repeat (apply Forall_cons; [cbn; rnum; lra|]); apply Forall_nil|]. split; [discriminate|]. split; [apply two_forces|].
  split; [intros c [<-|[]]; unfold mixed; cbn; lra|]. split; [reflexivity|]. eexists. split; [unfold engine_problem, bounce_world; rewrite two_forces; reflexivity|]. constructor.
  - constructor; reflexivity.
  - lazy -[Rplus Rmult Rdiv Rinv Rminus Ropp IZR]. repeat (apply f_equal2; [field|]). reflexivity.
  - lazy -[Rplus Rmult Rdiv Rinv Rminus Ropp IZR]. repeat (apply f_equal2; [field|]). reflexivity.
  - reflexivity.
  - repeat (apply Forall_cons; [lra|]). apply Forall_nil.
  - repeat (apply Forall_cons; [lra|]). apply Forall_nil.
  - intros [|[|[|[|[|i]]]]]; unfold vget; cbn; rnum; try ring; destruct i; ring.
Qed.
(** ... and a point the solver returned. *)
Example C37_returned_case : exists it r, engine_point ref_lapack 10 bounce_world (1/2) it r.
Proof.
  destruct C34_returned_case as (v & c & HW & Hc & E). destruct (solved_point _ _ _ _ _ _ ref_lapack_ok HW Hc v c E) as (it & r & Hp & _). exists it, r. exact Hp.
Qed.

(** C44.  A body with a TotalConstraint never moves; one with an X-, Y- or RotConstraint keeps that
    coordinate: over every history of calls, with contacts, joints and post-stabilisation, whether or
    not the LCP solver converged. *)
Theorem C44_held :
  forall la mi o hd bs js w fuel ops w' j i b0 b b',
    lapack_ok la -> session la mi o hd bs js w -> exec fuel o hd (pdipm_engine la mi) ops w = Ok w' ->
    In j js -> nth_error bs i = Some b0 -> b_id b0 = j_b1 j ->
    nth_error (w_bodies w) i = Some b -> nth_error (w_bodies w') i = Some b' ->
    held (j_kind j) (b_p b) (b_p b').
Proof. intros la mi o hd bs js w fuel ops w' j i b0 b b' HL Hs H. exact (session_held la mi o hd bs js w fuel ops w' HL Hs H j i b0 b b'). Qed.
Print Assumptions C44_held.
Example C44_case : forall fixed, exists w',
  session ref_lapack 10 pair_oracle disc_hd (pinned_discs (-1) 2 (1/2)) [pin (1/2)] (pinned_world (-1) 2 (1/2)) /\ j_kind (pin (1/2)) = JTotal /\
  w_contacts (pinned_world (-1) 2 (1/2)) <> [] /\
  exec 9 pair_oracle disc_hd (pdipm_engine ref_lapack 10) (map OStep fixed) (pinned_world (-1) 2 (1/2)) = Ok w'.
Proof.
  intros fixed. destruct (pinned_runs (-1) 2 (1/2) 10 fixed) as [w' H]; [lia|]. exists w'. split; [apply pinned_session|]. split; [reflexivity|]. split; [discriminate|exact H].
Qed.

(** C49.  Free flight: bodies under constant forces without constraints that have no contacts along the
    way are after n steps exactly where the scheme v += dt a, p += dt v puts them. *)
Theorem C49_free_flight :
  forall la mi fuel gf o hd heap bs dt eps tol fd ps st w0 f fixed w,
    lapack_ok la -> hd = diff_handler gf o \/ hd = ode_handler o -> broadphase_sane o -> NoDup (map b_id bs) -> Forall available bs ->
    world_init o hd heap bs [] dt eps tol fd ps st = Ok w0 -> 0 < dt ->
    Forall (fun b => b_mass b <> 0 /\ b_inertia b <> 0) bs ->
    (forall t, world_apply_forces w0 t = Ok f) ->
    (forall m, (m <= length fixed)%nat -> clear_at o hd w0 (flight_poses w0 dt f m)) ->
    exec fuel o hd (pdipm_engine la mi) (map (@OStep R) fixed) w0 = Ok w ->
    w_t w = w_t w0 + INR (length fixed) * dt /\ w_contacts w = [] /\
    map b_p (w_bodies w) = flight_poses w0 dt f (length fixed) /\
    map b_v (w_bodies w) = mapi (fun i b => flight_v dt (acceleration b (v3_at f i)) (b_v b) (length fixed)) (w_bodies w0).
Proof.
  intros la mi fuel gf o hd heap bs dt eps tol fd ps st w0 f fixed w HL Hh Ho Hn Ha. destruct (callback_frame _ _ _ Hh) as [Hf Hr].
  apply flight; auto. eapply Forall_impl; [|exact Ha]. intros b. apply GeomFacts.available_geom.
Qed.
Print Assumptions C49_free_flight.
Example C49_case : forall fixed, exists w,
  world_init pair_oracle disc_hd falling_heap falling_discs [] (1/2) (1/10) 0 2 false false = Ok falling_world /\
  (forall t, world_apply_forces falling_world t = Ok falling_force) /\
  (forall m, (m <= length fixed)%nat -> clear_at pair_oracle disc_hd falling_world (flight_poses falling_world (1/2) falling_force m)) /\
  exec 9 pair_oracle disc_hd (pdipm_engine ref_lapack 10) (map OStep fixed) falling_world = Ok w.
Proof.
  intros fixed. destruct (falling_runs 10 fixed) as [w H]; [lia|]. exists w. split; [apply falling_init|]. split; [apply falling_forces|]. split; [intros m _; apply falling_clear|exact H].
Qed.

(** C56.  A simulation of smooth bodies (EngineSpec.smooth) never raises and never gets stuck: after
    every history that returned, every further sequence of step() calls returns ... *)
Theorem C56_steps_return :
  forall la mi gf o bs js w0 heap dt eps tol fd ps st fuel ops w fixed,
    lapack_ok la -> (0 < mi)%nat -> broadphase_sane o -> smooth gf bs js w0 ->
    world_init o (diff_handler gf o) heap bs js dt eps tol fd ps st = Ok w0 ->
    (9 <= fuel)%nat -> exec fuel o (diff_handler gf o) (pdipm_engine la mi) ops w0 = Ok w ->
    exists w', exec fuel o (diff_handler gf o) (pdipm_engine la mi) (map OStep fixed) w = Ok w'.
Proof. intros la mi gf o bs js w0 heap dt eps tol fd ps st fuel ops w fixed HL Hmi Ho HS H0. exact (smooth_steps la mi gf o bs js w0 HL Hmi Ho HS heap dt eps tol fd ps st H0 fuel ops w fixed). Qed.
Print Assumptions C56_steps_return.
(** ... and run_world(run_time) ends, after at most 8 (run_time - t) / dt + 1 rounds, in [run_time, run_time + dt). *)
Theorem C56_run_ends :
  forall la mi gf o bs js w0 heap dt eps tol fd ps st lfuel n ops w run_time,
    lapack_ok la -> (0 < mi)%nat -> broadphase_sane o -> smooth gf bs js w0 ->
    world_init o (diff_handler gf o) heap bs js dt eps tol fd ps st = Ok w0 ->
    (4 <= lfuel)%nat -> exec lfuel o (diff_handler gf o) (pdipm_engine la mi) ops w0 = Ok w ->
    8 * (run_time - w_t w) / w_dt w0 <= INR n -> w_t w < run_time + w_dt w0 ->
    exists w', run_world (S n) lfuel o (diff_handler gf o) (pdipm_engine la mi) run_time w = Ok w' /\
      run_time <= w_t w' < run_time + w_dt w0.
Proof. intros la mi gf o bs js w0 heap dt eps tol fd ps st lfuel n ops w rt HL Hmi Ho HS H0. exact (smooth_run la mi gf o bs js w0 HL Hmi Ho HS heap dt eps tol fd ps st H0 lfuel n ops w rt). Qed.
Print Assumptions C56_run_ends.
(** a ball that bounces off a disc held in place, with any velocity and restitution *)
Example C56_case : forall vx vy e, smooth 10 (pinned_discs vx vy e) [pin e] (pinned_world vx vy e) /\
  world_init pair_oracle disc_hd [] (pinned_discs vx vy e) [pin e] (1/2) (1/10) 0 2 false false = Ok (pinned_world vx vy e).
Proof. intros. split; [apply pinned_smooth|apply pinned_init]. Qed.
(** and a chain of three discs under gravity, pinned to the world, with any velocities *)
Example C56_chain_case : forall om0 om1 om2 vy0 vy1 vy2,
  smooth 10 (chain_bodies om0 om1 om2 vy0 vy1 vy2) (chain_joints om0 om1 om2 vy0 vy1 vy2) (chain_world om0 om1 om2 vy0 vy1 vy2) /\
  world_init pair_oracle disc_hd falling_heap (chain_bodies om0 om1 om2 vy0 vy1 vy2) (chain_joints om0 om1 om2 vy0 vy1 vy2) (1/2) (1/10) 0 2 false false
    = Ok (chain_world om0 om1 om2 vy0 vy1 vy2).
Proof. intros. split; [apply chain_smooth|apply chain_init]. Qed.

(** C57.  The centre of mass moves with the total momentum during the time the step advanced, with
    contacts, joints between bodies, halvings and post-stabilisation. *)
Theorem C57_centre_of_mass :
  forall la mi o hd bs js w fuel dt w',
    lapack_ok la -> session la mi o hd bs js w -> Forall pushless js ->
    step_dt fuel o hd (pdipm_engine la mi) w dt = Ok w' ->
    mass_centre w' = v2add (mass_centre w) (v2scale (w_t w' - w_t w) (momentum w' (w_v w'))).
Proof. exact session_centre. Qed.
Print Assumptions C57_centre_of_mass.

(** C58.  The correction post_stabilization returns cancels the velocities with which the constraints
    are violated, and is produced by normal impulses at the contacts and impulses in the constraints
    alone (whether or not the LCP solver converged). *)
Theorem C58_post_stabilization :
  forall la mi bs js w dp,
    lapack_ok la -> engine_world la mi bs js w -> post_stabilization la w = Ok dp ->
    length dp = (3 * length (w_bodies w))%nat /\
    constraint_velocity w dp = vopp (constraint_velocity w (w_v w)) /\
    exists lam y, length lam = length (w_contacts w) /\ length y = w_num_constraints w /\
      forall x, length x = (3 * length (w_bodies w))%nat ->
        kinetic w x dp = contact_power (w_contacts w) (map (fun l => (l, 0)) lam) x + dot y (constraint_velocity w x).
Proof. exact engine_post. Qed.
Print Assumptions C58_post_stabilization.
Example C58_case : exists dp, engine_world ref_lapack 10 (pinned_discs (-1) 2 (1/2)) [pin (1/2)] (pinned_world (-1) 2 (1/2)) /\
  post_stabilization ref_lapack (pinned_world (-1) 2 (1/2)) = Ok dp.
Proof.
  pose proof (session_world _ _ _ _ _ _ _ (pinned_session (-1) 2 (1/2) 10)) as HW. destruct (engine_world_sound _ _ _ _ _ HW) as (J0 & HS & _).
  pose proof (pinned_smooth (-1) 2 (1/2)) as Sm.
  destruct (post_total _ _ J0 _ ref_lapack HS ref_lapack_ok (sm_masses _ _ _ _ Sm) (IndepFacts.loop_free_independent _ _ J0 _ HS (sm_joints _ _ _ _ Sm))) as [dp E]. exists dp. split; [exact HW|exact E].
Qed.

(** C53.  In particular detection returns after every history of a world whose bodies started as
    circles or strictly convex polygons. *)
Theorem C53_always :
  forall gf o e fuel heap bs js dt eps tol fd ps st w0 ops w,
    broadphase_sane o -> Forall available bs ->
    Forall (fun b => tidy b /\ ContactSpec.in_range b /\ (gjk_rounds b <= gf)%nat) bs ->
    world_init o (diff_handler gf o) heap bs js dt eps tol fd ps st = Ok w0 ->
    exec fuel o (diff_handler gf o) e ops w0 = Ok w ->
    exists w', find_contacts o (diff_handler gf o) w = Ok w'.
Proof. exact detection_always. Qed.
Print Assumptions C53_always.
Example C53_always_case : forall vx vy e, Forall available (pinned_discs vx vy e) /\
  Forall (fun b => tidy b /\ ContactSpec.in_range b /\ (gjk_rounds b <= 10)%nat) (pinned_discs vx vy e).
Proof. intros. split; [apply (sm_available _ _ _ _ (pinned_smooth vx vy e))|apply (sm_shapes _ _ _ _ (pinned_smooth vx vy e))]. Qed.
