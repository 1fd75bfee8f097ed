(** C81: bodies held together by FixedJoints *)
From Coq Require Import List Arith ZArith Bool Reals Lra Lia.
From Verif Require Import Num Tensor Utils Bodies Forces Constraints Contacts World Lapack LapackRef Pdipm Lcp Engines Spec GeoSpec JointSpec EngineSpec WellSpec ImpactSpec LapackSpec KktSpec PdipmSpec AssemblySpec
     RBase ResFacts LinAlg LuFacts HandlerFacts HistFacts EngineFacts EngineProps EngineMore AssemblyFacts AssemblyProps AssemblySpin FloatEx RealEx ContactEx RunTotal EngineEx DriftEx AssemblyEx AssemblySpinEx.
Import ListNotations.
Open Scope R_scope.

(** The velocities the engine returns move the bodies of an assembly like one rigid body, and this
    body obeys Newton's and Euler's laws with the total mass, the moment of inertia about the common
    centre (Steiner), all the forces on the bodies and the impulses of all contacts of the bodies. *)
Theorem C81_step :
  forall la mi bs js w G i b dt v c,
    engine_world la mi bs js w -> massive w -> assembly w G -> nth_error (w_bodies w) i = Some b -> G i = true ->
    lapack_ok la -> solve_dynamics la mi w dt = Ok (v, c) ->
    exists f imps u, world_apply_forces w (w_t w) = Ok f /\ length imps = length (w_contacts w) /\ moves_as_one w G u v /\
      newton_euler (total_mass w G) (total_inertia w G) (assembly_spin w G (w_v w), assembly_momentum w G (w_v w))
        (v3add (v3scale dt (assembly_torque w G f, assembly_force w G f)) (contact_shares w G (w_contacts w) imps)) u.
Proof. intros la mi bs js w G i b dt v c HW Hm HA Hb Hi HL. exact (assembly_step la mi bs js w G i b HW Hm HA Hb Hi dt v c HL). Qed.
Print Assumptions C81_step.
(** The same holds in every response that physics allows (see C64), with the impulses of the response. *)
Theorem C81_response :
  forall la mi bs js w G i b dt v imps,
    engine_world la mi bs js w -> massive w -> assembly w G -> nth_error (w_bodies w) i = Some b -> G i = true ->
    response w dt v imps ->
    exists f u, world_apply_forces w (w_t w) = Ok f /\ moves_as_one w G u v /\
      newton_euler (total_mass w G) (total_inertia w G) (assembly_spin w G (w_v w), assembly_momentum w G (w_v w))
        (v3add (v3scale dt (assembly_torque w G f, assembly_force w G f)) (contact_shares w G (w_contacts w) imps)) u.
Proof. intros la mi bs js w G i b dt v imps HW Hm HA Hb Hi. exact (assembly_response la mi bs js w G i b HW Hm HA Hb Hi dt v imps). Qed.
Print Assumptions C81_response.
(** While nothing touches it, the assembly responds to its forces like the single body [b1] with its
    mass and its moment of inertia would. *)
Theorem C81_single :
  forall la mi bs js w G i b dt v c f u b1,
    engine_world la mi bs js w -> massive w -> assembly w G -> nth_error (w_bodies w) i = Some b -> G i = true ->
    lapack_ok la -> solve_dynamics la mi w dt = Ok (v, c) -> world_apply_forces w (w_t w) = Ok f ->
    (forall c, In c (w_contacts w) -> G (c_i1 c) = false /\ G (c_i2 c) = false) -> moves_as_one w G u (w_v w) ->
    b_mass b1 = total_mass w G -> b_inertia b1 = total_inertia w G ->
    moves_as_one w G (v3add u (v3scale dt (acceleration b1 (assembly_torque w G f, assembly_force w G f)))) v.
Proof. intros la mi bs js w G i b dt v c f u b1 HW Hm HA Hb Hi. exact (assembly_single la mi bs js w G i b HW Hm HA Hb Hi dt v c f u b1). Qed.
Print Assumptions C81_single.
(** The weights of the bodies add up to the weight of the assembly and do not turn it. *)
Theorem C81_weight :
  forall la mi bs js w G i b g f,
    engine_world la mi bs js w -> massive w -> nth_error (w_bodies w) i = Some b -> G i = true ->
    world_apply_forces w (w_t w) = Ok f -> (forall k b, nth_error (w_bodies w) k = Some b -> G k = true -> v3_at f k = (0, (0, b_mass b * g))) ->
    assembly_force w G f = (0, total_mass w G * g) /\ assembly_torque w G f = 0.
Proof. intros la mi bs js w G i b g f HW Hm Hb Hi. exact (assembly_weight la mi bs js w G i b HW Hm Hb Hi g f). Qed.
Print Assumptions C81_weight.
(** The points where the bodies are touched move with the assembly, so contacts see one body. *)
Theorem C81_points :
  forall w G u v i b p,
    moves_as_one w G u v -> nth_error (w_bodies w) i = Some b -> G i = true ->
    point_velocity (v3_at v i) p = point_velocity u (v2add (arm w G b) p).
Proof. exact one_points. Qed.
Print Assumptions C81_points.
(** The totals of two bodies: the moment of inertia grows by m1 m2 / (m1 + m2) d^2. *)
Theorem C81_pair :
  forall w i k b1 b2,
    let G := fun m => Nat.eqb m i || Nat.eqb m k in
    nth_error (w_bodies w) i = Some b1 -> nth_error (w_bodies w) k = Some b2 -> i <> k -> 0 < b_mass b1 -> 0 < b_mass b2 ->
    let m1 := b_mass b1 in let m2 := b_mass b2 in let d := v2sub (b_pos b1) (b_pos b2) in
    total_mass w G = m1 + m2 /\ v2scale (m1 + m2) (centre w G) = v2add (v2scale m1 (b_pos b1)) (v2scale m2 (b_pos b2)) /\
    total_inertia w G = b_inertia b1 + b_inertia b2 + m1 * m2 / (m1 + m2) * component d d.
Proof. exact pair_totals. Qed.
Print Assumptions C81_pair.

(** Whole steps, post-stabilisation off: all bodies turn by the same angle th, the centre moves
    straight on, the assembly stays one, but its moment of inertia grows by th^2 times its spread: the
    bodies move along tangents (compare C61). *)
Theorem C81_turn :
  forall la mi o hd bs js w w' G i b fuel dt,
    lapack_ok la -> session la mi o hd bs js w -> massive w -> assembly w G -> nth_error (w_bodies w) i = Some b -> G i = true -> w_post_stab w = false ->
    step_dt fuel o hd (pdipm_engine la mi) w dt = Ok w' ->
    exists k u, let h := dt / 2 ^ k in
      w_t w' = w_t w + h /\ moves_as_one w G u (w_v w') /\ assembly w' G /\ massive w' /\
      (forall i b b', nth_error (w_bodies w) i = Some b -> nth_error (w_bodies w') i = Some b' -> G i = true -> b_rot b' = b_rot b + h * fst u) /\
      centre w' G = v2add (centre w G) (v2scale h (snd u)) /\ total_mass w' G = total_mass w G /\
      total_inertia w' G = total_inertia w G + (h * fst u) * (h * fst u) * spread w G /\
      assembly_momentum w' G (w_v w') = v2scale (total_mass w G) (snd u) /\ assembly_spin w' G (w_v w') = total_inertia w G * fst u.
Proof. exact assembly_turn. Qed.
Print Assumptions C81_turn.
(** So an assembly that nothing pushes or touches keeps the velocity of its centre from step to step,
    but not its angular velocity: what it keeps is the angular momentum, and it slows down. *)
Theorem C81_slows :
  forall la mi o hd bs js w w' G i b fuel dt fuel' dt' w'' f,
    lapack_ok la -> session la mi o hd bs js w -> massive w -> assembly w G -> nth_error (w_bodies w) i = Some b -> G i = true -> w_post_stab w = false ->
    step_dt fuel o hd (pdipm_engine la mi) w dt = Ok w' -> step_dt fuel' o hd (pdipm_engine la mi) w' dt' = Ok w'' ->
    world_apply_forces w' (w_t w') = Ok f -> (forall i, G i = true -> v3_at f i = (0, (0, 0))) -> (forall c, In c (w_contacts w') -> G (c_i1 c) = false /\ G (c_i2 c) = false) ->
    exists u u', moves_as_one w G u (w_v w') /\ moves_as_one w' G u' (w_v w'') /\ snd u' = snd u /\ total_inertia w' G * fst u' = total_inertia w G * fst u /\
      total_inertia w' G = total_inertia w G + ((w_t w' - w_t w) * fst u) * ((w_t w' - w_t w) * fst u) * spread w G.
Proof. intros la mi o hd bs js w w' G i b fuel dt fuel' dt' w'' f HL HW Hm HA Hb Hi HP Hs. exact (assembly_slows la mi o hd bs js w w' G i b fuel dt HL HW Hm HA Hb Hi HP Hs fuel' dt' w'' f). Qed.
Print Assumptions C81_slows.
Theorem C81_slower :
  forall la mi o hd bs js w w' G i b fuel dt fuel' dt' w'' f,
    lapack_ok la -> session la mi o hd bs js w -> massive w -> assembly w G -> nth_error (w_bodies w) i = Some b -> G i = true -> w_post_stab w = false ->
    step_dt fuel o hd (pdipm_engine la mi) w dt = Ok w' -> step_dt fuel' o hd (pdipm_engine la mi) w' dt' = Ok w'' ->
    world_apply_forces w' (w_t w') = Ok f -> (forall i, G i = true -> v3_at f i = (0, (0, 0))) -> (forall c, In c (w_contacts w') -> G (c_i1 c) = false /\ G (c_i2 c) = false) ->
    exists u u', moves_as_one w G u (w_v w') /\ moves_as_one w' G u' (w_v w'') /\ snd u' = snd u /\ Rabs (fst u') <= Rabs (fst u) /\
      (w_t w' <> w_t w -> fst u <> 0 -> 0 < spread w G -> Rabs (fst u') < Rabs (fst u)).
Proof. intros la mi o hd bs js w w' G i b fuel dt fuel' dt' w'' f HL HW Hm HA Hb Hi HP Hs. exact (assembly_slower la mi o hd bs js w w' G i b fuel dt HL HW Hm HA Hb Hi HP Hs fuel' dt' w'' f). Qed.
Print Assumptions C81_slower.
(** Finding: two discs fixed to each other that turn about each other, with no force and no contact, do
    not keep their angular velocity: it is 1 rad/s after the first step and less after the second. *)
Theorem C81_refuted : exists la mi o hd bs js w fuel dt w' w'' f,
  lapack_ok la /\ session la mi o hd bs js w /\ massive w /\ assembly w pair /\ length (w_bodies w) = 2%nat /\ w_post_stab w = false /\ 
  step_dt fuel o hd (pdipm_engine la mi) w dt = Ok w' /\ step_dt fuel o hd (pdipm_engine la mi) w' dt = Ok w'' /\
  w_contacts w' = [] /\ world_apply_forces w' (w_t w') = Ok f /\ (forall i, v3_at f i = (0, (0, 0))) /\
  fst (v3_at (w_v w') 0) = 1 /\ fst (v3_at (w_v w') 1) = 1 /\ 0 < fst (v3_at (w_v w'') 0) < 1 /\ fst (v3_at (w_v w'') 1) = fst (v3_at (w_v w'') 0).
Proof. exact spin_slows. Qed.
Print Assumptions C81_refuted.

(** Hypotheses met: a disc runs into one of two discs that are fixed to each other and pushed sideways;
    the engine returns, and there is a response. *)
Example C81_case : forall f vx e mi, (0 < mi)%nat ->
  let w := dumb_world f vx e in
  lapack_ok ref_lapack /\ session ref_lapack mi pair_oracle disc_hd (dumb_discs vx e) (dumb_joints e) w /\ massive w /\ assembly w bells /\
  nth_error (w_bodies w) 1 = Some (bell0 e) /\ bells 1 = true /\ length (w_contacts w) = 1%nat /\ w_post_stab w = false /\
  (exists v c, solve_dynamics ref_lapack mi w (1/2) = Ok (v, c)) /\ (exists v imps, response w (1/2) v imps).
Proof.
  intros f vx e mi H w. split; [exact ref_lapack_ok|]. split; [apply dumb_session|]. split; [apply dumb_massive|]. split; [apply dumb_assembly|]. split; [reflexivity|]. split; [reflexivity|]. split; [reflexivity|]. split; [reflexivity|].
  split; [now apply dumb_solve|apply dumb_response].
Qed.
Example C81_pair_case : 0 < spread spin_world pair /\ moves_as_one spin_world pair (1, (0, 5/2)) (w_v spin_world) /\ ~ moves_as_one spin_world pair (1, (0, 0)) (w_v spin_world).
Proof. exact spin_moves. Qed.
