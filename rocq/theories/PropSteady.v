(** C72: nearby velocities *)
From Coq Require Import List Arith ZArith Lia Bool Reals Lra.
From Verif Require Import Num Tensor Utils Bodies Forces Constraints Contacts World Lapack LapackRef Pdipm Lcp Engines
     Spec GeoSpec BodySpec JointSpec FreshSpec EngineSpec WellSpec ContactSpec LapackSpec KktSpec PdipmSpec
     RBase ResFacts LinAlg LuFacts LayoutFacts MomentumFacts EngineFacts EngineProps RunTotal FloatEx RealEx ContactEx EngineEx WellProps WellEx SteadyFacts SteadyEx.
Import ListNotations.
Open Scope R_scope.

(** C72.  Relied on: the state after a step depends continuously on the initial velocities.  Finding: it
    does not.  A disc moving with velocity 4 towards a disc at rest is at x = 2 after step(), at time 1/2;
    with velocity 4 + d, however small d > 0 is, it is at x = 1 + d/4, at time 1/4. *)
Theorem C72_refuted :
  forall mi fuel, (0 < mi)%nat ->
  exists bs w, session ref_lapack mi pair_oracle disc_hd bs [] w /\
    (exists u b1 b2, exec (S (S fuel)) pair_oracle disc_hd (pdipm_engine ref_lapack mi) [OSetV [0; 4; 0; 0; 0; 0]; OStep false] w = Ok u /\
       w_t u = 1/2 /\ w_bodies u = [b1; b2] /\ b_pos b1 = (2, 0) /\ b_pos b2 = (4, 0)) /\
    forall d, 0 < d <= 1 ->
      exists u b1 b2, exec (S (S fuel)) pair_oracle disc_hd (pdipm_engine ref_lapack mi) [OSetV [0; 4 + d; 0; 0; 0; 0]; OStep false] w = Ok u /\
        w_t u = 1/4 /\ w_bodies u = [b1; b2] /\ b_pos b1 = (1 + d / 4, 0) /\ b_pos b2 = (4, 0).
Proof.
  intros mi fuel Hmi. exists (gap_discs 0), (gap_world 0). split; [apply gap_session|]. split.
  - destruct (gap_accepted 4 mi (S fuel) Hmi) as (u & E & Et & b1 & b2 & Eb & P1 & P2); [lra|]. exists u, b1, b2.
    cbn [exec]. rewrite gap_set. cbn [bind]. unfold step. change (w_dt (gap_world 4)) with (1/2). rewrite E. cbn [bind]. rewrite P1. replace (4 / 2) with 2 by field. auto.
  - intros d Hd. destruct (gap_halved (4 + d) mi fuel Hmi) as (u & E & Et & b1 & b2 & Eb & P1 & P2); [lra|]. exists u, b1, b2.
    cbn [exec]. rewrite gap_set. cbn [bind]. unfold step. change (w_dt (gap_world (4 + d))) with (1/2). rewrite E. cbn [bind]. rewrite P1. replace ((4 + d) / 4) with (1 + d / 4) by field. auto.
Qed.
Print Assumptions C72_refuted.

(** What holds for the velocities: in the same positions, without friction and with one restitution in
    [0, 1] at all contacts, the responses to two velocities are at most as far apart as the velocities
    were, in kinetic energy.  (With e > 0 both velocities violate the constraints equally, for example
    not at all.) *)
Theorem C72_steady :
  forall la mi bs js w v' w' e dt x imps x' imps',
    engine_world la mi bs js w -> set_v w v' = Ok w' ->
    Forall (fun b => 0 <= b_mass b /\ 0 <= b_inertia b) (w_bodies w) -> frictionless w ->
    (forall c, In c (w_contacts w) -> mixed w b_rest c = e) -> 0 <= e <= 1 ->
    e = 0 \/ constraint_velocity w (w_v w) = constraint_velocity w v' ->
    response w dt x imps -> response w' dt x' imps' ->
    kinetic_energy w (vsub x x') <= kinetic_energy w (vsub (w_v w) v').
Proof.
  intros la mi bs js w v' w' e dt x imps x' imps' HW Hs Hm Hf He He1 Hc H H'. pose proof (steady la mi bs js w v' w' e dt x imps x' imps' HW Hs Hm Hf He He1 Hc H H') as Q. unfold kinetic_energy. lra.
Qed.
Print Assumptions C72_steady.
(** The velocities the engine returns obey this up to the residuals [r] and [r'] of its solver times the
    impulses and speeds involved. *)
Theorem C72_returned :
  forall la mi bs js w v' w' e dt it r it' r',
    lapack_ok la -> engine_world la mi bs js w -> set_v w v' = Ok w' ->
    Forall (fun b => 0 <= b_mass b /\ 0 <= b_inertia b) (w_bodies w) -> frictionless w ->
    (forall c, In c (w_contacts w) -> mixed w b_rest c = e) -> 0 <= e <= 1 ->
    e = 0 \/ constraint_velocity w (w_v w) = constraint_velocity w v' -> w_contacts w <> [] ->
    engine_point la mi w dt it r -> engine_point la mi w' dt it' r' ->
    let x := vopp (i_x it) in let x' := vopp (i_x it') in let d := vsub (w_v w) v' in let q := vadd (vsub x x') (vscale e d) in
    let nc := length (w_contacts w) in
    (1 + e) * kinetic w (vsub x x') (vsub x x') <=
    (1 + e) * kinetic w d d + 2 * (r + r') * (slack nc (i_z it) + slack nc (i_z it') + slip_total w q + norm2 q).
Proof. exact steady_returned. Qed.
Print Assumptions C72_returned.
(** With different restitutions responses can move apart: three discs in a row in contact, the pairs with
    restitution 1 and 1/2, once moving and once at rest. *)
Theorem C72_restitution_refuted :
  exists la mi bs js w v' w' dt x imps x' imps',
    engine_world la mi bs js w /\ set_v w v' = Ok w' /\ Forall (fun b => 0 < b_mass b /\ 0 < b_inertia b) (w_bodies w) /\ frictionless w /\
    (forall c, In c (w_contacts w) -> 0 <= mixed w b_rest c <= 1) /\ w_num_constraints w = 0%nat /\
    response w dt x imps /\ response w' dt x' imps' /\
    kinetic_energy w (vsub (w_v w) v') < kinetic_energy w (vsub x x').
Proof.
  exists ref_lapack, 10%nat, (three_discs 3 1 0 1 1 0), [], gain_world, (vzeros 9), rest_world, (1/2). do 4 eexists. split; [apply three_engine_world|]. split; [exact gain_rest|].
  split; [repeat (apply Forall_cons; [cbn; rnum; lra|]); apply Forall_nil|]. split; [intros c [<-|[<-|[]]]; unfold mixed; cbn; lra|]. split; [intros c [<-|[<-|[]]]; unfold mixed; cbn; lra|]. split; [reflexivity|].
  split; [exact gain_response|]. split; [exact rest_response|]. unfold kinetic_energy, kinetic, component, v3_at, vget. cbn. rnum. lra.
Qed.
Print Assumptions C72_restitution_refuted.
(** With friction even equal velocities can have different responses, with restitution 0. *)
Theorem C72_friction_refuted :
  exists la mi bs js w v' w' dt x imps x' imps',
    engine_world la mi bs js w /\ set_v w v' = Ok w' /\ Forall (fun b => 0 < b_mass b /\ 0 < b_inertia b) (w_bodies w) /\
    (forall c, In c (w_contacts w) -> mixed w b_rest c = 0) /\ v' = w_v w /\
    constraint_velocity w (w_v w) = vzeros (w_num_constraints w) /\
    response w dt x imps /\ response w' dt x' imps' /\
    kinetic_energy w (vsub (w_v w) v') < kinetic_energy w (vsub x x').
Proof.
  exists ref_lapack, 10%nat, (slot_discs 0 1 0 0 0 (1/2)), (slot_joints 0 0 (1/2)), sliding, (w_v sliding), sliding, (1/2). do 4 eexists. split; [eapply session_world; apply slot_session|]. split; [reflexivity|].
  split; [apply slot_massive|]. split; [intros c [<-|[<-|[]]]; unfold mixed; cbn; lra|]. split; [reflexivity|]. split; [unfold constraint_velocity; cbn; rnum; reflexivity|].
  split; [exact sliding_on|]. split; [exact sliding_stops|]. unfold kinetic_energy, kinetic, component, v3_at, vget. cbn. rnum. lra.
Qed.
Print Assumptions C72_friction_refuted.

(** two discs that touch, with restitution 1/2 and any two velocities along their axis *)
Example C72_case : forall a b a' b' mi, exists w v' w' x imps x' imps',
  engine_world ref_lapack mi (two_discs a 0 (1/2) 0 b 0 (1/2) 0) [] w /\ set_v w v' = Ok w' /\ w_v w = [0; a; 0; 0; b; 0] /\ v' = [0; a'; 0; 0; b'; 0] /\
  Forall (fun b => 0 <= b_mass b /\ 0 <= b_inertia b) (w_bodies w) /\ frictionless w /\ w_contacts w <> [] /\
  (forall c, In c (w_contacts w) -> mixed w b_rest c = 1/2) /\ constraint_velocity w (w_v w) = constraint_velocity w v' /\
  response w (1/2) x imps /\ response w' (1/2) x' imps'.
Proof.
  intros a b a' b' mi.
  assert (G : forall p q, exists x imps, response (two_disc_world p 0 (1/2) 0 q 0 (1/2) 0) (1/2) x imps).
  { intros p q. destruct (uniform ref_lapack mi _ [] _ (1/2) (vzeros 6) (1/2) (two_engine_world p 0 (1/2) 0 q 0 (1/2) 0 mi)) as (x & imps & H & _).
    - repeat (apply Forall_cons; [cbn; rnum; lra|]). apply Forall_nil.
    - intros c [<-|[]]. unfold mixed. cbn. lra.
    - apply two_forces.
    - intros c [<-|[]]. unfold mixed. cbn. lra.
    - reflexivity.
    - eauto. }
  destruct (G a b) as (x & imps & H). destruct (G a' b') as (x' & imps' & H').
  exists (two_disc_world a 0 (1/2) 0 b 0 (1/2) 0), [0; a'; 0; 0; b'; 0], (two_disc_world a' 0 (1/2) 0 b' 0 (1/2) 0), x, imps, x', imps'.
  split; [apply two_engine_world|]. split; [reflexivity|]. split; [reflexivity|]. split; [reflexivity|]. split; [repeat (apply Forall_cons; [cbn; rnum; lra|]); apply Forall_nil|].
  split; [intros c [<-|[]]; unfold mixed; cbn; lra|]. split; [discriminate|]. split; [intros c [<-|[]]; unfold mixed; cbn; lra|]. split; [reflexivity|]. auto.
Qed.
Example C72_returned_case : forall a b, exists it r, engine_point ref_lapack 10 (two_disc_world a 0 (1/2) 0 b 0 (1/2) 0) (1/2) it r.
Proof.
  intros a b. destruct (smooth_steps ref_lapack 10 10 pair_oracle _ _ _ ref_lapack_ok ltac:(lia) pair_sane (two_smooth a 0 (1/2) b 0 (1/2)) [] (1/2) (1/10) 0 2 false false (two_init a 0 (1/2) 0 b 0 (1/2) 0) 9 [] (two_disc_world a 0 (1/2) 0 b 0 (1/2) 0) [false]) as [w H]; [lia|reflexivity|].
  cbn [map exec] in H. unfold step in H. bind_inv H as w1 E. clear H. destruct (step_dt_v _ _ _ _ _ _ _ E) as (v & c & Es & _).
  destruct (solved_point ref_lapack 10 _ _ _ (1/2) ref_lapack_ok (two_engine_world a 0 (1/2) 0 b 0 (1/2) 0 10) ltac:(discriminate) v c Es) as (it & r & Hp & _). eauto.
Qed.
