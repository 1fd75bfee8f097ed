(** C83: the contact callback that asks ODE, compared with the default one *)
From Coq Require Import List Arith ZArith Bool Reals.
From Verif Require Import Num Tensor Bodies Forces Constraints Contacts World Lapack Pdipm Engines Spec GeoSpec BodySpec ContactSpec OdeSpec OdeFacts OdeProps OdeEx.
Import ListNotations.
Open Scope R_scope.

(** C83.  Strict worlds of Circles: whatever the forces, constraints, velocities and calls, a run with the ODE callback is the
    run with the default callback in a world whose eps is twice as large: same bodies, contacts, velocities and
    clock after every history, or the same exception. *)
Theorem C83_same_run :
  forall gf o la mi heap bs js dt e tol fric_dirs fuel ops,
    ode_spheres o -> memoryless o -> Forall (disc_with e tol) bs ->
    agree same_but_eps
      (do w <- world_init o (ode_handler o) heap bs js dt e tol fric_dirs false true;
       exec fuel o (ode_handler o) (pdipm_engine la mi) ops w)
      (do w <- world_init o (diff_handler gf o) heap bs js dt (2 * e) tol fric_dirs false true;
       exec fuel o (diff_handler gf o) (pdipm_engine la mi) ops w).
Proof. exact runs. Qed.
Print Assumptions C83_same_run.
(** So, with the ODE callback, two Circles are in contact exactly if the gap between them is at most 2 eps, and the contact
    has the unit normal, the overlap and the point midway between the surfaces (see C25). *)
Theorem C83_contacts :
  forall o la mi heap bs js dt e tol fric_dirs fuel ops w i j b1 b2,
    ode_spheres o -> memoryless o -> broadphase_complete o -> 0 <= e -> Forall (disc_with e tol) bs ->
    (do w <- world_init o (ode_handler o) heap bs js dt e tol fric_dirs false true;
     exec fuel o (ode_handler o) (pdipm_engine la mi) ops w) = Ok w ->
    i <> j -> nth_error (w_bodies w) i = Some b1 -> nth_error (w_bodies w) j = Some b2 ->
    b_pos b1 <> b_pos b2 -> ~ excluded b1 b2 -> ~ excluded b2 b1 ->
    ((exists c, In c (w_contacts w) /\ joins c i j) <-> gap b1 b2 <= 2 * e) /\
    (forall c, In c (w_contacts w) -> c_i1 c = i -> c_i2 c = j -> circle_contact b1 b2 c).
Proof. exact disc_contacts. Qed.
Print Assumptions C83_contacts.
(** A call of the ODE callback treats every Hull as the disc around its position through its farthest vertex. *)
Theorem C83_outline :
  forall o e clk bs i1 i2 b1 b2 m1 m2,
    ode_spheres o -> 0 <= e ->
    nth_error bs i1 = Some b1 -> nth_error bs i2 = Some b2 -> reachable_body b1 -> reachable_body b2 ->
    extent b1 m1 -> extent b2 m2 -> b_eps b1 = e -> b_eps b2 = e -> ~ excluded b1 b2 ->
    let d := dist (b_pos b1) (b_pos b2) in
    (m1 + m2 + 2 * e < d -> ode_handler o e clk bs i1 i2 = Ok ([], bs, S clk)) /\
    (0 < d <= m1 + m2 + 2 * e ->
       exists c, ode_handler o e clk bs i1 i2 = Ok ([c], bs, S clk) /\ c_i1 c = i1 /\ c_i2 c = i2 /\ c_pen c = m1 + m2 - d /\
                 c_normal c = ((fst (b_pos b1) - fst (b_pos b2)) / d, (snd (b_pos b1) - snd (b_pos b2)) / d) /\
                 at_body b1 (c_p1 c) = at_body b2 (c_p2 c)).
Proof. exact sphere_call. Qed.
Print Assumptions C83_outline.
(** Hence two Hulls that are 0.5 apart make a strict world raise "Interpenetration at start", ... *)
Theorem C83_hull_refuted :
  exists b1 b2,
    constructed b1 /\ constructed b2 /\ (forall q1 q2, body_points b1 q1 -> body_points b2 q2 -> 1/2 <= dist q1 q2) /\
    forall o heap dt fric_dirs,
      ode_spheres o -> (forall k g1 g2, o_collide o k [g1; g2] = [(0, 1)]%nat) ->
      world_init o (ode_handler o) heap [b1; b2] [] dt (1/10) (1/1000000) fric_dirs false true = Err EAssert.
Proof. exact squares_rejected. Qed.
Print Assumptions C83_hull_refuted.
(** ... and with the same eps the two callbacks disagree about two Circles. *)
Theorem C83_eps_refuted :
  exists o bs w w',
    ode_spheres o /\ memoryless o /\ Forall (disc_with (1/10) (1/1000000)) bs /\
    world_init o (ode_handler o) [] bs [] 1 (1/10) (1/1000000) 2 false true = Ok w /\
    world_init o (diff_handler 10 o) [] bs [] 1 (1/10) (1/1000000) 2 false true = Ok w' /\
    length (w_contacts w) = 1%nat /\ w_contacts w' = [].
Proof.
  destruct far_world as (w & w' & H). destruct sphere_oracle_ok as (Ho & Hm & _).
  exists sphere_oracle, [discA; discB], w, w'. split; [exact Ho|]. split; [exact Hm|]. split; [exact discs_with|exact H].
Qed.
Print Assumptions C83_eps_refuted.
(** an ODE that answers as specified, Circles, and a Hull *)
Example C83_case :
  ode_spheres sphere_oracle /\ memoryless sphere_oracle /\ Forall (disc_with (1/10) (1/1000000)) [discA; discB] /\
  exists b, constructed b /\ extent b (sqrt 2) /\ b_eps b = 1/10.
Proof.
  destruct sphere_oracle_ok as (Ho & Hm & _). split; [exact Ho|]. split; [exact Hm|]. split; [exact discs_with|].
  destruct (square_hull 0 0) as (b & Hb & K & _ & E & _). exists b. split; [right; left; do 8 eexists; exact Hb|]. split; [now apply square_extent|exact E].
Qed.
