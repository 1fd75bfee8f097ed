(** How far joints drift *)
From Coq Require Import List Arith ZArith Bool Reals Lra Lia.
From Verif Require Import Num Tensor Utils Bodies Forces Constraints Contacts World Lapack LapackRef Pdipm Lcp Engines
     Spec GeoSpec JointSpec EngineSpec DriftSpec ResFacts RBase LapackSpec LuFacts FloatEx RealEx EngineEx DriftProps DriftEx.
Import ListNotations.
Open Scope R_scope.

(** C61.  Relied on: bodies joined by a FixedJoint keep their distance.  Finding: they do not.  Two
    discs 5 apart that turn about each other, with no force and no contact, are further apart after
    one step. *)
Theorem C61_refuted : exists la mi o hd bs js w fuel dt w' c1 c2 b1 b2,
  lapack_ok la /\ session la mi o hd bs js w /\ w_post_stab w = false /\ In (fixed_init c1 c2) js /\
  nth_error bs 0 = Some c1 /\ nth_error bs 1 = Some c2 /\ w_bodies w = bs /\
  step_dt fuel o hd (pdipm_engine la mi) w dt = Ok w' /\
  nth_error (w_bodies w') 0 = Some b1 /\ nth_error (w_bodies w') 1 = Some b2 /\
  dist (b_pos c1) (b_pos c2) = 5 /\ 5 < dist (b_pos b1) (b_pos b2).
Proof.
  destruct (spin_step 10) as (w' & b0 & b1 & H1 & H2 & H3 & H4 & H5); [lia|].
  exists ref_lapack, 10%nat, pair_oracle, disc_hd, spin_bodies, [fixed_init spin0 spin1], spin_world, 9%nat, (1/2), w', spin0, spin1, b0, b1.
  split; [exact ref_lapack_ok|]. split; [apply spin_session|]. split; [reflexivity|]. split; [now left|]. split; [reflexivity|]. split; [reflexivity|]. split; [reflexivity|]. auto.
Qed.
Print Assumptions C61_refuted.

(** What holds.  Without post-stabilisation each step moves body 1 of a FixedJoint along the tangent of
    the circle about body 2 instead of along the circle: both bodies turn by the same angle th, and the
    distance grows by the factor sqrt (1 + th^2). *)
Theorem C61_fixed :
  forall la mi o hd bs js fuel w dt w' c1 c2 i1 i2 b1 b2 b1' b2',
    lapack_ok la -> session la mi o hd bs js w -> w_post_stab w = false ->
    In (fixed_init c1 c2) js -> nth_error bs i1 = Some c1 -> nth_error bs i2 = Some c2 ->
    step_dt fuel o hd (pdipm_engine la mi) w dt = Ok w' ->
    nth_error (w_bodies w) i1 = Some b1 -> nth_error (w_bodies w') i1 = Some b1' ->
    nth_error (w_bodies w) i2 = Some b2 -> nth_error (w_bodies w') i2 = Some b2' ->
    turn b1 b1' = turn b2 b2' /\
    v2sub (b_pos b1') (b_pos b2') = along_tangent (turn b2 b2') (v2sub (b_pos b1) (b_pos b2)) /\
    dist (b_pos b1') (b_pos b2') = sqrt (1 + turn b2 b2' * turn b2 b2') * dist (b_pos b1) (b_pos b2).
Proof. intros la mi o hd bs js fuel w dt w' c1 c2 i1 i2 b1 b2 b1' b2' HL. exact (session_fixed la mi o hd bs js HL fuel w dt w' c1 c2 i1 i2 b1 b2 b1' b2'). Qed.
Print Assumptions C61_fixed.
(** So over every history the distance never shrinks ... *)
Theorem C61_fixed_distance :
  forall la mi o hd bs js fuel ops w w' c1 c2 i1 i2 b1 b2 b1' b2',
    lapack_ok la -> session la mi o hd bs js w -> w_post_stab w = false ->
    In (fixed_init c1 c2) js -> nth_error bs i1 = Some c1 -> nth_error bs i2 = Some c2 ->
    exec fuel o hd (pdipm_engine la mi) ops w = Ok w' ->
    nth_error (w_bodies w) i1 = Some b1 -> nth_error (w_bodies w') i1 = Some b1' ->
    nth_error (w_bodies w) i2 = Some b2 -> nth_error (w_bodies w') i2 = Some b2' ->
    dist (b_pos b1) (b_pos b2) <= dist (b_pos b1') (b_pos b2').
Proof. intros la mi o hd bs js fuel ops w w' c1 c2 i1 i2 b1 b2 b1' b2' HL. exact (session_fixed_distance la mi o hd bs js HL fuel ops w w' c1 c2 i1 i2 b1 b2 b1' b2'). Qed.
Print Assumptions C61_fixed_distance.
(** ... and the angle between the two bodies is kept exactly, with and without post-stabilisation. *)
Theorem C61_fixed_angle :
  forall la mi o hd bs js fuel ops w w' c1 c2 i1 i2 b1 b2 b1' b2',
    lapack_ok la -> session la mi o hd bs js w ->
    In (fixed_init c1 c2) js -> nth_error bs i1 = Some c1 -> nth_error bs i2 = Some c2 ->
    exec fuel o hd (pdipm_engine la mi) ops w = Ok w' ->
    nth_error (w_bodies w) i1 = Some b1 -> nth_error (w_bodies w') i1 = Some b1' ->
    nth_error (w_bodies w) i2 = Some b2 -> nth_error (w_bodies w') i2 = Some b2' ->
    b_rot b1' - b_rot b2' = b_rot b1 - b_rot b2.
Proof. intros la mi o hd bs js fuel ops w w' c1 c2 i1 i2 b1 b2 b1' b2' HL. exact (session_fixed_angle la mi o hd bs js HL fuel ops w w' c1 c2 i1 i2 b1 b2 b1' b2'). Qed.
Print Assumptions C61_fixed_angle.
(** A body pinned to the world (Joint with one body): the pinned point moves in a step by the difference
    of arc and tangent, at most r th^2 / 2 if the pin is r from the centre and the body turns by th ... *)
Theorem C61_pin :
  forall la mi o hd bs js fuel w dt w' c1 pos i b b',
    lapack_ok la -> session la mi o hd bs js w -> w_post_stab w = false ->
    In (joint_init c1 None pos) js -> nth_error bs i = Some c1 ->
    step_dt fuel o hd (pdipm_engine la mi) w dt = Ok w' ->
    nth_error (w_bodies w) i = Some b -> nth_error (w_bodies w') i = Some b' ->
    material c1 b' pos = v2add (material c1 b pos) (arc_error (turn b b') (v2sub (material c1 b pos) (b_pos b))) /\
    dist (material c1 b' pos) (material c1 b pos) <= dist pos (b_pos c1) * (turn b b' * turn b b' / 2).
Proof. intros la mi o hd bs js fuel w dt w' c1 pos i b b' HL. exact (session_pin la mi o hd bs js HL fuel w dt w' c1 pos i b b'). Qed.
Print Assumptions C61_pin.
(** ... and over a run of steps by at most the sum of these. *)
Theorem C61_pin_history :
  forall la mi o hd bs js fuel c1 pos i w ths w' b b',
    lapack_ok la -> session la mi o hd bs js w -> w_post_stab w = false ->
    In (joint_init c1 None pos) js -> nth_error bs i = Some c1 ->
    swings fuel o hd (pdipm_engine la mi) i w ths w' ->
    nth_error (w_bodies w) i = Some b -> nth_error (w_bodies w') i = Some b' ->
    dist (material c1 b' pos) (material c1 b pos) <= dist pos (b_pos c1) * (Rsum (map (fun th => th * th) ths) / 2).
Proof. intros la mi o hd bs js fuel c1 pos i w ths w' b b' HL. exact (session_pin_history la mi o hd bs js HL fuel c1 pos i w ths w' b b'). Qed.
Print Assumptions C61_pin_history.
(** Two bodies joined by a Joint: the points of the two bodies that are both at the anchor [a] before a
    step are at most r1 th1^2 / 2 + r2 th2^2 / 2 apart after it. *)
Theorem C61_hinge :
  forall la mi o hd bs js fuel w dt w' c1 c2 pos i1 i2 b1 b2 b1' b2',
    lapack_ok la -> session la mi o hd bs js w -> w_post_stab w = false ->
    In (joint_init c1 (Some c2) pos) js -> nth_error bs i1 = Some c1 -> nth_error bs i2 = Some c2 ->
    step_dt fuel o hd (pdipm_engine la mi) w dt = Ok w' ->
    nth_error (w_bodies w) i1 = Some b1 -> nth_error (w_bodies w') i1 = Some b1' ->
    nth_error (w_bodies w) i2 = Some b2 -> nth_error (w_bodies w') i2 = Some b2' ->
    let a := material c1 b1 pos in
    material b1 b1' a = v2add (material b2 b2' a)
      (v2sub (arc_error (turn b1 b1') (v2sub a (b_pos b1))) (arc_error (turn b2 b2') (v2sub a (b_pos b2)))) /\
    dist (material b1 b1' a) (material b2 b2' a) <=
      dist a (b_pos b1) * (turn b1 b1' * turn b1 b1' / 2) + dist a (b_pos b2) * (turn b2 b2' * turn b2 b2' / 2).
Proof. intros la mi o hd bs js fuel w dt w' c1 c2 pos i1 i2 b1 b2 b1' b2' HL. exact (session_hinge la mi o hd bs js HL fuel w dt w' c1 c2 pos i1 i2 b1 b2 b1' b2'). Qed.
Print Assumptions C61_hinge.
(** a chain of three discs under gravity with any velocities: pinned to the world, a hinge, and a fixed
    joint *)
Example C61_case : forall om0 om1 om2 vy0 vy1 vy2, let bs := chain_bodies om0 om1 om2 vy0 vy1 vy2 in
  let w := chain_world om0 om1 om2 vy0 vy1 vy2 in
  exists w' c1 c2 c3, session ref_lapack 10 pair_oracle disc_hd bs [joint_init c1 None (-2, 0); joint_init c1 (Some c2) (5/2, 0); fixed_init c2 c3] w /\
    w_post_stab w = false /\ bs = [c1; c2; c3] /\ w_bodies w = bs /\
    step_dt 9 pair_oracle disc_hd (pdipm_engine ref_lapack 10) w (1/2) = Ok w'.
Proof.
  intros. destruct (chain_step om0 om1 om2 vy0 vy1 vy2 10) as [w' H]; [lia|]. exists w', (link0 om0 vy0), (link1 om1 vy1), (link2 om2 vy2).
  split; [apply chain_session|]. split; [reflexivity|]. split; [reflexivity|]. split; [reflexivity|exact H].
Qed.
