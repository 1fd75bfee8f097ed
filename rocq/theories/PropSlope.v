(** C91: a body that stands on fixed bodies, and Coulomb's law of sliding *)
From Coq Require Import List Arith ZArith Lia Bool Reals Lra.
From Verif Require Import Num Tensor Utils Bodies Forces Constraints Contacts World Lapack LapackRef Pdipm Lcp Engines
     Spec GeoSpec BodySpec JointSpec FreshSpec EngineSpec WellSpec ContactSpec ImpactSpec SlopeSpec LapackSpec KktSpec PdipmSpec
     RBase ResFacts LinAlg LuFacts LayoutFacts EngineFacts EngineProps FloatEx RealEx ContactEx EngineEx SlopeFacts SlopeProps SlopeEx.
Import ListNotations.
Open Scope R_scope.

(** C91.  A body that stands on fixed bodies, sliding along the surface at the speed [s] without spin and
    pressed by the force [F] on its centre: after the step it still slides along the surface, without spin
    and without lifting, at the speed that friction leaves: its speed without friction, brought towards 0
    by at most mu times the pressing impulse over the mass.  Any number of feet, whatever the other bodies do. *)
Theorem C91_slides :
  forall la mi bs js w dt f v imps i b n h mu s F,
    engine_world la mi bs js w -> world_apply_forces w (w_t w) = Ok f -> response w dt v imps ->
    nth_error (w_bodies w) i = Some b -> 0 < b_mass b -> 0 < b_inertia b ->
    stands w i n h mu -> 0 <= mu ->
    v3_at f i = (0, F) -> dt * component n F <= 0 -> b_v b = (0, v2scale s (tangent n)) ->
    v3_at v i = (0, v2scale (rubbed (mu * - (dt * component n F) / b_mass b) (s + dt * component (tangent n) F / b_mass b)) (tangent n)).
Proof. intros la mi bs js w dt f v imps i b n h mu s F HW. exact (slides la mi bs js w HW dt f v imps i b n h mu s F). Qed.
Print Assumptions C91_slides.
(** A body at rest stays at rest exactly if the force along the surface is at most mu times the pressing one. *)
Theorem C91_rest_iff :
  forall la mi bs js w dt f v imps i b n h mu F,
    engine_world la mi bs js w -> world_apply_forces w (w_t w) = Ok f -> response w dt v imps ->
    nth_error (w_bodies w) i = Some b -> 0 < b_mass b -> 0 < b_inertia b ->
    stands w i n h mu -> 0 <= mu -> 0 < dt ->
    v3_at f i = (0, F) -> component n F <= 0 -> b_v b = (0, (0, 0)) ->
    (v3_at v i = (0, (0, 0)) <-> Rabs (component (tangent n) F) <= mu * - component n F).
Proof. intros la mi bs js w dt f v imps i b n h mu F HW Hf Hv Hb Hm HI HT Hmu Hdt. exact (rest_iff la mi bs js w HW dt f v imps i b n h mu Hf Hv Hb Hm HI HT Hmu Hdt F). Qed.
Print Assumptions C91_rest_iff.
(** The inclined plane: under gravity alone mass and shape do not matter; with [n] = (sin a, - cos a) the
    speed changes by dt g sin a less the friction dt g mu cos a, and rest is kept exactly if tan a <= mu,
    for every [g]. *)
Theorem C91_incline :
  forall la mi bs js w dt f v imps i b n h mu g s,
    engine_world la mi bs js w -> world_apply_forces w (w_t w) = Ok f -> response w dt v imps ->
    nth_error (w_bodies w) i = Some b -> 0 < b_mass b -> 0 < b_inertia b ->
    stands w i n h mu -> 0 <= mu -> 0 < dt ->
    v3_at f i = (0, (0, b_mass b * g)) -> 0 <= g -> snd n <= 0 -> b_v b = (0, v2scale s (tangent n)) ->
    v3_at v i = (0, v2scale (rubbed (dt * g * (mu * Rabs (snd n))) (s - dt * g * fst n)) (tangent n)).
Proof. intros la mi bs js w dt f v imps i b n h mu g s HW Hf Hv Hb Hm HI HT Hmu Hdt. exact (incline la mi bs js w HW dt f v imps i b n h mu Hf Hv Hb Hm HI HT Hmu Hdt g s). Qed.
Print Assumptions C91_incline.
Theorem C91_repose :
  forall la mi bs js w dt f v imps i b n h mu g,
    engine_world la mi bs js w -> world_apply_forces w (w_t w) = Ok f -> response w dt v imps ->
    nth_error (w_bodies w) i = Some b -> 0 < b_mass b -> 0 < b_inertia b ->
    stands w i n h mu -> 0 <= mu -> 0 < dt ->
    v3_at f i = (0, (0, b_mass b * g)) -> 0 < g -> snd n <= 0 -> b_v b = (0, (0, 0)) ->
    (v3_at v i = (0, (0, 0)) <-> Rabs (fst n) <= mu * Rabs (snd n)).
Proof. intros la mi bs js w dt f v imps i b n h mu g HW Hf Hv Hb Hm HI HT Hmu Hdt. exact (repose la mi bs js w HW dt f v imps i b n h mu Hf Hv Hb Hm HI HT Hmu Hdt g). Qed.
Print Assumptions C91_repose.
(** The point the solver returns, with the residual [r]: a body that should rest gets at most a kinetic
    energy proportional to [r], whatever the step computed. *)
Theorem C91_returned :
  forall la mi bs js w dt f it r i b n h mu F,
    lapack_ok la -> engine_world la mi bs js w -> world_apply_forces w (w_t w) = Ok f -> engine_point la mi w dt it r ->
    nth_error (w_bodies w) i = Some b -> 0 < b_mass b -> 0 < b_inertia b ->
    stands w i n h mu -> 0 <= mu ->
    v3_at f i = (0, F) -> 0 <= dt -> component n F <= 0 -> Rabs (component (tangent n) F) <= mu * - component n F -> b_v b = (0, (0, 0)) ->
    let om := fst (v3_at (vopp (i_x it)) i) in let vel := snd (v3_at (vopp (i_x it)) i) in
    b_inertia b * (om * om) + b_mass b * component vel vel <=
    r * (strain (length (w_contacts w)) mu (i_z it) + dt * - component n F + mu * (b_mass b + 1) * Rabs (component (tangent n) vel + om * h) +
         Rabs om + Rabs (component n vel) + Rabs (component (tangent n) vel)).
Proof. intros la mi bs js w dt f it r i b n h mu F HL HW. exact (rests la mi bs js w HL HW dt f it r i b n h mu F). Qed.
Print Assumptions C91_returned.
(** The same for the velocities that solve_dynamics returns: what the step itself computes. *)
Theorem C91_solved :
  forall la mi bs js w dt f v c i b n h mu F,
    lapack_ok la -> engine_world la mi bs js w -> world_apply_forces w (w_t w) = Ok f ->
    solve_dynamics la mi w dt = Ok (v, c) ->
    nth_error (w_bodies w) i = Some b -> 0 < b_mass b -> 0 < b_inertia b ->
    stands w i n h mu -> 0 <= mu ->
    v3_at f i = (0, F) -> 0 <= dt -> component n F <= 0 -> Rabs (component (tangent n) F) <= mu * - component n F -> b_v b = (0, (0, 0)) ->
    exists it r, engine_point la mi w dt it r /\ v = vopp (i_x it) /\
      let om := fst (v3_at v i) in let vel := snd (v3_at v i) in
      b_inertia b * (om * om) + b_mass b * component vel vel <=
      r * (strain (length (w_contacts w)) mu (i_z it) + dt * - component n F + mu * (b_mass b + 1) * Rabs (component (tangent n) vel + om * h) +
           Rabs om + Rabs (component n vel) + Rabs (component (tangent n) vel)).
Proof.
  intros la mi bs js w dt f v c i b n h mu F HL HW Hf Hs Hb Hm HI HT Hmu HF Hdt Hp Ht H0.
  assert (Hc : w_contacts w <> []) by (destruct (st_left _ _ _ _ _ HT) as (k & Hk & _); intros E; rewrite E in Hk; exact Hk).
  destruct (solved_point la mi bs js w dt HL HW Hc v c Hs) as (it & r & Hp' & ->). exists it, r. split; [exact Hp'|]. split; [reflexivity|].
  exact (C91_returned la mi bs js w dt f it r i b n h mu F HL HW Hf Hp' Hb Hm HI HT Hmu HF Hdt Hp Ht H0).
Qed.
Print Assumptions C91_solved.
(** The feet of a polygon on one edge are on one surface: the contacts that one call of DiffContactHandler
    finds for two polygons have one normal and lie, seen from either body, on one line across it. *)
Theorem C91_level :
  forall fuel o eps clk bs i1 i2 b1 b2 cs bs' clk' c c',
    nth_error bs i1 = Some b1 -> nth_error bs i2 = Some b2 -> is_circle b1 = false -> is_circle b2 = false -> regular b1 b2 ->
    diff_handler fuel o eps clk bs i1 i2 = Ok (cs, bs', clk') -> In c cs -> In c' cs ->
    c_normal c' = c_normal c /\ component (c_normal c) (c_p1 c') = component (c_normal c) (c_p1 c) /\
    component (c_normal c) (c_p2 c') = component (c_normal c) (c_p2 c).
Proof. exact level. Qed.
Print Assumptions C91_level.

(** A block of side 2 and mass 1 on a wide floor that is held, y pointing down: the constructor finds its two
    feet; it is pushed by any force (p, q) with q > 0 and slides at any speed s to the right. *)
Example C91_block : forall p q s mu, 0 <= mu <= 1 -> 0 < q ->
  exists v imps, session ref_lapack 20 pair_oracle disc_hd (on_floor s mu 0) (floor_joints mu) (floor_world p q s mu) /\
    length (w_contacts (floor_world p q s mu)) = 2%nat /\ stands (floor_world p q s mu) 1 (0, -1) 1 mu /\
    response (floor_world p q s mu) (1/2) v imps /\ v3_at v 1 = (0, (rubbed (mu * (q / 2)) (s + p / 2), 0)).
Proof.
  intros p q s mu Hm Hq. do 2 eexists. split; [apply floor_session|]. split; [reflexivity|]. split; [apply floor_stands; exact Hm|]. split; [apply floor_response; assumption|].
  unfold v3_at, vget, rubbed. cbn. reflexivity.
Qed.
(** the hypotheses of C91_slides, C91_incline and C91_repose hold for it *)
Example C91_block_slides : forall s mu v imps, 0 <= mu <= 1 -> response (floor_world 0 1 s mu) (1/2) v imps ->
  v3_at v 1 = (0, v2scale (rubbed (1/2 * 1 * (mu * Rabs (-1))) (- s - 1/2 * 1 * 0)) (tangent (0, -1))).
Proof.
  intros s mu v imps Hm Hv. destruct (floor_session 20 0 1 s mu) as [fuel gf heap dt eps tol fd ps st w0 ops H1 H2 H3 H4 H5 H6 H7].
  refine (C91_incline ref_lapack 20 _ _ _ (1/2) _ v imps 1 (block s mu 0) (0, -1) 1 mu 1 (- s) _ (floor_forces 0 1 s mu) Hv eq_refl _ _ (floor_stands 0 1 s mu Hm) (proj1 Hm) ltac:(lra) _ ltac:(lra) ltac:(cbn; lra) _).
  - exact (engine_history _ _ _ _ _ fuel gf _ _ heap dt eps tol fd ps st w0 ops H1 H2 H3 H4 H6 H7).
  - cbn. lra.
  - cbn. unfold rect_inertia. cbn. rnum. lra.
  - unfold v3_at, vget. cbn. rnum. repeat (apply f_equal2; try ring).
  - unfold block, box, b_v, v2scale, tangent. cbn. rnum. repeat (apply f_equal2; try ring).
Qed.
Example C91_returned_case : forall p q s, exists it r, engine_point ref_lapack 20 (floor_world p q s 0) (1/2) it r.
Proof. intros p q s. apply floor_point. lia. Qed.
Example C91_solved_case : forall p q s, exists v c, solve_dynamics ref_lapack 20 (floor_world p q s 0) (1/2) = Ok (v, c).
Proof. intros p q s. apply floor_solves. lia. Qed.
