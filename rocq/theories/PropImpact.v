(** C75: impacts of two bodies *)
From Coq Require Import List Arith ZArith Lia Bool Reals Lra.
From Verif Require Import Num Tensor Utils Bodies Forces Constraints Contacts World Lapack LapackRef Pdipm Lcp Engines
     Spec GeoSpec BodySpec JointSpec FreshSpec EngineSpec WellSpec ContactSpec ImpactSpec LapackSpec KktSpec PdipmSpec
     RBase ResFacts LinAlg LuFacts LayoutFacts EngineFacts EngineProps EngineMore CollideFacts FloatEx RealEx ContactEx EngineEx ImpactFacts ImpactProps ImpactEx.
Import ListNotations.
Open Scope R_scope.

(** C75.  Two bodies that touch only each other, at a point on the line of the normal through both centres:
    the response is the textbook impact.  Normal impulse: what Newton's restitution asks, or none.
    Tangential impulse: what stops the slip, but at most mu times the normal one.  Any forces, spins,
    masses, whatever the other bodies of the world do. *)
Theorem C75_pair :
  forall la mi bs js w dt f v imps k c b1 b2,
    engine_world la mi bs js w -> world_apply_forces w (w_t w) = Ok f -> response w dt v imps ->
    nth_error (w_bodies w) (c_i1 c) = Some b1 -> nth_error (w_bodies w) (c_i2 c) = Some b2 ->
    clear_of w (c_i1 c) k c -> clear_of w (c_i2 c) k c ->
    0 < b_mass b1 -> 0 < b_inertia b1 -> 0 < b_mass b2 -> 0 < b_inertia b2 ->
    unit_vec (c_normal c) -> central (c_normal c) (c_p1 c) -> central (c_normal c) (c_p2 c) ->
    let u1 := free_velocity dt (v3_at f (c_i1 c)) b1 in
    let u2 := free_velocity dt (v3_at f (c_i2 c)) b2 in
    let u := v2sub (point_velocity u1 (c_p1 c)) (point_velocity u2 (c_p2 c)) in
    let '(l, t) := impact (mixed w b_rest c) (mixed w b_fric c)
                          (yield_normal b1 + yield_normal b2) (yield_tangent b1 (c_p1 c) + yield_tangent b2 (c_p2 c))
                          (normal_velocity (w_v w) c) (component (c_normal c) u) (component (tangent (c_normal c)) u) in
    let J := impulse_of (c_normal c) l t in
    nth_error imps k = Some (l, t) /\
    v3_at v (c_i1 c) = v3add u1 (kick b1 (c_p1 c) J) /\ v3_at v (c_i2 c) = v3add u2 (kick b2 (c_p2 c) (v2opp J)).
Proof. intros la mi bs js w dt f v imps k c b1 b2 HW Hf Hv. exact (pair_impact la mi bs js w HW dt f v imps k c Hf Hv b1 b2). Qed.
Print Assumptions C75_pair.
(** The same against a body fixed by a TotalConstraint, which may have any shape and any other contacts. *)
Theorem C75_wall :
  forall la mi bs js w dt f v imps k c b1,
    engine_world la mi bs js w -> world_apply_forces w (w_t w) = Ok f -> response w dt v imps ->
    nth_error (w_bodies w) (c_i1 c) = Some b1 -> clear_of w (c_i1 c) k c -> fixed_in_place w (c_i2 c) ->
    0 < b_mass b1 -> 0 < b_inertia b1 -> unit_vec (c_normal c) -> central (c_normal c) (c_p1 c) ->
    let u1 := free_velocity dt (v3_at f (c_i1 c)) b1 in
    let u := point_velocity u1 (c_p1 c) in
    let '(l, t) := impact (mixed w b_rest c) (mixed w b_fric c) (yield_normal b1) (yield_tangent b1 (c_p1 c))
                          (normal_velocity (w_v w) c) (component (c_normal c) u) (component (tangent (c_normal c)) u) in
    nth_error imps k = Some (l, t) /\
    v3_at v (c_i1 c) = v3add u1 (kick b1 (c_p1 c) (impulse_of (c_normal c) l t)) /\ v3_at v (c_i2 c) = (0, (0, 0)).
Proof. intros la mi bs js w dt f v imps k c b1 HW Hf Hv. exact (fixed_second la mi bs js w HW dt f v imps k c Hf Hv b1). Qed.
Print Assumptions C75_wall.
Theorem C75_wall_first :
  forall la mi bs js w dt f v imps k c b2,
    engine_world la mi bs js w -> world_apply_forces w (w_t w) = Ok f -> response w dt v imps ->
    nth_error (w_bodies w) (c_i2 c) = Some b2 -> clear_of w (c_i2 c) k c -> fixed_in_place w (c_i1 c) ->
    0 < b_mass b2 -> 0 < b_inertia b2 -> unit_vec (c_normal c) -> central (c_normal c) (c_p2 c) ->
    let u2 := free_velocity dt (v3_at f (c_i2 c)) b2 in
    let u := v2opp (point_velocity u2 (c_p2 c)) in
    let '(l, t) := impact (mixed w b_rest c) (mixed w b_fric c) (yield_normal b2) (yield_tangent b2 (c_p2 c))
                          (normal_velocity (w_v w) c) (component (c_normal c) u) (component (tangent (c_normal c)) u) in
    nth_error imps k = Some (l, t) /\
    v3_at v (c_i2 c) = v3add u2 (kick b2 (c_p2 c) (v2opp (impulse_of (c_normal c) l t))) /\ v3_at v (c_i1 c) = (0, (0, 0)).
Proof. intros la mi bs js w dt f v imps k c b2 HW Hf Hv. exact (fixed_first la mi bs js w HW dt f v imps k c Hf Hv b2). Qed.
Print Assumptions C75_wall_first.
(** The contacts of circles, with each other and with polygons, are such contacts. *)
Theorem C75_central :
  forall la mi gf o bs js w c b1 b2,
    session la mi o (diff_handler gf o) bs js w -> In c (w_contacts w) ->
    nth_error (w_bodies w) (c_i1 c) = Some b1 -> nth_error (w_bodies w) (c_i2 c) = Some b2 -> regular b1 b2 ->
    unit_vec (c_normal c) /\ (is_circle b1 = true -> central (c_normal c) (c_p1 c)) /\ (is_circle b2 = true -> central (c_normal c) (c_p2 c)).
Proof.
  intros la mi gf o bs js w c b1 b2 HS Hc H1 H2 Hr. pose proof (session_current _ _ _ _ _ _ _ HS) as Cu.
  split; [exact (proj1 (current_consistent gf o w c b1 b2 Cu Hc H1 H2 Hr))|]. exact (current_central gf o w c b1 b2 Cu Hc H1 H2).
Qed.
Print Assumptions C75_central.

(** Without friction and forces: the formulas for central collisions, spins unchanged ... *)
Theorem C75_collision :
  forall la mi bs js w dt f v imps k c b1 b2,
    engine_world la mi bs js w -> world_apply_forces w (w_t w) = Ok f -> response w dt v imps ->
    nth_error (w_bodies w) (c_i1 c) = Some b1 -> nth_error (w_bodies w) (c_i2 c) = Some b2 -> unit_vec (c_normal c) ->
    clear_of w (c_i1 c) k c -> clear_of w (c_i2 c) k c ->
    0 < b_mass b1 -> 0 < b_inertia b1 -> 0 < b_mass b2 -> 0 < b_inertia b2 ->
    central (c_normal c) (c_p1 c) -> central (c_normal c) (c_p2 c) ->
    v3_at f (c_i1 c) = (0, (0, 0)) -> v3_at f (c_i2 c) = (0, (0, 0)) -> mixed w b_fric c = 0 -> 0 <= mixed w b_rest c ->
    let e := mixed w b_rest c in
    let u := component (c_normal c) (v2sub (snd (b_v b1)) (snd (b_v b2))) in
    u <= 0 ->
    v3_at v (c_i1 c) = (fst (b_v b1), v2sub (snd (b_v b1)) (v2scale ((1 + e) * u * b_mass b2 / (b_mass b1 + b_mass b2)) (c_normal c))) /\
    v3_at v (c_i2 c) = (fst (b_v b2), v2add (snd (b_v b2)) (v2scale ((1 + e) * u * b_mass b1 / (b_mass b1 + b_mass b2)) (c_normal c))).
Proof. intros la mi bs js w dt f v imps k c b1 b2 HW Hf Hv H1 H2 Hu. exact (collision la mi bs js w HW dt f v imps k c b1 b2 Hf Hv H1 H2 Hu). Qed.
Print Assumptions C75_collision.
(** ... and for a ball that bounces off a fixed body: the velocity towards it is reversed and multiplied
    by the restitution, the velocity along it and the spin stay. *)
Theorem C75_bounce :
  forall la mi bs js w dt f v imps k c b1 b2,
    engine_world la mi bs js w -> world_apply_forces w (w_t w) = Ok f -> response w dt v imps ->
    nth_error (w_bodies w) (c_i1 c) = Some b1 -> nth_error (w_bodies w) (c_i2 c) = Some b2 -> unit_vec (c_normal c) ->
    mixed w b_fric c = 0 -> 0 <= mixed w b_rest c ->
    (clear_of w (c_i1 c) k c -> fixed_in_place w (c_i2 c) -> 0 < b_mass b1 -> 0 < b_inertia b1 -> central (c_normal c) (c_p1 c) ->
     v3_at f (c_i1 c) = (0, (0, 0)) -> b_v b2 = (0, (0, 0)) -> component (c_normal c) (snd (b_v b1)) <= 0 ->
     v3_at v (c_i1 c) = (fst (b_v b1), v2sub (snd (b_v b1)) (v2scale ((1 + mixed w b_rest c) * component (c_normal c) (snd (b_v b1))) (c_normal c)))) /\
    (clear_of w (c_i2 c) k c -> fixed_in_place w (c_i1 c) -> 0 < b_mass b2 -> 0 < b_inertia b2 -> central (c_normal c) (c_p2 c) ->
     v3_at f (c_i2 c) = (0, (0, 0)) -> b_v b1 = (0, (0, 0)) -> 0 <= component (c_normal c) (snd (b_v b2)) ->
     v3_at v (c_i2 c) = (fst (b_v b2), v2sub (snd (b_v b2)) (v2scale ((1 + mixed w b_rest c) * component (c_normal c) (snd (b_v b2))) (c_normal c)))).
Proof.
  intros la mi bs js w dt f v imps k c b1 b2 HW Hf Hv H1 H2 Hu Mu He. split.
  - intros K F M I C F1 V0 Hap. exact (bounce_first la mi bs js w HW dt f v imps k c b1 b2 Hf Hv H1 H2 Hu K F M I C F1 V0 Mu He Hap).
  - intros K F M I C F2 V0 Hap. exact (bounce_second la mi bs js w HW dt f v imps k c b1 b2 Hf Hv H1 H2 Hu K F M I C F2 V0 Mu He Hap).
Qed.
Print Assumptions C75_bounce.
(** A body at rest that a force presses on a fixed one stays on it, and rolls off without slipping exactly
    when the tangential force is at most mu (1 + m r^2 / I) times the pressing one: for a disc, on a slope
    of angle a, when tan a <= 3 mu. *)
Theorem C75_incline :
  forall la mi bs js w dt f v imps k c b1 b2 F,
    engine_world la mi bs js w -> world_apply_forces w (w_t w) = Ok f -> response w dt v imps ->
    nth_error (w_bodies w) (c_i1 c) = Some b1 -> nth_error (w_bodies w) (c_i2 c) = Some b2 -> unit_vec (c_normal c) ->
    clear_of w (c_i1 c) k c -> fixed_in_place w (c_i2 c) -> 0 < b_mass b1 -> 0 < b_inertia b1 -> central (c_normal c) (c_p1 c) ->
    v3_at f (c_i1 c) = (0, F) -> b_v b1 = (0, (0, 0)) -> b_v b2 = (0, (0, 0)) -> 0 < dt ->
    component (c_normal c) F <= 0 -> 0 <= mixed w b_fric c ->
    let r2 := fst (c_p1 c) * fst (c_p1 c) + snd (c_p1 c) * snd (c_p1 c) in
    component (c_normal c) (snd (v3_at v (c_i1 c))) = 0 /\
    (slip_velocity v c = 0 <->
     Rabs (component (tangent (c_normal c)) F) <= mixed w b_fric c * (1 + b_mass b1 * r2 / b_inertia b1) * - component (c_normal c) F).
Proof. intros la mi bs js w dt f v imps k c b1 b2 F HW Hf Hv H1 H2 Hu. exact (incline la mi bs js w HW dt f v imps k c b1 b2 Hf Hv H1 H2 Hu F). Qed.
Print Assumptions C75_incline.

(** cases: two discs that slide past each other while they collide (restitution and friction 1/2) ... *)
Lemma only_touch (w : world R) i c : w_contacts w = [c] -> only_contact w i 0 c.
Proof.
  intros E. unfold only_contact. rewrite E. split; [reflexivity|]. intros [|[|k]] c' H Hne; [congruence|discriminate|discriminate].
Qed.
Example C75_pair_case : exists b1 b2,
  engine_world ref_lapack 10 (two_discs 1 10 (1/2) (1/2) (-1) 0 (1/2) (1/2)) [] slide_world /\
  world_apply_forces slide_world (w_t slide_world) = Ok (vzeros 6) /\
  response slide_world (1/2) [- (3/2); - (1/2); 37/4; - (3/2); 1/2; 3/4] [(3/2, - (3/4))] /\
  nth_error (w_bodies slide_world) 0 = Some b1 /\ nth_error (w_bodies slide_world) 1 = Some b2 /\
  clear_of slide_world 0 0 (touch 0 1) /\ clear_of slide_world 1 0 (touch 0 1) /\
  0 < b_mass b1 /\ 0 < b_inertia b1 /\ 0 < b_mass b2 /\ 0 < b_inertia b2 /\
  unit_vec (c_normal (touch 0 1)) /\ central (c_normal (touch 0 1)) (c_p1 (touch 0 1)) /\ central (c_normal (touch 0 1)) (c_p2 (touch 0 1)).
Proof.
  do 2 eexists. split; [apply two_engine_world|]. split; [apply two_forces|]. split.
  - exists (vzeros 6), []. split; [apply two_forces|]. split; [reflexivity|]. split; [|split].
    + split; [reflexivity|]. split; [reflexivity|]. intros x Lx. do 6 (destruct x as [|? x]; [discriminate|]). destruct x; [|discriminate].
      unfold kinetic, constraint_velocity, contact_power, component, relative_velocity, point_velocity, v3_at, vget, dot. cbn. rnum. field.
    + reflexivity.
    + apply Forall2_cons; [|apply Forall2_nil]. assert (A : Rabs (- (3/4)) = 3/4) by (rewrite Rabs_Ropp; apply Rabs_pos_eq; lra).
      constructor; unfold mixed, normal_velocity, slip_velocity, component, relative_velocity, point_velocity, v3_at, vget; cbn; rnum; try lra.
      match goal with |- context[Rabs ?x] => replace x with (11/2) by field; rewrite (Rabs_pos_eq (11/2)) by lra end. lra.
  - split; [reflexivity|]. split; [reflexivity|].
    assert (K : forall i, clear_of slide_world i 0 (touch 0 1)) by (intros i; split; [now apply only_touch|intros j i1 i2 []]).
    split; [apply K|]. split; [apply K|]. cbn. rnum. unfold unit_vec, central, cross_2d. cbn. rnum. repeat split; lra.
Qed.
(** ... a disc pressed against a fixed one, and a disc that bounces off a fixed one *)
Example C75_wall_case : exists b1 b2,
  session ref_lapack 10 pair_oracle disc_hd ramp_discs ramp_joints ramp_world /\
  world_apply_forces ramp_world (w_t ramp_world) = Ok [0; 2; 1; 0; 0; 0] /\
  response ramp_world (1/2) [- (1/3); 0; 1/3; 0; 0; 0] [(1, - (1/6))] /\
  nth_error (w_bodies ramp_world) 0 = Some b1 /\ nth_error (w_bodies ramp_world) 1 = Some b2 /\ regular b1 b2 /\ is_circle b1 = true /\
  clear_of ramp_world 0 0 (touch 0 1) /\ fixed_in_place ramp_world 1 /\ 0 < b_mass b1 /\ 0 < b_inertia b1 /\
  v3_at [0; 2; 1; 0; 0; 0] 0 = (0, (2, 1)) /\ b_v b1 = (0, (0, 0)) /\ b_v b2 = (0, (0, 0)) /\
  component (c_normal (touch 0 1)) (2, 1) <= 0 /\ 0 <= mixed ramp_world b_fric (touch 0 1).
Proof.
  do 2 eexists. split; [apply ramp_session|]. split; [apply ramp_forces|]. split; [apply ramp_rolls|]. split; [reflexivity|]. split; [reflexivity|].
  split; [unfold regular; cbn; intros E; injection E; lra|]. split; [reflexivity|].
  split; [split; [now apply only_touch|intros j i1 i2 [E|[]]; injection E as <- <- <-; split; discriminate]|].
  split; [split; [cbn; lia|exists (total_init ramp_disc); split; [now left|reflexivity]]|].
  unfold mixed, component, v3_at, vget. cbn. rnum. repeat split; lra.
Qed.
Example C75_bounce_case : forall vx vy, 0 <= vx -> exists b1 b2 v imps,
  engine_world ref_lapack 10 (pinned_discs (- vx) vy (1/2)) [pin (1/2)] (pinned_world (- vx) vy (1/2)) /\
  world_apply_forces (pinned_world (- vx) vy (1/2)) 0 = Ok (vzeros 6) /\ response (pinned_world (- vx) vy (1/2)) (1/2) v imps /\
  nth_error (w_bodies (pinned_world (- vx) vy (1/2))) 0 = Some b1 /\ nth_error (w_bodies (pinned_world (- vx) vy (1/2))) 1 = Some b2 /\
  mixed (pinned_world (- vx) vy (1/2)) b_fric (touch 0 1) = 0 /\ 0 <= mixed (pinned_world (- vx) vy (1/2)) b_rest (touch 0 1) /\
  clear_of (pinned_world (- vx) vy (1/2)) 1 0 (touch 0 1) /\ fixed_in_place (pinned_world (- vx) vy (1/2)) 0 /\ 0 < b_mass b2 /\ 0 < b_inertia b2 /\
  b_v b1 = (0, (0, 0)) /\ 0 <= component (c_normal (touch 0 1)) (snd (b_v b2)).
Proof.
  intros vx vy Hvx. do 2 eexists. exists [0; 0; 0; 0; vx / 2; vy], [(3 / 2 * vx, 0)].
  split; [eapply session_world; apply pinned_session|]. split; [unfold world_apply_forces; cbn; rnum; reflexivity|]. split.
  - exists (vzeros 6), [0; 3 / 2 * vx; 0]. split; [unfold world_apply_forces; cbn; rnum; reflexivity|]. split; [reflexivity|]. split; [|split].
    + split; [reflexivity|]. split; [reflexivity|]. intros x Lx. do 6 (destruct x as [|? x]; [discriminate|]). destruct x; [|discriminate].
      unfold kinetic, constraint_velocity, contact_power, component, relative_velocity, point_velocity, v3_at, vget, dot. cbn. rnum. field.
    + unfold constraint_velocity. cbn. rnum. reflexivity.
    + apply Forall2_cons; [|apply Forall2_nil].
      constructor; unfold mixed, normal_velocity, slip_velocity, component, relative_velocity, point_velocity, v3_at, vget; cbn; rnum; rewrite ?Rabs_R0; try lra.
      all: try (match goal with |- context[Rabs ?x] => generalize (Rabs x) end; intros; lra).
  - split; [reflexivity|]. split; [reflexivity|]. split; [unfold mixed; cbn; lra|]. split; [unfold mixed; cbn; lra|].
    split; [split; [now apply only_touch|intros j i1 i2 [E|[]]; injection E as <- <- <-; split; discriminate]|].
    split; [split; [cbn; lia|exists (pin (1/2)); split; [now left|reflexivity]]|].
    unfold component. cbn. rnum. repeat split; lra.
Qed.
