(** C25-C32, C52-C54: contact detection *)
From Coq Require Import List Arith ZArith Lia Bool Reals Lra Floats.
From Verif Require Import Num Tensor Utils Bodies Forces Constraints Contacts World Lapack LapackRef Engines
     Spec GeoSpec BodySpec ContactSpec FreshSpec ResFacts RBase BodyFacts RigidFacts GeomFacts BodyReach WorldFacts HandlerFacts FreshFacts
     PlaneFacts SupportFacts SatFacts ClipFacts GjkFacts GjkLoop GjkTerm ContactFacts HellyFacts OverlapFacts CollideFacts
     PropBody FloatEx RealEx ContactEx.
Import ListNotations.
Open Scope R_scope.

Lemma simulated_current gf o w : simulated gf o w -> contacts_current o (diff_handler gf o) w.
Proof.
  intros (fuel & e & heap & bodies & cons & dt & eps & tol & fd & ps & st & w0 & ops & _ & H0 & Hx).
  eapply exec_current; [apply diff_handler_frame| |exact Hx]. eapply init_current; [apply diff_handler_frame|exact H0].
Qed.
Lemma simulated_pair gf o w i j b1 b2 q1 q2 : simulated gf o w -> broadphase_complete o -> i <> j ->
  nth_error (w_bodies w) i = Some b1 -> nth_error (w_bodies w) j = Some b2 -> padded w b1 b2 ->
  body_points b1 q1 -> body_points b2 q2 -> dist q1 q2 <= w_eps w ->
  forall k, In (i, j) (o_collide o k (map b_geom (w_bodies w))) \/ In (j, i) (o_collide o k (map b_geom (w_bodies w))).
Proof.
  intros (fuel & e & heap & bodies & cons & dt & eps & tol & fd & ps & st & w0 & ops & Hb & H0 & Hx) Hc Hij H1 H2 (S1 & S2 & E1 & E2 & E3) P1 P2 D.
  eapply C11_no_pair_missed; eauto; [apply diff_handler_frame|tauto].
Qed.
Lemma simulated_reachable gf o w b : simulated gf o w -> In b (w_bodies w) -> reachable_body b.
Proof.
  intros (fuel & e & heap & bodies & cons & dt & eps & tol & fd & ps & st & w0 & ops & Hb & H0 & Hx) Hin.
  eapply RBworld; eauto. apply diff_handler_frame.
Qed.

(** C25.  After any history, two circles with different centres are in contact exactly if the gap
    between them is at most the world's eps ... *)
Theorem C25_circle_contact_iff :
  forall gf o w i j b1 b2,
    simulated gf o w -> broadphase_complete o -> i <> j ->
    nth_error (w_bodies w) i = Some b1 -> nth_error (w_bodies w) j = Some b2 -> padded w b1 b2 ->
    is_circle b1 = true -> is_circle b2 = true -> b_pos b1 <> b_pos b2 -> ~ excluded b1 b2 -> ~ excluded b2 b1 ->
    ((exists c, In c (w_contacts w) /\ joins c i j) <-> gap b1 b2 <= w_eps w).
Proof.
  intros gf o w i j b1 b2 Hw Hc Hij H1 H2 Hp C1 C2 Hne X1 X2. pose proof (simulated_current _ _ _ Hw) as Hcur. split.
  - intros (c & Hin & [[E1 E2]|[E1 E2]]).
    + destruct (current_circles gf o w c b1 b2) as [L _]; auto; congruence.
    + rewrite gap_sym. destruct (current_circles gf o w c b2 b1) as [L _]; auto; congruence.
  - intros G. pose proof Hp as (S1 & S2 & _ & _ & (He & _)).
    assert (R1 : 0 < b_rad b1) by (unfold solid, is_circle, b_rad in *; destruct (b_kind b1); auto; discriminate).
    assert (R2 : 0 < b_rad b2) by (unfold solid, is_circle, b_rad in *; destruct (b_kind b2); auto; discriminate).
    destruct (gap_touching b1 b2 (w_eps w) C1 C2 R1 R2 He G) as (q1 & q2 & P1 & P2 & D).
    eapply current_touching; eauto.
    + eapply simulated_pair; eauto.
    + unfold tidy. rewrite C1. lra.
    + unfold tidy. rewrite C2. lra.
    + congruence.
    + unfold touching. rewrite C1. cbn [orb]. eauto.
Qed.
Print Assumptions C25_circle_contact_iff.
(** ... and the contact then reports the unit vector from body 2 to body 1, the overlap
    r1 + r2 - distance, and a single point, midway between the two surfaces. *)
Theorem C25_circle_contact_data :
  forall gf o w c b1 b2,
    simulated gf o w -> In c (w_contacts w) ->
    nth_error (w_bodies w) (c_i1 c) = Some b1 -> nth_error (w_bodies w) (c_i2 c) = Some b2 ->
    is_circle b1 = true -> is_circle b2 = true -> b_pos b1 <> b_pos b2 ->
    unit_vec (c_normal c) /\
    b_pos b1 = v2add (b_pos b2) (v2scale (dist (b_pos b1) (b_pos b2)) (c_normal c)) /\
    c_pen c = b_rad b1 + b_rad b2 - dist (b_pos b1) (b_pos b2) /\
    at_body b1 (c_p1 c) = at_body b2 (c_p2 c) /\
    at_body b1 (c_p1 c) = midpoint (v2sub (b_pos b1) (v2scale (b_rad b1) (c_normal c)))
                                   (v2add (b_pos b2) (v2scale (b_rad b2) (c_normal c))).
Proof.
  intros gf o w c b1 b2 Hw Hin H1 H2 C1 C2 Hne.
  destruct (current_circles gf o w c b1 b2 (simulated_current _ _ _ Hw) Hin H1 H2 C1 C2 Hne) as (_ & A & B & C & D & E).
  repeat split; auto. rewrite C. unfold gap. ring.
Qed.
Print Assumptions C25_circle_contact_data.
(** Passing the two bodies to the callback in the other order mirrors the contacts. *)
Theorem C25_swap :
  forall fuel fuel' o o' eps clk clk' bs bs' i1 i2 b1 b2 cs r clk1 cs' r' clk1',
    nth_error bs i1 = Some b1 -> nth_error bs i2 = Some b2 -> nth_error bs' i1 = Some b1 -> nth_error bs' i2 = Some b2 ->
    is_circle b1 = true -> is_circle b2 = true -> ~ excluded b1 b2 -> ~ excluded b2 b1 ->
    diff_handler fuel o eps clk bs i1 i2 = Ok (cs, r, clk1) ->
    diff_handler fuel' o' eps clk' bs' i2 i1 = Ok (cs', r', clk1') ->
    cs' = map mirror cs.
Proof. exact circle_swap. Qed.
Print Assumptions C25_swap.
(** two circles, the first of which ran into the second during a step *)
Lemma pair_complete : broadphase_complete (@pair_oracle R).
Proof.
  intros k gs i j gi gj Hij H1 H2 _. assert (Hi : (i < length gs)%nat) by (apply nth_error_Some; congruence). assert (Hj : (j < length gs)%nat) by (apply nth_error_Some; congruence).
  cbn [o_collide pair_oracle]. unfold all_pairs. assert (C : (i < j \/ j < i)%nat) by lia. destruct C as [C|C]; [left|right]; apply in_flat_map.
  - exists i. split; [apply in_seq; lia|]. apply in_map_iff. exists j. split; [reflexivity|apply in_seq; lia].
  - exists j. split; [apply in_seq; lia|]. apply in_map_iff. exists i. split; [reflexivity|apply in_seq; lia].
Qed.
Lemma ex_simulated (s : bool) : exists w, simulated 10 pair_oracle w /\ w_bodies w = [set_p exA (0, (1, 0)); exB] /\ w_contacts w = [exc 1] /\ w_eps w = 1/10.
Proof.
  exists (exw s (0 + 4 * (1 / 2 / 2)) (0 + 1 / 2 / 2) [exc (0 + 4 * (1 / 2 / 2))] 3).
  replace (0 + 4 * (1 / 2 / 2)) with 1 by lra. split; [|repeat split].
  exists 2%nat, free_engine, [], [exA; exB], [], (1/2), (1/10), 0, 2%nat, false, s, (exw s 0 0 [] 1), [OStep false].
  split; [|split; [apply ex_init_ok|]].
  - repeat constructor.
    + exists exA, []. split; [left|reflexivity]. exists 0%nat, [0; 0], 1, [0; 4; 0], 1, (1/2), (1/2), (1/10). reflexivity.
    + exists exB, []. split; [left|reflexivity]. exists 1%nat, [3; 0], 1, [0; 0; 0], 1, (1/2), (1/2), (1/10). reflexivity.
  - destruct (ex_step_dt s 2 ltac:(lia)) as (w & E & ->). cbn [exec]. unfold step. change (w_dt (exw s 0 0 [] 1)) with (1 / 2). fold ex_hd. rewrite E. cbn [bind]. replace (0 + 4 * (1 / 2 / 2)) with 1 by lra. reflexivity.
Qed.
Example C25_case : exists w b1 b2 c,
  simulated 10 pair_oracle w /\ broadphase_complete (@pair_oracle R) /\
  nth_error (w_bodies w) 0 = Some b1 /\ nth_error (w_bodies w) 1 = Some b2 /\ padded w b1 b2 /\
  is_circle b1 = true /\ is_circle b2 = true /\ b_pos b1 <> b_pos b2 /\ ~ excluded b1 b2 /\ ~ excluded b2 b1 /\
  In c (w_contacts w) /\ joins c 0 1.
Proof.
  destruct (ex_simulated false) as (w & Hs & Hb & Hc & He). exists w, (set_p exA (0, (1, 0))), exB, (exc 1).
  split; [exact Hs|]. split; [apply pair_complete|]. rewrite Hb, Hc. split; [reflexivity|]. split; [reflexivity|].
  split; [unfold padded; rewrite He; cbn; lra|]. split; [reflexivity|]. split; [reflexivity|].
  split; [cbn; intros E; inversion E; lra|]. split; [intros []|]. split; [intros []|]. split; [now left|left; split; reflexivity].
Qed.

(** C26.  After any history, every contact between two bodies in regular position (centres of two
    circles differ, a circle's centre lies on no edge or diagonal of a polygon, polygons have no
    repeated vertices) has a unit normal, names one world point from both bodies and reports a
    penetration of at least -eps. *)
Theorem C26_contacts_consistent :
  forall gf o w c b1 b2,
    simulated gf o w -> In c (w_contacts w) ->
    nth_error (w_bodies w) (c_i1 c) = Some b1 -> nth_error (w_bodies w) (c_i2 c) = Some b2 -> regular b1 b2 ->
    unit_vec (c_normal c) /\ at_body b1 (c_p1 c) = at_body b2 (c_p2 c) /\ - w_eps w <= c_pen c.
Proof. intros gf o w c b1 b2 Hw Hin H1 H2 Hr. exact (current_consistent gf o w c b1 b2 (simulated_current _ _ _ Hw) Hin H1 H2 Hr). Qed.
Print Assumptions C26_contacts_consistent.
(** The same for one call of the callback on any bodies. *)
Theorem C26_callback_consistent :
  forall fuel o eps clk bs i1 i2 b1 b2 cs bs' clk' c,
    nth_error bs i1 = Some b1 -> nth_error bs i2 = Some b2 -> regular b1 b2 ->
    diff_handler fuel o eps clk bs i1 i2 = Ok (cs, bs', clk') -> In c cs ->
    unit_vec (c_normal c) /\ at_body b1 (c_p1 c) = at_body b2 (c_p2 c) /\ - eps <= c_pen c.
Proof. exact diff_handler_consistent. Qed.
Print Assumptions C26_callback_consistent.
(** a box of side 2 and a circle of radius 1/2 touching it *)
Lemma box_ball : exists w a1 a2, simulated 18 pair_oracle w /\ w_bodies w = [a1; a2] /\ w_eps w = 1/10 /\
  padded w a1 a2 /\ regular a1 a2 /\ ~ excluded a1 a2 /\ ~ excluded a2 a1 /\ tidy a1 /\ tidy a2 /\
  is_circle a1 = false /\ is_circle a2 = true /\ touching (w_eps w) a1 a2.
Proof.
  destruct (rect_ex 0 0 0 2 2) as (b1 & H1); [lra|lra|]. set (b2 := ball 1 (3/2) 0 (1/2)).
  destruct (two_world b1 b2) as (w & Hs & Hb & He & _); [eapply plain_available; eauto|apply ball_available|eapply plain_manageable; eauto; lra|apply ball_manageable; lra|].
  destruct (two_world_nth _ _ _ Hb) as (a1 & a2 & Ew & S1 & S2). exists w, a1, a2.
  pose proof (still_shape _ _ S1) as (I1 & P1 & C1 & R1 & V1 & G1). pose proof (still_shape _ _ S2) as (I2 & P2 & C2 & R2 & V2 & G2).
  destruct (plain_convex _ _ _ _ _ _ H1) as [Sc Ins]; [lra|lra|]. pose proof (plain_circle _ _ _ _ _ _ H1) as Cb. pose proof (plain_verts _ _ _ _ _ _ H1) as Vb.
  split; [exact Hs|]. split; [exact Ew|]. split; [exact He|].
  split; [unfold padded; rewrite He, <- (still_eps _ _ S1), <- (still_eps _ _ S2), (pr_eps _ _ _ _ _ _ H1); split; [apply (still_solid _ _ S1); unfold solid; rewrite (pr_kind _ _ _ _ _ _ H1); cbn; lra|]; split; [apply (still_solid _ _ S2); cbn; lra|]; cbn; lra|].
  split.
  { apply (still_regular b1 a1 b2 a2); auto. unfold regular. rewrite Cb. change (is_circle b2) with true. split; [apply Sc|]. split; [apply strictly_proper; exact Sc|].
    intros u v Hu Hv (t & Ht & E). assert (B : forall z, In z (b_verts b1) -> fst z <= 1).
    { intros z Hz. rewrite Vb in Hz. unfold corners in Hz. repeat (destruct Hz as [<-|Hz]; [cbn; lra|]). destruct Hz. }
    apply (f_equal fst) in E. unfold rel, along in E. rewrite (pr_pos _ _ _ _ _ _ H1) in E. cbn in E. pose proof (B u Hu). pose proof (B v Hv). nra. }
  split; [unfold excluded; rewrite <- I1, <- G2; cbn; tauto|]. split; [unfold excluded; rewrite <- I2, <- G1, (pr_nc _ _ _ _ _ _ H1); cbn; tauto|].
  split; [apply (still_tidy _ _ S1); unfold tidy; now rewrite Cb|]. split; [apply (still_tidy _ _ S2); cbn; lra|].
  split; [congruence|]. split; [rewrite <- C2; reflexivity|].
  rewrite He. apply (still_touching _ b1 a1 b2 a2); auto. unfold touching. rewrite Cb. change (is_circle b2) with true. cbn [orb].
  exists (1, 0), (1, 0). split; [|split].
  - apply polygon_points; auto. rewrite Vb, (pr_pos _ _ _ _ _ _ H1). exists [1/2; 0; 0; 1/2]. split; [reflexivity|]. split; [repeat constructor; lra|]. split; [cbn; lra|].
    unfold wsum, corners. v2unfold. cbn. split; lra.
  - apply circle_points; [reflexivity|]. cbn [b_pos b_p snd ball get circle_init body_init to_v3 bind b2]. unfold dist. cbn [fst snd].
    replace ((1 - 3 / 2) * (1 - 3 / 2) + (0 - 0) * (0 - 0)) with (Rsqr (1 / 2)) by (unfold Rsqr; field). rewrite sqrt_Rsqr by lra. cbn. lra.
  - unfold dist. cbn [fst snd]. replace ((1 - 1) * (1 - 1) + (0 - 0) * (0 - 0)) with 0 by ring. rewrite sqrt_0. lra.
Qed.
Example C26_case : exists gf o w c b1 b2,
  simulated gf o w /\ In c (w_contacts w) /\
  nth_error (w_bodies w) (c_i1 c) = Some b1 /\ nth_error (w_bodies w) (c_i2 c) = Some b2 /\ regular b1 b2 /\ is_circle b1 <> is_circle b2.
Proof.
  destruct box_ball as (w & a1 & a2 & Hs & Hb & He & Hp & Hr & X1 & X2 & T1 & T2 & C1 & C2 & Ht).
  exists 18%nat, pair_oracle, w. destruct (current_touching 18 pair_oracle w 0 1 a1 a2) as (c & Hc & J); auto using simulated_current; rewrite ?Hb; auto.
  - intros k. left. cbn. now left.
  - congruence.
  - lra.
  - exists c. destruct J as [[-> ->]|[-> ->]].
    + exists a1, a2. repeat split; auto. congruence.
    + exists a2, a1. repeat split; auto; [|congruence]. unfold regular in *. rewrite C1, C2 in *. exact Hr.
Qed.
(** Finding: off the regular positions the guarantee fails.  A circle whose centre is the midpoint
    of a box's edge gets a contact whose normal is not a number. *)
Open Scope float_scope.
Definition choose (n : nat) : oracle float :=
  {| o_collide := fun _ gs => all_pairs (length gs); o_narrow := fun _ _ _ => []; o_choice := fun _ _ => n |}.
Definition circle_on_box (n : nat) (x y : float) : res (world float) :=
  do c <- circle_init 0 [x; y] 1 [0; 0; 0] 1 0.5 0.5 0.125;
  do r <- rect_init 1 [0; 0] (4, 4) [0; 0; 0] 1 0.5 0.5 0.125;
  world_init (choose n) (diff_handler 18 (choose n)) [] [c; r] [] 0.125 0.125 0x1p-20 2 false false.
Theorem C26_normal_refuted :
  exists w c, circle_on_box 0 2 0 = Ok w /\ w_contacts w = [c] /\
              is_nan (fst (c_normal c)) = true /\ is_nan (snd (c_normal c)) = true.
Proof. do 2 eexists. split; [vm_compute; reflexivity|]. split; [vm_compute; reflexivity|]. split; vm_compute; reflexivity. Qed.
Print Assumptions C26_normal_refuted.
Close Scope float_scope.

(** C27.  The answer is an extreme vertex (the last one, if several are extreme) and its index ... *)
Theorem C27_support_extreme :
  forall pts dir p i,
    get_support pts dir = Ok (p, i) ->
    nth_error pts i = Some p /\
    (forall v, In v pts -> v2dot v dir <= v2dot p dir) /\
    (forall j v, (i < j)%nat -> nth_error pts j = Some v -> v2dot v dir < v2dot p dir).
Proof.
  intros pts dir p i H. apply get_support_ok in H. destruct H as (Hi & -> & _ & H1 & H2). split; [now apply nth_error_nth'|]. split; [exact H1|].
  intros j v Hj Hv. assert (Hl : (j < length pts)%nat) by (apply nth_error_Some; congruence).
  replace v with (vert pts j) by (unfold vert; now apply nth_error_nth). apply H2. lia.
Qed.
Print Assumptions C27_support_extreme.
(** ... the call fails exactly if every dot product is below -1 ... *)
Theorem C27_support_fails :
  forall pts dir, (exists e, get_support pts dir = Err e) <-> (forall v, In v pts -> v2dot v dir < -1).
Proof.
  intros pts dir. split.
  - intros (e & H). eapply get_support_err; eauto.
  - intros H. destruct (get_support pts dir) as [[p i]|e] eqn:E; [|eauto]. apply get_support_ok in E. destruct E as (Hi & -> & L & _). pose proof (H _ (In_vert _ _ Hi)). lra.
Qed.
Print Assumptions C27_support_fails.
(** ... which never happens for a convex body, in any world after any history, for any direction. *)
Theorem C27_convex_support :
  forall b dir, reachable_body b -> is_circle b = false -> convex (b_verts b) ->
    exists p i, get_support (b_verts b) dir = Ok (p, i).
Proof.
  intros b d Hr Hc Hs. assert (Hk : match b_kind b with KCircle _ => False | _ => True end) by (unfold is_circle in Hc; destruct (b_kind b); [discriminate|exact I|exact I]).
  destruct (reachable_centroid b Hr Hk) as (_ & Ha & Hce). destruct (centred_reaches (b_verts b) d Ha Hs Hce) as (v & Hv & L).
  apply (get_support_total (b_verts b) d v Hv). lra.
Qed.
Print Assumptions C27_convex_support.
Example C27_case : exists b, reachable_body b /\ is_circle b = false /\ convex (b_verts b).
Proof.
  destruct (rect_ex 0 0 0 2 2) as (b & H); [lra|lra|]. exists b. split; [eapply plain_reachable; eauto|]. split; [eapply plain_circle; eauto|].
  apply strictly_convex_convex. eapply plain_convex; eauto; lra.
Qed.
(** Finding: the constructor accepts a self-intersecting hull (positive net area) whose centroid is so
    far outside that the lookup fails. *)
Definition bow_tie : list pt := [(-2, -4); (-2, 0); (5, 3); (2, 5)].
Theorem C27_any_hull_refuted :
  exists b, hull_init 0 (0, 0) bow_tie [0; 0; 0] 1 1 1 (1/10) = Ok b /\ get_support (b_verts b) (1, 0) = Err EUnbound.
Proof.
  assert (A : area bow_tie = 7 / 2) by (unfold area, esum, edges, bow_tie, det2; cbn; field).
  assert (C : get_centroid bow_tie = (7, 8)).
  { apply (centroid_unique bow_tie); [rewrite A; lra|apply get_centroid_spec; rewrite A; lra|].
    intros [ox oy]. rewrite A. unfold esum, edges, bow_tie, tri2, det2. cbn. split; field. }
  destruct (hull_init_accepts 0 (0, 0) bow_tie [0; 0; 0] 1 1 1 (1/10)) as (b & Hb); [cbn; lia|rewrite A; lra|now right|].
  exists b. split; [exact Hb|]. apply hull_init_inv in Hb. destruct Hb as (_ & _ & Hv & _). rewrite Hv, C.
  destruct (get_support _ _) as [[p i]|e] eqn:E.
  - exfalso. apply get_support_ok in E. destruct E as (Hi & -> & L & _). pose proof (In_vert _ _ Hi) as Hin. apply in_map_iff in Hin. destruct Hin as (v & Ev & Hin).
    rewrite <- Ev in L. unfold bow_tie in Hin. v2unfold. cbn [fst snd] in *. repeat (destruct Hin as [<-|Hin]; [cbn in L; lra|]). destruct Hin.
  - unfold get_support in E. destruct (fst _); inversion E. reflexivity.
Qed.
Print Assumptions C27_any_hull_refuted.
(** so the world constructor raises for such a hull next to a circle *)
Open Scope float_scope.
Theorem C27_world_refuted :
  (do h <- hull_init 0 (0, 0) [(-2, -4); (-2, 0); (5, 3); (2, 5)] [0; 0; 0] 1 0.5 0.5 0.125;
   do c <- circle_init 1 [20; 8] 1 [0; 0; 0] 1 0.5 0.5 0.125;
   world_init (choose 0) (diff_handler 18 (choose 0)) [] [h; c] [] 0.125 0.125 0x1p-20 2 false false) = Err EUnbound.
Proof. vm_compute. reflexivity. Qed.
Print Assumptions C27_world_refuted.
Close Scope float_scope.

(** C28.  The value is the largest separation of body 2 from the edges of body 1 if that is at most
    eps, and otherwise some edge's separation above eps ... *)
Theorem C28_separation_value :
  forall b1 b2 eps s,
    b_verts b1 <> [] -> test_separations b1 b2 eps = Ok s ->
    (exists e, In e (edges (b_verts b1)) /\ separation (b_verts b2) (offset b1 b2) e (sep_dist s)) /\
    ((forall e m, In e (edges (b_verts b1)) -> separation (b_verts b2) (offset b1 b2) e m -> m <= eps) ->
     forall e m, In e (edges (b_verts b1)) -> separation (b_verts b2) (offset b1 b2) e m -> m <= sep_dist s) /\
    ((exists e m, In e (edges (b_verts b1)) /\ separation (b_verts b2) (offset b1 b2) e m /\ eps < m) -> eps < sep_dist s).
Proof.
  intros b1 b2 eps s Hn H. assert (L : (0 < length (b_verts b1))%nat) by (destruct (b_verts b1); [congruence|cbn; lia]).
  destruct (sat_value b1 b2 eps s L H) as (A & B & C). assert (D : In (edge_at (b_verts b1) (sep_idx s)) (edges (b_verts b1))) by now apply edge_at_In.
  split; [eauto|]. split.
  - intros Hle e m He Hm. destruct C as [C|C]; [|eauto]. pose proof (Hle _ _ D A). lra.
  - intros (e & m & He & Hm & Lt). destruct C as [C|C]; [exact C|]. pose proof (C e m He Hm). lra.
Qed.
Print Assumptions C28_separation_value.
(** ... whatever edge the search starts from: the verdict, and the value unless it exceeds eps. *)
Theorem C28_warm_start :
  forall b1 b2 eps i s s',
    b_verts b1 <> [] -> test_separations b1 b2 eps = Ok s -> test_separations (set_last b1 i) b2 eps = Ok s' ->
    (eps < sep_dist s <-> eps < sep_dist s') /\ (sep_dist s <= eps -> sep_dist s' = sep_dist s).
Proof. intros b1 b2 eps i s s' Hn. apply sat_warm_start. destruct (b_verts b1); [congruence|cbn; lia]. Qed.
Print Assumptions C28_warm_start.
(** All points of the two bodies are at least that far apart (body 1 convex). *)
Theorem C28_separation_disjoint :
  forall b1 b2 eps s q1 q2,
    is_circle b1 = false -> is_circle b2 = false -> strictly_convex (b_verts b1) ->
    test_separations b1 b2 eps = Ok s -> body_points b1 q1 -> body_points b2 q2 -> sep_dist s <= dist q1 q2.
Proof.
  intros b1 b2 eps s q1 q2 C1 C2 Hs. apply sat_disjoint; auto using strictly_convex_convex, strictly_proper.
  destruct Hs as (_ & H & _). lia.
Qed.
Print Assumptions C28_separation_disjoint.
(** For two strictly convex bodies the test is exact: they share a point iff neither value is positive. *)
Theorem C28_separation_exact :
  forall b1 b2 eps c1 c2,
    is_circle b1 = false -> is_circle b2 = false -> strictly_convex (b_verts b1) -> strictly_convex (b_verts b2) -> 0 <= eps ->
    test_separations b1 b2 eps = Ok c1 -> test_separations b2 b1 eps = Ok c2 ->
    ((exists q, body_points b1 q /\ body_points b2 q) <-> sep_dist c1 <= 0 /\ sep_dist c2 <= 0).
Proof. exact sat_exact. Qed.
Print Assumptions C28_separation_exact.
Example C28_case : exists b1 b2 c1 c2,
  is_circle b1 = false /\ is_circle b2 = false /\ strictly_convex (b_verts b1) /\ strictly_convex (b_verts b2) /\ b_pos b1 <> b_pos b2 /\
  test_separations b1 b2 (1/10) = Ok c1 /\ test_separations b2 b1 (1/10) = Ok c2.
Proof.
  destruct (rect_ex 0 0 0 2 2) as (b1 & H1); [lra|lra|]. destruct (rect_ex 1 1 1 4 2) as (b2 & H2); [lra|lra|]. exists b1, b2.
  destruct (plain_convex _ _ _ _ _ _ H1) as [S1 _]; [lra|lra|]. destruct (plain_convex _ _ _ _ _ _ H2) as [S2 _]; [lra|lra|].
  destruct (plain_manageable _ _ _ _ _ _ H1) as (U1 & _ & B1 & _); [lra|lra|]. destruct (plain_manageable _ _ _ _ _ _ H2) as (U2 & _ & B2 & _); [lra|lra|].
  pose proof (plain_circle _ _ _ _ _ _ H1) as C1. pose proof (plain_circle _ _ _ _ _ _ H2) as C2.
  pose proof (plain_verts _ _ _ _ _ _ H1) as V1. pose proof (plain_verts _ _ _ _ _ _ H2) as V2.
  destruct (separation_lower b1 b2 S1) as (e1 & m1 & I1 & M1 & L1); [rewrite V2; discriminate|now apply polygon_range|now apply polygon_range|].
  destruct (separation_lower b2 b1 S2) as (e2 & m2 & I2 & M2 & L2); [rewrite V1; discriminate|now apply polygon_range|now apply polygon_range|].
  destruct (sat_total b1 b2 (1/10) e1 m1) as (c1 & E1); auto; [rewrite V1; cbn; lia|]. destruct (sat_total b2 b1 (1/10) e2 m2) as (c2 & E2); auto; [rewrite V2; cbn; lia|].
  exists c1, c2. repeat split; auto; try apply S1; try apply S2. rewrite (pr_pos _ _ _ _ _ _ H1), (pr_pos _ _ _ _ _ _ H2). intros E. inversion E. lra.
Qed.

(** C29.  If some point of the segment lies in the half plane, clipping returns the two ends of
    exactly the part of the segment in the half plane. *)
Theorem C29_clip :
  forall va vb n off, (exists q, on_segment va vb q /\ half_plane n off q) ->
    exists c0 c1, clip_segment_to_line va vb n off = [c0; c1] /\
      forall q, on_segment c0 c1 q <-> on_segment va vb q /\ half_plane n off q.
Proof. intros va vb n off H. apply clip_two. now apply segment_meets. Qed.
Print Assumptions C29_clip.
Example C29_case : exists q, on_segment (-1, 0) (3, 2) q /\ half_plane (1, 0) 0 q.
Proof. exists (1, 1). split; [exists (1/2); split; [lra|unfold along; cbn; apply f_equal2; field]|unfold half_plane; cbn; lra]. Qed.
(** Finding: otherwise it does not return the empty list but one point, which is outside the segment:
    where the extended line crosses the boundary, if it does. *)
Theorem C29_outside_refuted :
  forall va vb n off,
    ~ (exists q, on_segment va vb q /\ half_plane n off q) ->
    (fst n * (fst vb - fst va) + snd n * (snd vb - snd va) <> 0) ->
    exists c t, clip_segment_to_line va vb n off = [c] /\ c = along va vb t /\ ~ (0 <= t <= 1) /\
                fst n * fst c + snd n * snd c + off = 0.
Proof.
  intros va vb n off H D. assert (A : pd n off va < 0) by (apply Rnot_le_lt; intros L; apply H; apply segment_meets; now left).
  assert (B : pd n off vb < 0) by (apply Rnot_le_lt; intros L; apply H; apply segment_meets; now right).
  apply clip_one; auto. unfold pd, v2dot. rnum. intros E. apply D. lra.
Qed.
Print Assumptions C29_outside_refuted.
Example C29_outside_case :
  ~ (exists q, on_segment (-3, 0) (-1, 2) q /\ half_plane (1, 0) 0 q) /\
  fst ((1, 0) : pt) * (fst ((-1, 2) : pt) - fst ((-3, 0) : pt)) + snd ((1, 0) : pt) * (snd ((-1, 2) : pt) - snd ((-3, 0) : pt)) <> 0.
Proof.
  split; [|cbn; lra]. intros (q & (t & Ht & ->) & Hq). unfold half_plane, along in Hq. cbn in Hq. lra.
Qed.

(** C30.  Every contact of two polygons lies on the line of an edge of one of them (the reference
    edge), whose outward normal (up to the sign convention) is the contact normal ... *)
Theorem C30_reference_line :
  forall b1 b2 eps ps b1' b2' n p1 p2 pen,
    b_verts b1 <> [] -> b_verts b2 <> [] -> proper_edges (b_verts b1) -> proper_edges (b_verts b2) ->
    hull_hull b1 b2 eps = Ok (ps, b1', b2') -> In (n, p1, p2, pen) ps ->
    (exists a c, In (a, c) (edges (b_verts b1)) /\ on_line a c p1 /\ n = v2opp (outward a c)) \/
    (exists a c, In (a, c) (edges (b_verts b2)) /\ on_line a c p2 /\ n = outward a c).
Proof.
  intros b1 b2 eps ps b1' b2' n p1 p2 pen N1 N2 P1 P2 H Hin.
  assert (L1 : (0 < length (b_verts b1))%nat) by (destruct (b_verts b1); [congruence|cbn; lia]). assert (L2 : (0 < length (b_verts b2))%nat) by (destruct (b_verts b2); [congruence|cbn; lia]).
  destruct (hull_hull_points _ _ _ _ _ _ _ _ _ _ L1 L2 H Hin) as [(i & d & F & -> & _)|(i & d & F & -> & _)]; [left|right].
  - destruct (face_point_line _ _ _ _ _ _ _ P1 F) as [A B]. destruct F as (Hi & _).
    eexists; eexists; (split; [apply (edge_at_In _ i Hi)|split; [exact A|now rewrite B]]).
  - destruct (face_point_line _ _ _ _ _ _ _ P2 F) as [A B]. destruct F as (Hi & _).
    eexists; eexists; (split; [apply (edge_at_In _ i Hi)|split; [exact A|now rewrite B]]).
Qed.
Print Assumptions C30_reference_line.
(** ... and on the edge itself, if the reference polygon's vertices are equally far from its centre:
    every rectangle, regular polygon, polygon inscribed in a circle around the centroid. *)
Theorem C30_reference_edge :
  forall b1 b2 eps ps b1' b2' n p1 p2 pen,
    strictly_convex (b_verts b1) -> strictly_convex (b_verts b2) -> 0 < area (b_verts b1) -> 0 < area (b_verts b2) ->
    inscribed (b_verts b1) -> inscribed (b_verts b2) ->
    hull_hull b1 b2 eps = Ok (ps, b1', b2') -> In (n, p1, p2, pen) ps ->
    (exists a c, In (a, c) (edges (b_verts b1)) /\ on_segment a c p1) \/
    (exists a c, In (a, c) (edges (b_verts b2)) /\ on_segment a c p2).
Proof.
  intros b1 b2 eps ps b1' b2' n p1 p2 pen S1 S2 A1 A2 I1 I2 H Hin.
  assert (L1 : (0 < length (b_verts b1))%nat) by (destruct S1 as (_ & L & _); lia). assert (L2 : (0 < length (b_verts b2))%nat) by (destruct S2 as (_ & L & _); lia).
  pose proof (strictly_proper _ S1). pose proof (strictly_proper _ S2). pose proof (strictly_convex_convex _ S1). pose proof (strictly_convex_convex _ S2).
  destruct (hull_hull_points _ _ _ _ _ _ _ _ _ _ L1 L2 H Hin) as [(i & d & F & -> & _)|(i & d & F & -> & _)]; [left|right].
  - exists (vert (b_verts b1) i), (next_vert (b_verts b1) i). split; [destruct F as (Hi & _); apply (edge_at_In _ i Hi)|]. apply (face_point_segment b1 b2 eps i p1 p2 d); auto.
  - exists (vert (b_verts b2) i), (next_vert (b_verts b2) i). split; [destruct F as (Hi & _); apply (edge_at_In _ i Hi)|]. apply (face_point_segment b2 b1 eps i p2 p1 d); auto.
Qed.
Print Assumptions C30_reference_edge.
Example C30_case : exists b1 b2 ps b1' b2' n p1 p2 pen,
  strictly_convex (b_verts b1) /\ strictly_convex (b_verts b2) /\ 0 < area (b_verts b1) /\ 0 < area (b_verts b2) /\
  inscribed (b_verts b1) /\ inscribed (b_verts b2) /\ hull_hull b1 b2 (1/10) = Ok (ps, b1', b2') /\ In (n, p1, p2, pen) ps.
Proof.
  destruct (rect_ex 0 0 0 2 2) as (b1 & H1); [lra|lra|]. destruct (rect_ex 1 1 1 4 2) as (b2 & H2); [lra|lra|]. exists b1, b2.
  destruct (plain_convex _ _ _ _ _ _ H1) as [S1 J1]; [lra|lra|]. destruct (plain_convex _ _ _ _ _ _ H2) as [S2 J2]; [lra|lra|].
  destruct (plain_manageable _ _ _ _ _ _ H1) as (U1 & _ & B1 & _); [lra|lra|]. destruct (plain_manageable _ _ _ _ _ _ H2) as (U2 & _ & B2 & _); [lra|lra|].
  pose proof (plain_circle _ _ _ _ _ _ H1) as C1. pose proof (plain_circle _ _ _ _ _ _ H2) as C2.
  pose proof (plain_verts _ _ _ _ _ _ H1) as V1. pose proof (plain_verts _ _ _ _ _ _ H2) as V2.
  destruct (hull_hull_total b1 b2 (1/10) U1 U2 C1 C2 S1 S2 B1 B2) as ([[ps b1'] b2'] & E). exists ps, b1', b2'.
  assert (P : ps <> []).
  { eapply (hull_hull_overlap b1 b2 (1/10) (1, 1)); eauto; [lra| |].
    - apply polygon_points; auto. rewrite V1, (pr_pos _ _ _ _ _ _ H1). exists [1; 0; 0; 0]. split; [reflexivity|]. split; [repeat constructor; lra|]. split; [cbn; lra|]. unfold wsum, corners. v2unfold. cbn. split; lra.
    - apply polygon_points; auto. rewrite V2, (pr_pos _ _ _ _ _ _ H2). exists [1/2; 0; 1/2; 0]. split; [reflexivity|]. split; [repeat constructor; lra|]. split; [cbn; lra|]. unfold wsum, corners. v2unfold. cbn. split; lra. }
  destruct ps as [|[[[n p1] p2] pen] ps]; [congruence|]. exists n, p1, p2, pen.
  rewrite V1, V2, !corners_area. rewrite <- V1, <- V2. repeat split; auto; try apply S1; try apply S2; try lra. now left.
Qed.
(** Finding: for a general convex hull the point may lie far outside the reference edge.  Two
    overlapping triangles; the second contact is on the line of the edge (4,0)-(6,6) of body 0, at a
    point with y = -4.2. *)
Open Scope float_scope.
Definition two_hulls (vs1 : list (v2 float)) (x : float) (vs2 : list (v2 float)) : res (world float) :=
  do h1 <- hull_init 0 (0, 0) vs1 [0; 0; 0] 1 0.5 0.5 0.125;
  do h2 <- hull_init 1 (x, 0) vs2 [0; 0; 0] 1 0.5 0.5 0.125;
  world_init pair_oracle (diff_handler 18 pair_oracle) [] [h1; h2] [] 0.125 0.125 0x1p-20 2 false false.
Theorem C30_general_hull_refuted :
  exists w, two_hulls [(4, 0); (6, 6); (-10, -6)] 1 [(1, 1); (-2, 6); (1, -7)] = Ok w /\
    (match w_bodies w, w_contacts w with
     | b :: _, [c; c'] =>
         (** the reference edge, from (4,0) to (6,6), and its outward normal (6,-2)/|(6,-2)| *)
         (fst (vert (b_verts b) 0) =? 4) && (snd (vert (b_verts b) 0) =? 0) &&
         (fst (vert (b_verts b) 1) =? 6) && (snd (vert (b_verts b) 1) =? 6) &&
         (fst (c_normal c') <? -0.9375) && (0.3125 <? snd (c_normal c')) &&
         (** and a contact point below both ends *)
         (snd (c_p1 c') <? -4)
     | _, _ => false
     end = true)%bool.
Proof. apply res_check_ok. vm_compute. reflexivity. Qed.
Print Assumptions C30_general_hull_refuted.
Close Scope float_scope.

(** C31.  For affinely independent points get_closest succeeds and returns the nearest point of
    their convex hull; that point is a mean, with positive weights, of exactly the points ids_used
    names, and all three are used only if the query point itself is inside. *)
Theorem C31_closest :
  forall p vs, independent vs ->
    exists q ids, get_closest p vs = Ok (q, ids) /\ nearest vs p q /\
      inner_mean (map (fun k => nth k vs (0, 0)) ids) q /\ NoDup ids /\ Forall (fun k => (k < length vs)%nat) ids /\
      (length ids = 3%nat -> q = p).
Proof.
  intros p vs H. destruct (closest_independent p vs H) as (q & ids & E & A & B & C & D & F). exists q, ids. repeat split; auto; try apply A.
  intros L. destruct C as [C|[C|[_ C]]]; [lia|lia|exact C].
Qed.
Print Assumptions C31_closest.
Example C31_case : independent [(0, 0); (4, 0); (0, 3)] /\ independent [(0, 0); (4, 0)] /\ independent [(1, 2)].
Proof. cbn. unfold tri2, det2. cbn. repeat split; [lra|]. intros E. inversion E. lra. Qed.

(** C32.  Whatever vertex random.choice starts from: if the nearest-point loop returns, its point is
    the nearest point of the hull (so the same for every start) ... *)
Theorem C32_nearest :
  forall fuel p vs start q ids,
    NoDup vs -> (start < length vs)%nat -> gjk fuel p vs [start] = Ok (q, ids) -> nearest vs p q.
Proof. intros fuel p vs start q ids Hn Hs H. exact (proj1 (gjk_ok fuel p vs [start] q ids Hn (start_ok _ _ Hs) H)). Qed.
Print Assumptions C32_nearest.
Theorem C32_nearest_unique : forall vs p q q', nearest vs p q -> nearest vs p q' -> q = q'.
Proof. exact nearest_unique. Qed.
Print Assumptions C32_nearest_unique.
(** ... and the callback's result is the same, contacts and bodies, for every outcome of the random
    choice (any two oracles) and any bound on the loop, if the circle's centre is outside the polygon
    or on none of its edges and diagonals. *)
Theorem C32_choice_irrelevant :
  forall fuel fuel' o o' eps clk bs i1 i2 b1 b2 r r',
    nth_error bs i1 = Some b1 -> nth_error bs i2 = Some b2 ->
    (is_circle b1 = true -> is_circle b2 = false ->
       NoDup (b_verts b2) /\ (~ in_hull (b_verts b2) (rel b1 b2) \/ off_chords (b_verts b2) (rel b1 b2))) ->
    (is_circle b1 = false -> is_circle b2 = true ->
       NoDup (b_verts b1) /\ (~ in_hull (b_verts b1) (rel b2 b1) \/ off_chords (b_verts b1) (rel b2 b1))) ->
    diff_handler fuel o eps clk bs i1 i2 = Ok r -> diff_handler fuel' o' eps clk bs i1 i2 = Ok r' -> r = r'.
Proof. exact diff_handler_choice. Qed.
Print Assumptions C32_choice_irrelevant.
Example C32_case : exists w b1 b2 r r' (o o' : oracle R),
  w_bodies w = [b1; b2] /\ is_circle b1 = false /\ is_circle b2 = true /\
  NoDup (b_verts b1) /\ off_chords (b_verts b1) (rel b2 b1) /\ o_choice o 0%nat 4%nat <> o_choice o' 0%nat 4%nat /\
  diff_handler 18%nat o (w_eps w) 0%nat (w_bodies w) 0%nat 1%nat = Ok r /\ diff_handler 18%nat o' (w_eps w) 0%nat (w_bodies w) 0%nat 1%nat = Ok r'.
Proof.
  destruct (rect_ex 0 0 0 2 2) as (b1 & H1); [lra|lra|]. set (b2 := ball 1 (3/2) 0 (1/2)).
  assert (M1 : manageable 18 b1) by (eapply plain_manageable; eauto; lra). assert (M2 : manageable 18 b2) by (apply ball_manageable; lra).
  destruct (two_world b1 b2) as (w & Hs & Hb & He & _); [eapply plain_available; eauto|apply ball_available|auto|auto|].
  destruct (two_world_nth _ _ _ Hb) as (a1 & a2 & Ew & S1 & S2).
  set (oc := fun n : nat => {| o_collide := o_collide (@pair_oracle R); o_narrow := o_narrow (@pair_oracle R); o_choice := fun _ _ => n |}).
  destruct (plain_convex _ _ _ _ _ _ H1) as [Sc Ins]; [lra|lra|]. pose proof (plain_circle _ _ _ _ _ _ H1) as Cb. pose proof (plain_verts _ _ _ _ _ _ H1) as Vb.
  pose proof (still_shape _ _ S1) as (_ & P1 & D1 & _ & V1 & _). pose proof (still_shape _ _ S2) as (_ & P2 & D2 & _).
  destruct (diff_handler_total 18 (oc 0%nat) (w_eps w) 0%nat [a1; a2] 0%nat 1%nat a1 a2 eq_refl eq_refl (still_manageable _ _ _ S1 M1) (still_manageable _ _ _ S2 M2)) as (r & Er).
  destruct (diff_handler_total 18 (oc 1%nat) (w_eps w) 0%nat [a1; a2] 0%nat 1%nat a1 a2 eq_refl eq_refl (still_manageable _ _ _ S1 M1) (still_manageable _ _ _ S2 M2)) as (r' & Er').
  exists w, a1, a2, r, r', (oc 0%nat), (oc 1%nat). rewrite Ew. split; [reflexivity|]. split; [congruence|]. split; [rewrite <- D2; reflexivity|].
  split; [rewrite <- V1; apply Sc|]. split; [|split; [cbn; lia|split; [exact Er|exact Er']]].
  intros u v Hu Hv (t & Ht & E). rewrite <- V1 in Hu, Hv. assert (B : forall z, In z (b_verts b1) -> fst z <= 1).
  { intros z Hz. rewrite Vb in Hz. unfold corners in Hz. repeat (destruct Hz as [<-|Hz]; [cbn; lra|]). destruct Hz. }
  apply (f_equal fst) in E. unfold rel, along in E. rewrite <- P1, <- P2, (pr_pos _ _ _ _ _ _ H1) in E. cbn in E. pose proof (B u Hu). pose proof (B v Hv). nra.
Qed.
(** Finding: with the centre on a diagonal the contact does depend on the random choice: starting at
    vertex 0 the penetration is reported as about 1, starting at vertex 1 as 2. *)
Open Scope float_scope.
Theorem C32_diagonal_refuted :
  exists w w' c c', circle_on_box 0 1 1 = Ok w /\ circle_on_box 1 1 1 = Ok w' /\
    w_contacts w = [c] /\ w_contacts w' = [c'] /\ ((c_pen c <? 1.0625) && (1.9375 <? c_pen c'))%bool = true.
Proof.
  do 4 eexists. split; [vm_compute; reflexivity|]. split; [vm_compute; reflexivity|]. split; [vm_compute; reflexivity|]. split; [vm_compute; reflexivity|]. vm_compute. reflexivity.
Qed.
Print Assumptions C32_diagonal_refuted.
Close Scope float_scope.

(** C52.  After any history world.contacts is exactly what the callback reports for the pairs of the
    broad phase in the bodies' current poses: detection was run after the last movement.  For every
    callback that leaves the bodies alone, engine and arithmetic. *)
Theorem C52_contacts_current :
  forall (T : Type) (N : Num T) fuel (o : oracle T) (hd : handler T) (e : engine T) heap bodies constraints dt eps tol
         fric_dirs ps st w0 ops w,
    handler_frame hd -> world_init o hd heap bodies constraints dt eps tol fric_dirs ps st = Ok w0 ->
    exec fuel o hd e ops w0 = Ok w -> contacts_current o hd w.
Proof. intros T N fuel o hd e heap bodies cons dt eps tol fd ps st w0 ops w Hf H0 Hx. eapply exec_current; [exact Hf| |exact Hx]. eapply init_current; eauto. Qed.
Print Assumptions C52_contacts_current.
Theorem C52_default_callbacks :
  forall (T : Type) (N : Num T) fuel (o : oracle T), handler_frame (diff_handler fuel o) /\ handler_frame (ode_handler o).
Proof. intros. split; [apply diff_handler_frame|apply ode_handler_frame]. Qed.
Print Assumptions C52_default_callbacks.
Example C52_case : exists w0 w,
  ex_init false = Ok w0 /\ exec 2 pair_oracle ex_hd free_engine [OStep false] w0 = Ok w /\ w_contacts w0 = [] /\ w_contacts w <> [].
Proof.
  exists (exw false 0 0 [] 1), (exw false (0 + 4 * (1 / 2 / 2)) (0 + 1 / 2 / 2) [exc (0 + 4 * (1 / 2 / 2))] 3).
  split; [apply ex_init_ok|]. split; [|split; [reflexivity|discriminate]].
  destruct (ex_step_dt false 2 ltac:(lia)) as (w & E & ->). cbn [exec]. unfold step. change (w_dt (exw false 0 0 [] 1)) with (1 / 2). rewrite E. reflexivity.
Qed.

(** C53.  Detection never raises and the nearest-point loop ends after at most n^2+2 rounds (n: number
    of vertices), for bodies carried through any history that are circles or strictly convex polygons
    and smaller than 10^9; in every pose, overlapping or not. *)
Theorem C53_detection_total :
  forall fuel o (w : world R),
    broadphase_sane o ->
    (forall b, In b (w_bodies w) -> reachable_body b /\ tidy b /\ in_range b /\ (gjk_rounds b <= fuel)%nat) ->
    exists w', find_contacts o (diff_handler fuel o) w = Ok w'.
Proof.
  intros fuel o w Ho Hb. apply find_contacts_total; auto. apply Forall_forall. intros b Hin. destruct (Hb b Hin) as (A & B & C & D).
  split; [now apply reachable_supported|auto].
Qed.
Print Assumptions C53_detection_total.
Theorem C53_nearest_point_terminates :
  forall vs p start fuel,
    strictly_convex vs -> (forall d, exists r, get_support vs d = Ok r) ->
    (start < length vs)%nat -> (length vs * length vs + 2 <= fuel)%nat -> exists r, gjk fuel p vs [start] = Ok r.
Proof. intros vs p start fuel Hs Hg. apply gjk_total; auto using strictly_no_collinear. apply Hs. Qed.
Print Assumptions C53_nearest_point_terminates.
Example C53_case : exists w : world R,
  broadphase_sane (@pair_oracle R) /\ length (w_bodies w) = 2%nat /\
  (forall b, In b (w_bodies w) -> reachable_body b /\ tidy b /\ in_range b /\ (gjk_rounds b <= 18)%nat).
Proof.
  destruct (rect_ex 0 0 0 2 2) as (b1 & H1); [lra|lra|]. set (b2 := ball 1 (3/2) 0 (1/2)).
  assert (M1 : manageable 18 b1) by (eapply plain_manageable; eauto; lra). assert (M2 : manageable 18 b2) by (apply ball_manageable; lra).
  destruct (two_world b1 b2) as (w & Hs & Hb & He & _); [eapply plain_available; eauto|apply ball_available|auto|auto|].
  destruct (two_world_nth _ _ _ Hb) as (a1 & a2 & Ew & S1 & S2). exists w. split; [apply pair_sane|]. split; [now rewrite Ew|].
  intros b Hin. split; [eapply simulated_reachable; eauto|]. rewrite Ew in Hin. destruct Hin as [<-|[<-|[]]].
  - apply (still_manageable _ _ _ S1 M1).
  - apply (still_manageable _ _ _ S2 M2).
Qed.

(** C54.  No collision is missed: after any history, two bodies that touch (a circle and anything
    within eps; two polygons sharing a point) and were not excluded have a contact, if circles have
    non-negative radius and polygons are strictly convex with, for pairs of polygons, equally distant
    vertices (every Rect). *)
Theorem C54_touching_bodies_have_contact :
  forall gf o w i j b1 b2,
    simulated gf o w -> broadphase_complete o -> i <> j ->
    nth_error (w_bodies w) i = Some b1 -> nth_error (w_bodies w) j = Some b2 -> padded w b1 b2 ->
    ~ excluded b1 b2 -> ~ excluded b2 b1 -> tidy b1 -> tidy b2 ->
    (is_circle b1 = false -> is_circle b2 = false -> inscribed (b_verts b1) /\ inscribed (b_verts b2)) ->
    touching (w_eps w) b1 b2 ->
    exists c, In c (w_contacts w) /\ joins c i j.
Proof.
  intros gf o w i j b1 b2 Hw Hc Hij H1 H2 Hp X1 X2 T1 T2 Hi Ht. pose proof Hp as (_ & _ & _ & _ & (He & _)).
  eapply (current_touching gf o w i j b1 b2); eauto using simulated_current.
  assert (Q : exists q1 q2, body_points b1 q1 /\ body_points b2 q2 /\ dist q1 q2 <= w_eps w).
  { unfold touching in Ht. destruct (_ || _)%bool; [exact Ht|]. destruct Ht as (q & P1 & P2). exists q, q. split; [auto|]. split; [auto|].
    unfold dist. replace (_ + _) with 0 by ring. rewrite sqrt_0. exact He. }
  destruct Q as (q1 & q2 & P1 & P2 & D). eapply simulated_pair; eauto.
Qed.
Print Assumptions C54_touching_bodies_have_contact.
(** Rects qualify, whatever happened to them *)
Theorem C54_rects_qualify :
  forall b d vs l, reachable_body b -> b_kind b = KRect d vs l -> 0 < fst d -> 0 < snd d ->
    tidy b /\ inscribed (b_verts b) /\ solid b.
Proof.
  intros b d vs l Hr Hk H1 H2. destruct (rect_tidy b d vs l Hr Hk H1 H2) as [A B]. split; [unfold tidy, is_circle; rewrite Hk; exact A|]. split; [exact B|].
  unfold solid. rewrite Hk. auto.
Qed.
Print Assumptions C54_rects_qualify.
Example C54_case : exists w b1 b2,
  simulated 18 pair_oracle w /\ broadphase_complete (@pair_oracle R) /\
  nth_error (w_bodies w) 0 = Some b1 /\ nth_error (w_bodies w) 1 = Some b2 /\ padded w b1 b2 /\
  ~ excluded b1 b2 /\ ~ excluded b2 b1 /\ tidy b1 /\ tidy b2 /\ is_circle b1 = false /\ is_circle b2 = true /\ touching (w_eps w) b1 b2.
Proof.
  destruct box_ball as (w & a1 & a2 & Hs & Hb & He & Hp & Hr & X1 & X2 & T1 & T2 & C1 & C2 & Ht). exists w, a1, a2. rewrite Hb.
  split; [exact Hs|]. split; [apply pair_complete|]. split; [reflexivity|]. split; [reflexivity|]. tauto.
Qed.
Lemma box_box : exists w a1 a2, simulated 18 pair_oracle w /\ w_bodies w = [a1; a2] /\ padded w a1 a2 /\ ~ excluded a1 a2 /\ ~ excluded a2 a1 /\
  tidy a1 /\ tidy a2 /\ is_circle a1 = false /\ is_circle a2 = false /\ inscribed (b_verts a1) /\ inscribed (b_verts a2) /\ touching (w_eps w) a1 a2.
Proof.
  destruct (rect_ex 0 0 0 2 2) as (b1 & H1); [lra|lra|]. destruct (rect_ex 1 1 1 4 2) as (b2 & H2); [lra|lra|].
  destruct (two_world b1 b2) as (w & Hs & Hb & He & _); [eapply plain_available; eauto|eapply plain_available; eauto|eapply plain_manageable; eauto; lra|eapply plain_manageable; eauto; lra|].
  destruct (two_world_nth _ _ _ Hb) as (a1 & a2 & Ew & S1 & S2). exists w, a1, a2.
  pose proof (still_shape _ _ S1) as (I1 & P1 & D1 & R1 & V1 & G1). pose proof (still_shape _ _ S2) as (I2 & P2 & D2 & R2 & V2 & G2).
  destruct (plain_convex _ _ _ _ _ _ H1) as [Sc1 Ins1]; [lra|lra|]. destruct (plain_convex _ _ _ _ _ _ H2) as [Sc2 Ins2]; [lra|lra|].
  pose proof (plain_circle _ _ _ _ _ _ H1) as C1. pose proof (plain_circle _ _ _ _ _ _ H2) as C2.
  pose proof (plain_verts _ _ _ _ _ _ H1) as W1. pose proof (plain_verts _ _ _ _ _ _ H2) as W2.
  split; [exact Hs|]. split; [exact Ew|].
  split; [unfold padded; rewrite He, <- (still_eps _ _ S1), <- (still_eps _ _ S2), (pr_eps _ _ _ _ _ _ H1), (pr_eps _ _ _ _ _ _ H2); split; [apply (still_solid _ _ S1); unfold solid; rewrite (pr_kind _ _ _ _ _ _ H1); cbn; lra|]; split; [apply (still_solid _ _ S2); unfold solid; rewrite (pr_kind _ _ _ _ _ _ H2); cbn; lra|]; lra|].
  split; [unfold excluded; rewrite <- G2, (pr_nc _ _ _ _ _ _ H2); cbn; tauto|]. split; [unfold excluded; rewrite <- G1, (pr_nc _ _ _ _ _ _ H1); cbn; tauto|].
  split; [apply (still_tidy _ _ S1); unfold tidy; now rewrite C1|]. split; [apply (still_tidy _ _ S2); unfold tidy; now rewrite C2|].
  split; [congruence|]. split; [congruence|]. rewrite <- V1, <- V2. split; [exact Ins1|]. split; [exact Ins2|].
  apply (still_touching _ b1 a1 b2 a2); auto. unfold touching. rewrite C1, C2. cbn [orb]. exists (1, 1). split; apply polygon_points; auto.
  - rewrite W1, (pr_pos _ _ _ _ _ _ H1). exists [1; 0; 0; 0]. split; [reflexivity|]. split; [repeat constructor; lra|]. split; [cbn; lra|]. unfold wsum, corners. v2unfold. cbn. split; lra.
  - rewrite W2, (pr_pos _ _ _ _ _ _ H2). exists [1/2; 0; 1/2; 0]. split; [reflexivity|]. split; [repeat constructor; lra|]. split; [cbn; lra|]. unfold wsum, corners. v2unfold. cbn. split; lra.
Qed.
Example C54_rect_case : exists w b1 b2,
  simulated 18 pair_oracle w /\ broadphase_complete (@pair_oracle R) /\
  nth_error (w_bodies w) 0 = Some b1 /\ nth_error (w_bodies w) 1 = Some b2 /\ padded w b1 b2 /\
  ~ excluded b1 b2 /\ ~ excluded b2 b1 /\ tidy b1 /\ tidy b2 /\ inscribed (b_verts b1) /\ inscribed (b_verts b2) /\
  is_circle b1 = false /\ is_circle b2 = false /\ touching (w_eps w) b1 b2.
Proof.
  destruct box_box as (w & a1 & a2 & Hs & Hb & H). exists w, a1, a2. rewrite Hb. split; [exact Hs|]. split; [apply pair_complete|]. split; [reflexivity|]. split; [reflexivity|]. tauto.
Qed.
(** Finding: for general convex hulls collisions are missed.  Two triangles that share the point
    (2.75, 2.125), more than 1 inside both, in a world with eps = 0.125: no contact. *)
Open Scope float_scope.
(** signed distance from the line a b, positive inside *)
Definition depth (a b q : v2 float) : float :=
  ((fst b - fst a) * (snd q - snd a) - (snd b - snd a) * (fst q - fst a)) /
  sqrt ((fst b - fst a) * (fst b - fst a) + (snd b - snd a) * (snd b - snd a)).
Definition deep_inside (b : body float) (q : v2 float) (d : float) : bool :=
  match map (fun v => v2add v (b_pos b)) (b_verts b) with
  | [u; v; w] => (d <? depth u v q) && (d <? depth v w q) && (d <? depth w u q)
  | _ => false
  end.
Theorem C54_general_hull_refuted :
  exists w, two_hulls [(4, 1); (4, 6); (-8, -7)] 5 [(-3, 6); (-5, 3); (8, -9)] = Ok w /\
    (forallb (fun b => deep_inside b (2.75, 2.125) 1) (w_bodies w) &&
     Nat.eqb (length (w_bodies w)) 2 && Nat.eqb (length (w_contacts w)) 0)%bool = true.
Proof. apply res_check_ok. vm_compute. reflexivity. Qed.
Print Assumptions C54_general_hull_refuted.
Close Scope float_scope.
