(** Strict worlds: true overlaps at the states between calls, and on the way from one to the next *)
From Coq Require Import List Arith ZArith Bool Reals Lra Lia Psatz.
From Verif Require Import Num Tensor Utils Bodies Forces Constraints Contacts World Lapack Pdipm Lcp Engines Spec GeoSpec BodySpec JointSpec FreshSpec EngineSpec ContactSpec RewindSpec StrictSpec
     RBase ResFacts LinAlg LapackSpec KktSpec PdipmSpec BodyFacts WorldFacts HandlerFacts LayoutFacts HistFacts RigidFacts SysFacts RewindFacts JointFacts JeFacts FreshFacts TimeFacts
     CacheFacts BodyReach GeomFacts PdipmFacts PdipmLoop SolverFacts EngineFacts ContactSys EngineBalance ContactLaw EngineTotal PostFacts HeldFacts PlaneFacts SupportFacts SatFacts HellyFacts
     ContactFacts OverlapFacts CollideFacts FlightFacts EngineProps IndepFacts DriftFacts RunTotal StrictFacts OverlapCover ContactEx PropBody.
Import ListNotations.
Open Scope R_scope.

(** *** the same rigid motion at two times *)
Lemma rotate_add a b u : rotate a (rotate b u) = rotate (a + b) u.
Proof. unfold rotate. cbn [fst snd]. rewrite cos_plus, sin_plus. apply f_equal2; ring. Qed.
Lemma hull_rotate th vs u : in_hull vs u -> in_hull (map (rotate th) vs) (rotate th u).
Proof.
  intros (ws & L & F & S & X & Y). destruct (wsum_rotate th ws vs L) as [E1 E2]. exists ws. rewrite map_length. split; [exact L|]. split; [exact F|]. split; [exact S|].
  rewrite E1, E2, <- X, <- Y. unfold rotate. cbn [fst snd]. auto.
Qed.
Lemma move_shape (b : body R) dt : poly_wf b -> is_circle (move b dt) = is_circle b /\ (is_circle b = true -> b_rad (move b dt) = b_rad b) /\
  b_pos (move b dt) = v2add (b_pos b) (v2scale dt (snd (b_v b))) /\ b_verts (move b dt) = map (rotate (fst (b_v b) * dt)) (b_verts b).
Proof.
  intros W. set (p := v3add (b_p b) (v3scale dt (b_v b))). assert (Em : move b dt = set_p b p) by reflexivity. rewrite Em. destruct (set_p_verts b p W) as (_ & Ev & HC).
  assert (Et : fst p - b_rot b = fst (b_v b) * dt) by (unfold p, b_rot, v3add, v3scale; cbn; rnum; ring). rewrite Et in Ev.
  split; [|split; [|split; [|exact Ev]]].
  - unfold same_class in HC. unfold is_circle. destruct (b_kind b), (b_kind (set_p b p)); tauto.
  - unfold same_class in HC. unfold b_rad, is_circle. destruct (b_kind b), (b_kind (set_p b p)); tauto || discriminate.
  - unfold b_pos. rewrite set_p_p. reflexivity.
Qed.
Lemma scale_norm k (u : pt) : dist (v2scale k u) (0, 0) = Rabs k * dist u (0, 0).
Proof.
  unfold dist, v2scale. cbn [fst snd]. rnum. replace ((k * fst u - 0) * (k * fst u - 0) + (k * snd u - 0) * (k * snd u - 0)) with ((k * k) * ((fst u - 0) * (fst u - 0) + (snd u - 0) * (snd u - 0))) by ring.
  rewrite sqrt_mult_alt by nra. f_equal. replace (k * k) with (Rabs k * Rabs k) by (rewrite <- Rabs_mult; apply Rabs_pos_eq; nra). apply sqrt_square, Rabs_pos.
Qed.
Lemma moved_between (b : body R) s t q : poly_wf b -> body_points (move b s) q ->
  exists q' q0, body_points (move b t) q' /\ body_points b q0 /\ dist q q' <= Rabs (s - t) * (dist (snd (b_v b)) (0, 0) + Rabs (fst (b_v b)) * dist q0 (b_pos b)).
Proof.
  intros W H. destruct (move_shape b s W) as (Cs & Rs & Ps & Vs). destruct (move_shape b t W) as (Ct & Rt & Pt & Vt). set (v := snd (b_v b)) in *. set (om := fst (b_v b)) in *.
  assert (Dv : dist (v2scale (s - t) v) (0, 0) = Rabs (s - t) * dist v (0, 0)) by apply scale_norm.
  destruct (is_circle b) eqn:C.
  - apply (circle_points _ _ Cs) in H. rewrite Ps, Rs in H by reflexivity. set (q' := v2sub q (v2scale (s - t) v)). exists q', (v2sub q (v2scale s v)).
    split; [|split].
    + apply circle_points; [exact Ct|]. rewrite Pt, Rt by reflexivity. replace (dist q' (v2add (b_pos b) (v2scale t v))) with (dist q (v2add (b_pos b) (v2scale s v))); [exact H|].
      unfold q', dist, v2sub, v2add, v2scale. cbn [fst snd]. rnum. f_equal. ring.
    + apply circle_points; [exact C|]. replace (dist (v2sub q (v2scale s v)) (b_pos b)) with (dist q (v2add (b_pos b) (v2scale s v))); [exact H|].
      unfold dist, v2sub, v2add. cbn [fst snd]. rnum. f_equal. ring.
    + assert (D : dist q q' = dist (v2scale (s - t) v) (0, 0)) by (unfold q', dist, v2sub; cbn [fst snd]; rnum; f_equal; ring).
      rewrite D, Dv. apply Rmult_le_compat_l; [apply Rabs_pos|]. set (x := dist _ (b_pos b)). assert (0 <= Rabs om * x) by (apply Rmult_le_pos; [apply Rabs_pos|apply dist_nonneg]). lra.
  - apply (polygon_points _ _ Cs) in H. rewrite Ps, Vs in H. apply hull_rotated in H. destruct H as (u & Hu & Eq).
    exists (v2add (rotate (om * t) u) (v2add (b_pos b) (v2scale t v))), (v2add u (b_pos b)). split; [|split].
    + apply polygon_points; [exact Ct|]. rewrite Pt, Vt, v2add_sub. now apply hull_rotate.
    + now apply hull_at.
    + assert (Eq' : q = v2add (rotate (om * s) u) (v2add (b_pos b) (v2scale s v))) by (rewrite <- Eq; symmetry; apply v2sub_add).
      rewrite Eq'. pose proof (dist_add (rotate (om * s) u) (v2add (b_pos b) (v2scale s v)) (rotate (om * t) u) (v2add (b_pos b) (v2scale t v))) as L.
      assert (D : dist (v2add (b_pos b) (v2scale s v)) (v2add (b_pos b) (v2scale t v)) = dist (v2scale (s - t) v) (0, 0)) by (unfold dist, v2add, v2scale; cbn [fst snd]; rnum; f_equal; ring).
      rewrite D, Dv in L. pose proof (rotate_shift (om * (s - t)) (rotate (om * t) u)) as Q. rewrite rotate_add, dist_rotate, Rabs_mult in Q.
      replace (om * (s - t) + om * t) with (om * s) in Q by ring.
      assert (Eu : dist (v2add u (b_pos b)) (b_pos b) = dist u (0, 0)) by (unfold dist, v2add; cbn [fst snd]; rnum; f_equal; ring). rewrite Eu. lra.
Qed.
Lemma overlap_between b1 b2 x y s t : poly_wf b1 -> poly_wf b2 -> overlap_at_most x (move b1 t) (move b2 t) ->
  (forall q, body_points b1 q -> dist (snd (b_v b1)) (0, 0) + Rabs (fst (b_v b1)) * dist q (b_pos b1) <= y) ->
  (forall q, body_points b2 q -> dist (snd (b_v b2)) (0, 0) + Rabs (fst (b_v b2)) * dist q (b_pos b2) <= y) ->
  overlap_at_most (x + 2 * y * Rabs (s - t)) (move b1 s) (move b2 s).
Proof.
  intros W1 W2 (n & U & H) S1 S2. exists n. split; [exact U|]. intros q1 q2 P1 P2.
  destruct (moved_between b1 s t q1 W1 P1) as (q1' & o1 & Q1 & O1 & D1). destruct (moved_between b2 s t q2 W2 P2) as (q2' & o2 & Q2 & O2 & D2).
  specialize (H q1' q2' Q1 Q2). pose proof (unit_dot n q2 q2' U) as A2. pose proof (unit_dot n q1' q1 U) as A1. rewrite dist_sym in A1.
  specialize (S1 o1 O1). specialize (S2 o2 O2). pose proof (Rabs_pos (s - t)) as P.
  pose proof (Rmult_le_compat_l _ _ _ P S1). pose proof (Rmult_le_compat_l _ _ _ P S2). lra.
Qed.
Lemma move_0 (b : body R) q : poly_wf b -> body_points (move b 0) q <-> body_points b q.
Proof.
  intros W. destruct (move_shape b 0 W) as (C & Rd & P & V). assert (P0 : b_pos (move b 0) = b_pos b) by (rewrite P; unfold v2add, v2scale; rnum; destruct (b_pos b); cbn [fst snd]; apply f_equal2; ring).
  rewrite Rmult_0_r, map_rotate_0 in V. destruct (is_circle b) eqn:Cb.
  - rewrite (circle_points _ _ C), (circle_points _ _ Cb), P0, Rd by reflexivity. tauto.
  - rewrite (polygon_points _ _ C), (polygon_points _ _ Cb), P0, V. tauto.
Qed.
Lemma overlap_move_0 x b1 b2 : poly_wf b1 -> poly_wf b2 -> overlap_at_most x b1 b2 -> overlap_at_most x (move b1 0) (move b2 0).
Proof. intros W1 W2 (n & U & H). exists n. split; [exact U|]. intros q1 q2 P1 P2. apply H; [now apply (move_0 b1)|now apply (move_0 b2)]. Qed.

(** *** at every state *)
Lemma strict_run_overlap gf o fuel e w i j b1 b2 : strict_run gf o fuel e w -> broadphase_complete o -> i <> j ->
  nth_error (w_bodies w) i = Some b1 -> nth_error (w_bodies w) j = Some b2 -> padded w b1 b2 -> ~ excluded b1 b2 -> ~ excluded b2 b1 -> tidy b1 -> tidy b2 ->
  measured (w_tol w) b1 b2 -> 0 <= w_tol w -> overlap_at_most (w_tol w) b1 b2.
Proof.
  intros (heap & bodies & cons & dt & eps & tol & fd & w0 & ops & Hb & H0 & Hx) Hc Hij H1 H2 Hp X1 X2 T1 T2 Hm Ht.
  assert (Rb : forall b, In b (w_bodies w) -> reachable_body b) by (intros b Hin; eapply RBworld; eauto; apply diff_handler_frame).
  assert (U1 : supported b1) by (apply reachable_supported; auto; apply Rb; eapply nth_error_In; eauto). assert (U2 : supported b2) by (apply reachable_supported; auto; apply Rb; eapply nth_error_In; eauto).
  pose proof Hp as (S1 & S2 & E1 & E2 & E3). destruct (apart_cover b1 b2 T1 T2 U1 U2) as [(q & P1 & P2)|O]; [|eapply overlap_le; eauto].
  eapply (current_cover gf o w i j b1 b2); eauto.
  - eapply exec_current; [apply diff_handler_frame| |exact Hx]. eapply init_current; [apply diff_handler_frame|exact H0].
  - eapply C11_no_pair_missed; eauto; [apply diff_handler_frame|tauto|]. rewrite (proj2 (dist_zero q q) eq_refl). apply E3.
  - tauto.
  - intros c Hin. pose proof (strict_no_penetration _ _ _ _ _ _ _ _ _ _ _ _ _ _ H0 Hx) as F. rewrite Forall_forall in F. specialize (F c Hin). cbv beta in F. rnum. apply Rleb_true in F.
    pose proof (exec_cfg _ _ _ _ _ _ _ Hx) as C. cfg_fields C. apply world_init_inv in H0. destruct H0 as (_ & _ & Et & _). rewrite Htol, Et. exact F.
Qed.

(** *** on the way *)
Lemma inscribed_rotate th vs : inscribed vs -> inscribed (map (rotate th) vs).
Proof.
  intros H p q He. rewrite edges_map in He. apply in_map_iff in He. destruct He as ([p' q'] & E & He). cbn [fst snd] in E. injection E as <- <-. specialize (H _ _ He).
  pose proof (sin2_cos2 th) as SC. unfold Rsqr in SC. unfold rotate. cbn [fst snd]. set (s := sin th) in *. set (k := cos th) in *.
  transitivity ((s * s + k * k) * (fst p' * fst p' + snd p' * snd p')); [ring|]. rewrite H. ring.
Qed.
Lemma tries_time o hd sp sr (w : world R) dt k w' dt' : tries o hd sp sr w dt k w' dt' -> w_t w' = w_t w.
Proof.
  induction 1 as [w dt w1 w2 E1 E2 Ha | w dt w1 w2 w3 k w' dt' E1 E2 En Eb E3 Ht IH].
  - apply move_all_inv in E1. destruct E1 as [js ->]. apply find_contacts_inv in E2. destruct E2 as (cs & bs & clk & ->). reflexivity.
  - rewrite IH. apply move_all_inv in E1. destruct E1 as [js ->]. apply find_contacts_inv in E2. destruct E2 as (cs & bs & clk & ->).
    apply rewind_inv in E3. destruct E3 as [js' ->]. reflexivity.
Qed.
Lemma exec_then fuel o hd e ops (w0 w : world R) d w' : exec fuel o hd e ops w0 = Ok w -> step_dt fuel o hd e w d = Ok w' -> exec fuel o hd e (ops ++ [OStepDt d]) w0 = Ok w'.
Proof.
  revert w0. induction ops as [|a ops IH]; intros w0; cbn [exec app]; [intros E H; inversion E; subst; rewrite H; reflexivity|].
  intros E H. destruct a; bind_inv E as x Ex; rewrite Ex; cbn [bind]; auto.
Qed.
Lemma move_v (b : body R) t : b_v (move b t) = b_v b.
Proof. unfold move, set_p. set (p := v3add _ _). clearbody p. destruct (b_kind b); cbn; try (match goal with |- context[Reqb ?a ?d] => destruct (Reqb a d) end); reflexivity. Qed.
Lemma step_alike (b b' : body R) v t : poly_wf b -> forget b' = forget (move (with_v b v) t) ->
  b_v b' = v /\ b_pos b' = v2add (b_pos b) (v2scale t (snd v)) /\ b_id b' = b_id b /\ g_no_contact (b_geom b') = g_no_contact (b_geom b) /\ is_circle b' = is_circle b /\ b_eps b' = b_eps b /\
  (is_circle b = true -> b_rad b' = b_rad b) /\ (solid b -> solid b') /\ (tidy b -> tidy b') /\ (inscribed (b_verts b) -> inscribed (b_verts b')) /\
  (forall q, body_points (move (with_v b v) t) q <-> body_points b' q).
Proof.
  intros W E. pose proof (still_shape _ _ (still_forget _ _ E)) as (Ei & Ep & Ec & Er & Ev & Eg). set (c := with_v b v) in *. assert (Wc : poly_wf c) by exact W.
  destruct (move_shape c t Wc) as (Mc & Mr & Mp & Mv). destruct (move_id c t) as [Mi Mg]. change (is_circle c) with (is_circle b) in *. change (b_rad c) with (b_rad b) in *. change (b_verts c) with (b_verts b) in *.
  split. { rewrite <- (forget_v b'), E, forget_v. apply move_v. }
  split; [rewrite Ep, Mp; reflexivity|]. split; [rewrite Ei, Mi; reflexivity|]. split; [rewrite Eg, Mg; reflexivity|]. split; [rewrite Ec; exact Mc|].
  split. { rewrite <- (forget_eps b'), E, forget_eps. unfold c, move, with_v, set_p. cbn [b_kind]. destruct (b_kind b); cbn; try (match goal with |- context[Reqb ?a ?d] => destruct (Reqb a d) end); reflexivity. }
  split; [intros C; rewrite Er, Mr; auto|]. split.
  { intros S. apply (still_solid (move c t)); [symmetry; now apply still_forget|]. destruct (set_p_verts c (v3add (b_p c) (v3scale t (b_v c))) Wc) as (_ & _ & HC). unfold move. unfold solid, same_class in *. change (b_kind b) with (b_kind c) in S.
    destruct (b_kind c), (b_kind (set_p c _)); try tauto; subst; exact S. }
  split. { unfold tidy. rewrite Ec, Mc, Ev, Mv. destruct (is_circle b) eqn:C; [rewrite Er, Mr; auto|]. apply convex_rotate. }
  split. { rewrite Ev, Mv. apply inscribed_rotate. }
  intros q. split; apply still_points; [|symmetry]; now apply still_forget.
Qed.
Lemma with_v_points (b : body R) v q : body_points (with_v b v) q <-> body_points b q.
Proof. reflexivity. Qed.
Lemma strict_run_step gf o fuel e w d w' : strict_run gf o fuel e w -> step_dt fuel o (diff_handler gf o) e w d = Ok w' ->
  strict_run gf o fuel e w' /\ w_tol w' = w_tol w /\ w_eps w' = w_eps w /\
  forall i b b', nth_error (w_bodies w) i = Some b -> nth_error (w_bodies w') i = Some b' -> poly_wf b /\ forget b' = forget (move (with_v b (b_v b')) (w_t w' - w_t w)).
Proof.
  intros (heap & bodies & cons & dt & eps & tol & fd & w0 & ops & Hb & H0 & Hx) H. split; [|split; [|split]].
  - exists heap, bodies, cons, dt, eps, tol, fd, w0, (ops ++ [OStepDt d]). split; [exact Hb|]. split; [exact H0|]. now apply (exec_then fuel o (diff_handler gf o) e ops w0 w).
  - pose proof (step_dt_cfg _ _ _ _ _ _ _ H) as C. now cfg_fields C.
  - pose proof (step_dt_cfg _ _ _ _ _ _ _ H) as C. now cfg_fields C.
  - assert (Rb : Forall reachable_body (w_bodies w)) by (rewrite Forall_forall; intros b Hin; eapply RBworld; eauto; apply diff_handler_frame).
    assert (Ps : w_post_stab w = false). { pose proof (exec_cfg _ _ _ _ _ _ _ Hx) as C. cfg_fields C. apply world_init_inv in H0. rewrite Hps. apply H0. }
    intros i b b' N N'. rewrite Forall_forall in Rb. pose proof (Rb b (nth_error_In _ _ N)) as Rb'. split; [now apply shape_poly_wf, reachable_shape|].
    assert (Rb2 : Forall reachable_body (w_bodies w)) by (rewrite Forall_forall; exact Rb).
    apply step_dt_moves in H; [|apply diff_handler_frame|rewrite Forall_forall; intros x Hx'; apply reachable_geom; auto].
    destruct H as (v & cache & k & w1 & w2 & Es & E1 & Htr & HM & _ & Hw' & _). specialize (Hw' Ps). subst w'. cbn [w_bodies w_t with_t with_state] in *.
    eapply nth_error_Forall2_l with (a := with_v b (v3_at v i)) in HM; [|unfold with_vs; rewrite mapi_nth, N; reflexivity]. destruct HM as (b'' & N'' & F). assert (b'' = b') by congruence. subst b''.
    assert (Et : w_t w2 = w_t w) by (rewrite (tries_time _ _ _ _ _ _ _ _ _ Htr); apply set_v_inv in E1; destruct E1 as [_ ->]; reflexivity).
    replace (w_t w2 + d / 2 ^ k - w_t w) with (d / 2 ^ k) by lra.
    assert (Ev : b_v b' = v3_at v i). { rewrite <- (forget_v b'), F, forget_v. apply move_v. }
    rewrite Ev. exact F.
Qed.
Lemma strict_run_between gf o fuel e w d w' i j b1 b2 b1' b2' y s : strict_run gf o fuel e w -> broadphase_complete o -> step_dt fuel o (diff_handler gf o) e w d = Ok w' -> i <> j ->
  nth_error (w_bodies w) i = Some b1 -> nth_error (w_bodies w) j = Some b2 -> nth_error (w_bodies w') i = Some b1' -> nth_error (w_bodies w') j = Some b2' ->
  padded w b1 b2 -> ~ excluded b1 b2 -> ~ excluded b2 b1 -> tidy b1 -> tidy b2 -> measured (w_tol w) b1 b2 -> 0 <= w_tol w ->
  0 <= s <= w_t w' - w_t w ->
  (forall q, body_points b1 q -> dist (snd (b_v b1')) (0, 0) + Rabs (fst (b_v b1')) * dist q (b_pos b1) <= y) ->
  (forall q, body_points b2 q -> dist (snd (b_v b2')) (0, 0) + Rabs (fst (b_v b2')) * dist q (b_pos b2) <= y) ->
  overlap_at_most (w_tol w + y * (w_t w' - w_t w)) (during b1 b1' s) (during b2 b2' s) /\
  (is_circle b1 = true -> is_circle b2 = true -> w_tol w <= b_rad b1 + b_rad b2 ->
    let rv := dist (snd (b_v b1')) (snd (b_v b2')) in
    (b_rad b1 + b_rad b2 - w_tol w) * (b_rad b1 + b_rad b2 - w_tol w) - s * (w_t w' - w_t w - s) * (rv * rv) <=
      dist (b_pos (during b1 b1' s)) (b_pos (during b2 b2' s)) * dist (b_pos (during b1 b1' s)) (b_pos (during b2 b2' s))).
Proof.
  intros Hw Hc H Hij N1 N2 N1' N2' Hp X1 X2 T1 T2 Hm Ht Hs Y1 Y2.
  pose proof (strict_run_overlap gf o fuel e w i j b1 b2 Hw Hc Hij N1 N2 Hp X1 X2 T1 T2 Hm Ht) as O.
  destruct (strict_run_step _ _ _ _ _ _ _ Hw H) as (Hw' & Etol & Eeps & Hmv). destruct (Hmv i b1 b1' N1 N1') as [W1 F1]. destruct (Hmv j b2 b2' N2 N2') as [W2 F2].
  set (tau := w_t w' - w_t w) in *. destruct (step_alike _ _ _ _ W1 F1) as (V1 & P1 & I1 & G1 & C1 & E1 & R1 & S1 & D1 & Q1 & B1). destruct (step_alike _ _ _ _ W2 F2) as (V2 & P2 & I2 & G2 & C2 & E2 & R2 & S2 & D2 & Q2 & B2).
  assert (Hp' : padded w' b1' b2') by (unfold padded in *; rewrite Eeps, E1, E2; intuition auto).
  assert (O' : overlap_at_most (w_tol w) b1' b2').
  { rewrite <- Etol. eapply (strict_run_overlap gf o fuel e w' i j); eauto.
    - unfold excluded in *. now rewrite I1, G2.
    - unfold excluded in *. now rewrite I2, G1.
    - unfold measured in *. rewrite Etol, C1, C2. destruct (is_circle b1) eqn:K1, (is_circle b2) eqn:K2; auto; [rewrite R1; auto|rewrite R2; auto|tauto].
    - rewrite Etol. exact Ht. }
  set (c1 := with_v b1 (b_v b1')) in *. set (c2 := with_v b2 (b_v b2')) in *. change (during b1 b1' s) with (move c1 s). change (during b2 b2' s) with (move c2 s).
  assert (A0 : overlap_at_most (w_tol w) (move c1 0) (move c2 0)) by (apply overlap_move_0; assumption).
  assert (A1 : overlap_at_most (w_tol w) (move c1 tau) (move c2 tau)).
  { destruct O' as (n & U & L). exists n. split; [exact U|]. intros q1 q2 Z1 Z2. apply L; [now apply B1|now apply B2]. }
  assert (Py : 0 <= y).
  { assert (Q : exists q, body_points b1 q).
    { unfold tidy in T1. destruct (is_circle b1) eqn:K; [exists (b_pos b1); apply circle_points; [exact K|rewrite (proj2 (dist_zero _ _) eq_refl); exact T1]|].
      destruct (b_verts b1) as [|u l] eqn:Eu; [destruct T1 as (_ & T1 & _); cbn in T1; lia|]. exists (v2add u (b_pos b1)). apply hull_at; [exact K|]. rewrite Eu. apply in_hull_vertex. now left. }
    destruct Q as (q & Hq). specialize (Y1 q Hq). pose proof (dist_nonneg (snd (b_v b1')) (0, 0)). pose proof (Rmult_le_pos _ _ (Rabs_pos (fst (b_v b1'))) (dist_nonneg q (b_pos b1))). lra. }
  split.
  - destruct (Rle_lt_dec s (tau / 2)) as [L|L].
    + eapply overlap_le; [|apply (overlap_between c1 c2 (w_tol w) y s 0 W1 W2 A0 Y1 Y2)]. rewrite Rminus_0_r, Rabs_pos_eq by lra. nra.
    + eapply overlap_le; [|apply (overlap_between c1 c2 (w_tol w) y s tau W1 W2 A1 Y1 Y2)]. rewrite Rabs_left1 by lra. nra.
  - intros K1 K2 Lt. cbv zeta. destruct (move_shape c1 s W1) as (_ & _ & M1 & _). destruct (move_shape c2 s W2) as (_ & _ & M2 & _). rewrite M1, M2.
    change (b_pos c1) with (b_pos b1). change (b_pos c2) with (b_pos b2). change (b_v c1) with (b_v b1'). change (b_v c2) with (b_v b2').
    unfold tidy in T1, T2. rewrite K1 in T1. rewrite K2 in T2. pose proof (circles_depth b1 b2 _ K1 K2 T1 T2 O) as Z0. rewrite <- C1 in K1. rewrite <- C2 in K2.
    pose proof (circles_depth b1' b2' _ K1 K2 ltac:(rewrite R1 by congruence; exact T1) ltac:(rewrite R2 by congruence; exact T2) O') as Z1. rewrite R1, R2 in Z1 by congruence. rewrite P1, P2 in Z1.
    set (A := b_rad b1 + b_rad b2 - w_tol w) in *. assert (L0 : A * A <= dist (b_pos b1) (b_pos b2) * dist (b_pos b1) (b_pos b2)) by (apply Rmult_le_compat; unfold A; lra).
    assert (L1 : A * A <= dist (v2add (b_pos b1) (v2scale tau (snd (b_v b1')))) (v2add (b_pos b2) (v2scale tau (snd (b_v b2')))) * dist (v2add (b_pos b1) (v2scale tau (snd (b_v b1')))) (v2add (b_pos b2) (v2scale tau (snd (b_v b2'))))) by (apply Rmult_le_compat; unfold A; lra).
    rewrite !StrictFacts.dist_sq in *. unfold v2add, v2scale in *. cbn [fst snd] in *. rnum. clearbody A.
    set (qx := fst (b_pos b1) - fst (b_pos b2)) in *. set (qy := snd (b_pos b1) - snd (b_pos b2)) in *. set (dx := fst (snd (b_v b1')) - fst (snd (b_v b2'))) in *. set (dy := snd (snd (b_v b1')) - snd (snd (b_v b2'))) in *.
    assert (Gx : forall z, fst (b_pos b1) + z * fst (snd (b_v b1')) - (fst (b_pos b2) + z * fst (snd (b_v b2'))) = qx + z * dx) by (intros; unfold qx, dx; ring).
    assert (Gy : forall z, snd (b_pos b1) + z * snd (snd (b_v b1')) - (snd (b_pos b2) + z * snd (snd (b_v b2'))) = qy + z * dy) by (intros; unfold qy, dy; ring).
    rewrite !Gx, !Gy in *. clearbody qx qy dx dy. destruct (Req_dec tau 0) as [Z|Z]; [assert (s = 0) by lra; subst s; nra|]. assert (Pt : 0 < tau) by lra.
    apply (Rmult_le_reg_l tau); [exact Pt|].
    assert (I : tau * ((qx + s * dx) * (qx + s * dx) + (qy + s * dy) * (qy + s * dy)) = (tau - s) * (qx * qx + qy * qy) + s * ((qx + tau * dx) * (qx + tau * dx) + (qy + tau * dy) * (qy + tau * dy)) - tau * (s * (tau - s) * (dx * dx + dy * dy))) by ring.
    rewrite I. assert (B0 : (tau - s) * (A * A) <= (tau - s) * (qx * qx + qy * qy)) by (apply Rmult_le_compat_l; lra).
    assert (B1' : s * (A * A) <= s * ((qx + tau * dx) * (qx + tau * dx) + (qy + tau * dy) * (qy + tau * dy))) by (apply Rmult_le_compat_l; lra). lra.
Qed.
Lemma strict_run_during gf o fuel e w d w' i b b' : strict_run gf o fuel e w -> step_dt fuel o (diff_handler gf o) e w d = Ok w' ->
  nth_error (w_bodies w) i = Some b -> nth_error (w_bodies w') i = Some b' ->
  (forall q, body_points (during b b' 0) q <-> body_points b q) /\ (forall q, body_points (during b b' (w_t w' - w_t w)) q <-> body_points b' q).
Proof.
  intros Hw H N N'. destruct (strict_run_step _ _ _ _ _ _ _ Hw H) as (_ & _ & _ & Hmv). destruct (Hmv i b b' N N') as [W F]. split.
  - intros q. apply (move_0 (with_v b (b_v b'))). exact W.
  - apply (step_alike _ _ _ _ W F).
Qed.
Lemma circle_speed (b : body R) (v : v3 R) q : is_circle b = true -> body_points b q -> dist (snd v) (0, 0) + Rabs (fst v) * dist q (b_pos b) <= dist (snd v) (0, 0) + Rabs (fst v) * b_rad b.
Proof. intros C Hq. apply circle_points in Hq; auto. apply Rplus_le_compat_l, Rmult_le_compat_l; [apply Rabs_pos|exact Hq]. Qed.
Lemma strict_run_circles gf o fuel e w d w' i j b1 b2 b1' b2' s : strict_run gf o fuel e w -> broadphase_complete o -> step_dt fuel o (diff_handler gf o) e w d = Ok w' -> i <> j ->
  nth_error (w_bodies w) i = Some b1 -> nth_error (w_bodies w) j = Some b2 -> nth_error (w_bodies w') i = Some b1' -> nth_error (w_bodies w') j = Some b2' ->
  padded w b1 b2 -> ~ excluded b1 b2 -> ~ excluded b2 b1 -> is_circle b1 = true -> is_circle b2 = true -> 0 <= w_tol w <= b_rad b1 + b_rad b2 -> 0 <= s <= w_t w' - w_t w ->
  let A := b_rad b1 + b_rad b2 - w_tol w in
  let D := dist (b_pos (during b1 b1' s)) (b_pos (during b2 b2' s)) in
  let u := dist (snd (b_v b1')) (snd (b_v b2')) in
  A * A - s * (w_t w' - w_t w - s) * (u * u) <= D * D.
Proof.
  intros Hw Hc H Hij N1 N2 N1' N2' Hp X1 X2 C1 C2 Ht Hs. cbv zeta.
  assert (SC : forall b, is_circle b = true -> solid b -> 0 <= b_rad b) by (intros b; unfold is_circle, solid, b_rad; destruct (b_kind b); try discriminate; lra).
  pose proof Hp as (S1 & S2 & _). pose proof (SC _ C1 S1) as R1. pose proof (SC _ C2 S2) as R2.
  set (z1 := dist (snd (b_v b1')) (0, 0) + Rabs (fst (b_v b1')) * b_rad b1). set (z2 := dist (snd (b_v b2')) (0, 0) + Rabs (fst (b_v b2')) * b_rad b2).
  assert (Z : forall (v : v3 R) r, 0 <= r -> 0 <= dist (snd v) (0, 0) + Rabs (fst v) * r). { intros v r Hr. pose proof (dist_nonneg (snd v) (0, 0)). pose proof (Rmult_le_pos _ _ (Rabs_pos (fst v)) Hr). lra. }
  pose proof (Z (b_v b1') _ R1) as Z1. pose proof (Z (b_v b2') _ R2) as Z2. fold z1 in Z1. fold z2 in Z2.
  eapply (strict_run_between gf o fuel e w d w' i j b1 b2 b1' b2' (z1 + z2) s); eauto.
  - unfold tidy. now rewrite C1.
  - unfold tidy. now rewrite C2.
  - unfold measured. now rewrite C1, C2.
  - apply Ht.
  - intros q Hq. pose proof (circle_speed b1 (b_v b1') q C1 Hq) as Q. fold z1 in Q. lra.
  - intros q Hq. pose proof (circle_speed b2 (b_v b2') q C2 Hq) as Q. fold z2 in Q. lra.
  - apply Ht.
Qed.
Lemma strict_run_reachable gf o fuel e w : strict_run gf o fuel e w -> Forall reachable_body (w_bodies w).
Proof.
  intros (heap & bodies & cons & dt & eps & tol & fd & w0 & ops & Hb & H0 & Hx). rewrite Forall_forall. intros b Hin. eapply RBworld; eauto. apply diff_handler_frame.
Qed.
