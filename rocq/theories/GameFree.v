(** The simulated Breakout game: a round in which nothing touches *)
From Coq Require Import List Arith ZArith Lia Bool Reals Lra.
From Verif Require Import Num Tensor Utils Bodies Forces Constraints Contacts World Lapack Engines Breakout Screen Game
     Spec GeoSpec BodySpec JointSpec FreshSpec ContactSpec LapackSpec EngineSpec StrictSpec ScreenSpec GameSpec ResFacts RBase BodyFacts RigidFacts GeomFacts BodyReach WorldFacts HandlerFacts
     LayoutFacts HistFacts UtilFacts SatFacts FreshFacts ContactFacts CollideFacts EngineFacts EngineBalance FreeFacts HeldFacts MomentumFacts EngineProps EngineMore TimeFacts RunTotal StrictFacts NoRaise GameFacts GameProps GameStart GameState GameTotal.
Import ListNotations.
Open Scope R_scope.

(** *** a ball far from a box has no contact with it *)
Definition round (b : body R) (c : pt) (r : R) : Prop := b_kind b = KCircle r /\ b_pos b = c.
Lemma round_still b b' c r : still b = still b' -> round b c r -> round b' c r.
Proof.
  intros E [H1 H2]. assert (Ep : b_p b' = b_p b) by (apply (f_equal b_p) in E; unfold still in E; cbn in E; rewrite !forget_p in E; congruence).
  split; [|unfold b_pos in *; congruence]. apply (f_equal b_kind) in E. destruct b as [? k ? ? ? ? ? ? ? ? ?], b' as [? k' ? ? ? ? ? ? ? ? ?]. cbn in *. subst k. destruct k'; cbn in E; congruence.
Qed.
Lemma round_points b c r q : round b c r -> body_points b q -> dist q c <= r.
Proof. intros [H1 H2] H. unfold body_points, b_rad in H. rewrite H1, H2 in H. exact H. Qed.
Lemma circle_hull_pen fuel c hu eps start n p1 p2 pen hu' : strictly_convex (b_verts hu) -> (start < length (b_verts hu))%nat ->
  circle_hull fuel c hu eps start = Ok (Some (n, p1, p2, pen), hu') -> - eps <= pen.
Proof.
  intros Hc Hs H. pose proof (proj1 Hc) as Hn. destruct (circle_hull_cases _ _ _ _ _ _ Hn Hs H) as [(q & N & _ & E)|(I & E)].
  - inversion E as [[E1 E2]]. symmetry in E1. exact (proj1 (proj2 (near_consistent _ _ _ _ _ _ _ _ E1))).
  - exact (proj1 (proj2 (sat_consistent c hu eps n p1 p2 pen hu' ltac:(lia) E))).
Qed.
Lemma upright_convex b s : upright b s -> strictly_convex (b_verts b).
Proof.
  intros (a & c & w & h & _ & Hw & Hh & _ & -> & _). split.
  - unfold corners. repeat constructor; cbn; intros H; repeat destruct H as [H|H]; try (injection H; intros; lra); exact H.
  - split; [cbn; lia|]. intros p q He v Hv Np Nq. unfold corners, edges in *. cbn in He, Hv.
    assert (P : 0 < w * h) by now apply Rmult_lt_0_compat.
    repeat (destruct He as [He|He]; [injection He as <- <-; repeat (destruct Hv as [<-|Hv]; [first [now exfalso; apply Np | now exfalso; apply Nq | unfold tri2, det2; cbn [fst snd]; match goal with |- 0 < ?t => replace t with (w * h) by field; exact P end]|]); destruct Hv|]). destruct He.
Qed.
Lemma far_overlap b1 b2 c r s eps : round b1 c r -> upright b2 s -> far eps (Disc c r) s -> exists t, t < - eps /\ overlap_at_most t b1 b2.
Proof.
  intros Hr Hu Hf. pose proof (upright_fills _ _ Hu) as F. destruct s as [|x0 x1 y0 y1]; [destruct Hf|].
  assert (D : forall q, body_points b1 q -> Rabs (fst q - fst c) <= r /\ Rabs (snd q - snd c) <= r).
  { intros q Hq. apply (round_points _ _ _ _ Hr) in Hq. unfold dist in Hq. split; (eapply Rle_trans; [|exact Hq]); apply Rsqr_incr_0_var; try apply sqrt_pos; pose proof (Rle_0_sqr (fst q - fst c)) as Q1; pose proof (Rle_0_sqr (snd q - snd c)) as Q2; unfold Rsqr in Q1, Q2; rewrite <- Rsqr_abs, Rsqr_sqrt by lra; unfold Rsqr; lra. }
  assert (G : forall n m, unit_vec n -> eps < m -> (forall q1 q2, body_points b1 q1 -> body_points b2 q2 -> fst n * (fst q2 - fst q1) + snd n * (snd q2 - snd q1) <= - m) -> exists t, t < - eps /\ overlap_at_most t b1 b2).
  { intros n m Hn Hm H. exists (- m). split; [lra|]. exists n. auto. }
  assert (A : forall x : R, Rabs x <= r -> - r <= x <= r) by (intros x Hx; unfold Rabs in Hx; destruct (Rcase_abs x); lra).
  cbn [far] in Hf. destruct Hf as [H|[H|[H|H]]].
  - apply (G (-1, 0) (x0 - fst c - r)); [unfold unit_vec; cbn; lra|lra|]. intros q1 q2 H1 H2. destruct (D q1 H1) as [D1 D2]. apply A in D1. apply F in H2. cbn in *. lra.
  - apply (G (1, 0) (fst c - r - x1)); [unfold unit_vec; cbn; lra|lra|]. intros q1 q2 H1 H2. destruct (D q1 H1) as [D1 D2]. apply A in D1. apply F in H2. cbn in *. lra.
  - apply (G (0, -1) (y0 - snd c - r)); [unfold unit_vec; cbn; lra|lra|]. intros q1 q2 H1 H2. destruct (D q1 H1) as [D1 D2]. apply A in D2. apply F in H2. cbn in *. lra.
  - apply (G (0, 1) (snd c - r - y1)); [unfold unit_vec; cbn; lra|lra|]. intros q1 q2 H1 H2. destruct (D q1 H1) as [D1 D2]. apply A in D2. apply F in H2. cbn in *. lra.
Qed.
Lemma far_handler gf o eps clk bs i j b1 b2 c r s cs bs' clk' : 0 <= r -> round b1 c r -> upright b2 s -> far eps (Disc c r) s ->
  (nth_error bs i = Some b1 /\ nth_error bs j = Some b2 \/ nth_error bs i = Some b2 /\ nth_error bs j = Some b1) ->
  diff_handler (T := R) gf o eps clk bs i j = Ok (cs, bs', clk') -> cs = [].
Proof.
  intros Hr R1 U2 Hf Hij H. destruct (far_overlap _ _ _ _ _ _ R1 U2 Hf) as (t & Ht & Ho). pose proof (upright_convex _ _ U2) as Cv.
  assert (C1 : is_circle b1 = true) by (unfold is_circle; now rewrite (proj1 R1)). assert (C2 : is_circle b2 = false) by (destruct U2 as (? & ? & ? & ? & U); tauto).
  assert (T1 : tidy b1) by (unfold tidy; rewrite C1; unfold b_rad; now rewrite (proj1 R1)). assert (T2 : tidy b2) by (unfold tidy; rewrite C2; exact Cv).
  destruct cs as [|k cs]; [reflexivity|exfalso].
  assert (P : c_pen k <= t). { destruct Hij as [[H1 H2]|[H1 H2]]; [exact (handler_depth _ _ _ _ _ _ _ _ _ _ _ _ _ _ H1 H2 T1 T2 (or_introl C1) Ho H (or_introl eq_refl))|exact (handler_depth _ _ _ _ _ _ _ _ _ _ _ _ _ _ H1 H2 T2 T1 (or_intror C1) (overlap_sym _ _ _ Ho) H (or_introl eq_refl))]. }
  assert (Q : - eps <= c_pen k); [|lra]. unfold diff_handler, get_body in H. destruct Hij as [[H1 H2]|[H1 H2]]; rewrite H1, H2 in H; cbn [bind] in H; (destruct (existsb _ _); [discriminate|]); rewrite C1, C2 in H; cbn [andb orb] in H;
    (destruct (Nat.eqb_spec (length (b_verts b2)) 0) as [|N]; [discriminate|]); bind_inv H as x E; destruct x as [[[[[n p1] p2] pen]|] hu']; try discriminate; injection H as <- _ _ _; cbn [c_pen];
    (eapply circle_hull_pen; [exact Cv| |exact E]; apply Nat.mod_upper_bound; exact N).
Qed.

(** *** no contacts when nothing is near *)
Definition centre_of (p : ball_params (T := R)) : pt := (nth 0 (fst p) 0, nth 1 (fst p) 0).
Lemma excluded_pairs (bs : list (body R)) l (w : world R) i j c : excl_inv (map excl (no_contact_ops bs l)) w -> In (i, j) l -> i <> j -> In c (w_contacts w) -> (i = c_i1 c /\ j = c_i2 c \/ i = c_i2 c /\ j = c_i1 c) -> False.
Proof.
  intros [_ Ha] Hin Hne Hc Hij. unfold contacts_allowed in Ha. rewrite Forall_forall in Ha. destruct (Ha c Hc) as (e1 & e2 & N1 & N2 & Hni). rewrite nth_error_map in N1, N2.
  destruct (nth_error (no_contact_ops bs l) (c_i1 c)) as [b1|] eqn:B1; [|discriminate]. destruct (nth_error (no_contact_ops bs l) (c_i2 c)) as [b2|] eqn:B2; [|discriminate].
  cbn in N1, N2. injection N1 as <-. injection N2 as <-. cbn [fst snd excl] in Hni.
  assert (L1 : (c_i1 c < length bs)%nat) by (rewrite <- (nc_ops_length bs l); apply nth_error_Some; congruence).
  assert (L2 : (c_i2 c < length bs)%nat) by (rewrite <- (nc_ops_length bs l); apply nth_error_Some; congruence).
  apply Hni. destruct Hij as [[-> ->]|[-> ->]]; [exact (proj1 (nc_ops_excluded bs l _ _ Hin L1 L2 Hne _ _ B1 B2))|exact (proj2 (nc_ops_excluded bs l _ _ Hin L2 L1 Hne _ _ B2 B1))].
Qed.
Record clear_at (w : world R) (paddle : rect_params (T := R)) (blocks : list (rect_params (T := R))) (ball : ball_params (T := R)) : Prop := {
  ca_len : length (w_bodies w) = (7 + length blocks)%nat;
  ca_ball : forall b, nth_error (w_bodies w) 0 = Some b -> round b (centre_of ball) (snd ball);
  ca_box : forall i b, (1 <= i)%nat -> nth_error (w_bodies w) i = Some b -> exists s, nth_error (board paddle blocks ball) i = Some s /\ upright b s }.
Lemma no_contacts gf o w (bs : list (body R)) paddle blocks ball : broadphase_sane o -> Forall (fun p => hanging (box_of p)) blocks -> contacts_current o (diff_handler gf o) w -> w_eps w = 1 / 10 ->
  excl_inv (map excl (no_contact_ops bs (exclusions (length blocks)))) w -> 0 <= snd ball -> clear_at w paddle blocks ball -> uncrowded paddle blocks ball -> w_contacts w = [].
Proof.
  intros Ho Hh Cu Eps Ex Hr [Ln Hb Hx] [Up Ub]. destruct (w_contacts w) as [|c cs] eqn:Ec; [reflexivity|exfalso].
  assert (Hc : In c (w_contacts w)) by (rewrite Ec; now left). clear Ec.
  destruct (current_report _ _ _ _ Cu Hc Ho) as (Hne & L1 & L2 & new & Hin & Hrep).
  assert (X : forall i j, In (i, j) (exclusions (length blocks)) -> (i = c_i1 c /\ j = c_i2 c \/ i = c_i2 c /\ j = c_i1 c) -> False).
  { intros i j Hi Hij. assert (Hd : i <> j) by lia. exact (excluded_pairs _ _ _ _ _ _ Ex Hi Hd Hc Hij). }
  assert (Lb : length (board paddle blocks ball) = length (w_bodies w)) by (rewrite Ln; unfold board; rewrite app_length, map_length; reflexivity).
  destruct (nth_error (board paddle blocks ball) (c_i1 c)) as [s1|] eqn:S1; [|apply nth_error_None in S1; lia].
  destruct (nth_error (board paddle blocks ball) (c_i2 c)) as [s2|] eqn:S2; [|apply nth_error_None in S2; lia].
  destruct (nth_error (w_bodies w) (c_i1 c)) as [b1|] eqn:B1; [|apply nth_error_None in B1; lia]. destruct (nth_error (w_bodies w) (c_i2 c)) as [b2|] eqn:B2; [|apply nth_error_None in B2; lia].
  destruct Hrep as (clk & bs0 & bs1 & clk1 & Hst & Hd). destruct (still_nth _ _ _ _ Hst B1) as (a1 & A1 & E1). destruct (still_nth _ _ _ _ Hst B2) as (a2 & A2 & E2). rewrite Eps in Hd.
  assert (U : forall i b a s, (1 <= i)%nat -> nth_error (w_bodies w) i = Some b -> still a = still b -> nth_error (board paddle blocks ball) i = Some s -> upright a s).
  { intros i b a s Hi Hbi E Hs. destruct (Hx i b Hi Hbi) as (s' & Hs' & Q). rewrite Hs in Hs'. injection Hs' as <-. exact (upright_still _ _ _ (eq_sym E) Q). }
  assert (RR : forall b a, nth_error (w_bodies w) 0 = Some b -> still a = still b -> round a (centre_of ball) (snd ball)).
  { intros b a Hbi E. exact (round_still _ _ _ _ (eq_sym E) (Hb b Hbi)). }
  assert (A : (1 <= c_i1 c)%nat -> (1 <= c_i2 c)%nat -> apart (1 / 10) s1 s2 -> False).
  { intros I1 I2 Ha. rewrite (apart_handler _ _ _ _ _ _ _ _ _ _ _ _ _ _ A1 A2 (U _ _ _ _ I1 B1 E1 S1) (U _ _ _ _ I2 B2 E2 S2) Ha Hd) in Hin. destruct Hin. }
  assert (M : may_touch (c_i1 c) (c_i2 c) -> False).
  { intros [[I1 I2]|[I1 I2]].
    - pose proof (Ub (c_i2 c) s2 (or_introl (conj eq_refl I2)) S2) as F. rewrite I1 in B1, A1.
      assert (I3 : (1 <= c_i2 c)%nat) by lia. rewrite <- I1 in A1.
      rewrite (far_handler _ _ _ _ _ _ _ _ _ (centre_of ball) (snd ball) s2 _ _ _ Hr (RR _ _ B1 E1) (U _ _ _ _ I3 B2 E2 S2) F (or_introl (conj A1 A2)) Hd) in Hin. destruct Hin.
    - apply A; [lia|lia|]. rewrite I1 in S1. cbn in S1. injection S1 as <-. exact (Up (c_i2 c) s2 (or_intror (conj eq_refl I2)) S2). }
  assert (M' : may_touch (c_i2 c) (c_i1 c) -> False).
  { intros [[I2 I1]|[I2 I1]].
    - pose proof (Ub (c_i1 c) s1 (or_introl (conj eq_refl I1)) S1) as F. rewrite I2 in B2.
      assert (I3 : (1 <= c_i1 c)%nat) by lia.
      rewrite (far_handler _ _ _ _ _ _ _ _ _ (centre_of ball) (snd ball) s1 _ _ _ Hr (RR _ _ B2 E2) (U _ _ _ _ I3 B1 E1 S1) F (or_intror (conj A1 A2)) Hd) in Hin. destruct Hin.
    - apply A; [lia|lia|]. rewrite I2 in S2. cbn in S2. injection S2 as <-. apply apart_sym. exact (Up (c_i1 c) s1 (or_intror (conj eq_refl I1)) S1). }
  destruct (Nat.lt_total (c_i1 c) (c_i2 c)) as [L|[L|L]]; [|lia|].
  - destruct (pair_cases _ _ _ _ _ _ _ Hh L S1 S2) as [Q|[Q|[Q|[Q1 Q2]]]]; [exact (M Q)|eapply X; eauto|eapply X; eauto|apply A; [lia|lia|exact Q2]].
  - destruct (pair_cases _ _ _ _ _ _ _ Hh L S2 S1) as [Q|[Q|[Q|[Q1 Q2]]]]; [exact (M' Q)|eapply X; eauto|eapply X; eauto|apply A; [lia|lia|now apply apart_sym]].
Qed.

(** *** a round in which nothing touches *)
Definition slide (x y : R) (s : piece) : piece := match s with Box l r t b => Box (l + x) (r + x) (t + y) (b + y) | Disc c r => Disc (fst c + x, snd c + y) r end.
Lemma slide_box x y p : slide x y (box_of p) = box_of (shifted x y p).
Proof. unfold slide, box_of, shifted. cbn [fst snd nth]. f_equal; ring. Qed.
Lemma slide_0 s : slide 0 0 s = s.
Proof. destruct s as [[x y] r|]; cbn; f_equal; try ring. f_equal; ring. Qed.
Lemma upright_move b x y dt s : upright b s -> upright (move (with_v b (0, (x, y))) dt) (slide (dt * x) (dt * y) s).
Proof.
  intros (a & c & w & h & -> & Hw & Hh & Hp & Hv & Hk). exists (a + dt * x), (c + dt * y), w, h. split; [cbn; f_equal; ring|]. split; [exact Hw|]. split; [exact Hh|].
  unfold move, set_p. cbn [b_kind b_p b_v with_v]. rewrite Hp. unfold v3add, v3scale, v2add, v2scale. cbn [fst snd]. rnum. unfold is_circle in Hk. unfold b_verts in Hv.
  assert (E : Reqb (0 + dt * 0 - 0) 0 = true) by (destruct (Reqb_spec (0 + dt * 0 - 0) 0); [reflexivity|exfalso; lra]).
  destruct (b_kind b) eqn:Ek; [discriminate|change (neqb (0 + dt * 0 - 0) 0) with (Reqb (0 + dt * 0 - 0) 0); rewrite E..]; unfold body_set_p, b_verts, is_circle; cbn [b_p b_kind with_v]; rewrite ?Ek; (split; [apply f_equal2; [ring|reflexivity]|auto]).
Qed.
Lemma round_move b c r dt u : round b c r -> round (move (with_v b u) dt) (fst c + dt * fst (snd u), snd c + dt * snd (snd u)) r.
Proof.
  intros [Hk Hp]. unfold round, move, set_p. cbn [b_kind b_p b_v with_v]. rewrite Hk. unfold body_set_p. cbn. split; [exact Hk|]. unfold b_pos in *. cbn. rewrite Hp. reflexivity.
Qed.
Lemma board_tail p1 p2 blocks b1 b2 i : (2 <= i)%nat -> nth_error (board p1 blocks b1) i = nth_error (board p2 blocks b2) i.
Proof. intros H. destruct i as [|[|i]]; [lia|lia|reflexivity]. Qed.
Record gliding la mi gf o w0 (w : world R) (paddle : rect_params (T := R)) blocks (ball : ball_params (T := R)) (u : v3 R) : Prop := {
  gl_game : game la mi gf o w0 w;
  gl_at : clear_at w paddle blocks ball;
  gl_ball : forall b, nth_error (w_bodies w) 0 = Some b -> b_v b = u;
  gl_paddle : forall b, nth_error (w_bodies w) 1 = Some b -> fst (b_v b) = 0;
  gl_contacts : w_contacts w = [];
  gl_rot : fst u = 0 -> forall b, nth_error (w_bodies w) 0 = Some b -> b_rot b = 0 }.
Section Round.
Variables (la : lapack R) (mi gf : nat) (o : oracle R).
Hypothesis HL : lapack_ok la.
Hypothesis Hmi : (0 < mi)%nat.
Hypothesis Ho : broadphase_sane o.
Hypothesis Hg : (18 <= gf)%nat.
Notation hd := (diff_handler gf o).
Notation eng := (pdipm_engine la mi).
Variables (paddle0 : rect_params (T := R)) (blocks : list (rect_params (T := R))) (ball0 : ball_params (T := R)) (vel : list R) (w0 : world R) (b0 : body R) (rects : list (body R)).
Hypothesis Hp : plain paddle0.
Hypothesis Hb : Forall plain blocks.
Hypothesis Hball : plain_ball ball0.
Hypothesis Hs : Forall sized (board paddle0 blocks ball0).
Hypothesis Hr : 0 < snd ball0.
Hypothesis Hh : Forall (fun p => hanging (box_of p)) blocks.
Hypothesis H0 : make_world o hd paddle0 blocks ball0 vel = Ok w0.
Hypothesis St : setup (st := true) o hd paddle0 blocks ball0 vel w0 b0 rects.

Lemma game_cfg w : game la mi gf o w0 w -> w_dt w = 1 /\ w_post_stab w = false /\ w_eps w = 1 / 10 /\ exists bs, excl_inv (map (excl (T := R)) (no_contact_ops bs (exclusions (length blocks)))) w.
Proof.
  intros G. destruct (game_exec _ _ _ _ _ _ G) as (f0 & ops & Hx). pose proof (su_init _ _ _ _ _ _ _ _ _ St) as Hi. destruct (su_pre _ _ _ _ _ _ _ _ _ St) as (bs & Ebs).
  pose proof Hx as Hc. apply exec_cfg in Hc. apply cfg_fields in Hc. pose proof Hi as H1. apply world_init_inv in H1.
  destruct Hc as (_ & E1 & E2 & _ & _ & E3 & _). destruct H1 as (E4 & E5 & _ & _ & E6 & _). rewrite E1, E2, E3, E4, E5, E6. unfold DT, EPSILON. rnum. split; [reflexivity|]. split; [reflexivity|]. split; [reflexivity|].
  exists bs. pose proof (setup_session la mi gf o _ _ _ _ _ _ _ _ Ho St G) as Hse. destruct (session_facts _ _ _ _ _ _ _ Hse) as (Hf & Hre & _).
  assert (Hx0 : excl_inv (map (excl (T := R)) (b0 :: rects)) w0).
  { clear - Hi Hf Hre. unfold world_init in Hi. bind_inv Hi as js Ej. bind_inv Hi as w1 E1. bind_inv Hi as w2 E2. destruct (true && _)%bool; [discriminate|]. injection Hi as <-.
    pose proof (set_v_excl _ _ _ E1) as Q1. cbn [w_bodies] in Q1. destruct (find_contacts_allowed _ _ _ _ Hf Hre E2) as [Q2 Q3]. split; congruence. }
  rewrite Ebs in Hx0. exact (excl_inv_exec _ _ _ _ _ _ _ _ Hf Hre Hx0 Hx).
Qed.
Lemma glide_start w : game la mi gf o w0 w -> clear_at w paddle0 blocks ball0 -> uncrowded paddle0 blocks ball0 -> w_contacts w = [].
Proof.
  intros G C U. destruct (game_cfg w G) as (_ & _ & Ee & bs & Ex). pose proof (setup_session la mi gf o _ _ _ _ _ _ _ _ Ho St G) as Hse.
  apply (no_contacts gf o w bs paddle0 blocks ball0); auto; [exact (session_current _ _ _ _ _ _ _ Hse)|lra].
Qed.
Lemma start_at : clear_at w0 paddle0 blocks ball0.
Proof.
  pose proof (init_forget _ _ _ _ _ _ _ _ _ _ _ _ (diff_handler_frame gf o) (su_init _ _ _ _ _ _ _ _ _ St)) as E0.
  assert (N : forall i b, nth_error (w_bodies w0) i = Some b -> exists c, nth_error (b0 :: rects) i = Some c /\ forget b = forget c).
  { intros i b Hbi. apply (f_equal (fun l => nth_error l i)) in E0. rewrite !nth_error_map, Hbi in E0. destruct (nth_error (b0 :: rects) i) as [c|]; [|discriminate]. exists c. split; [reflexivity|]. cbn in E0. congruence. }
  constructor.
  - apply (f_equal (@length _)) in E0. rewrite !map_length in E0. cbn [length] in E0. rewrite (setup_length _ _ _ _ _ _ _ _ _ St) in E0. lia.
  - intros b Hbi. destruct (N _ _ Hbi) as (c & Hc & E). cbn in Hc. injection Hc as <-. apply (round_still b0); [unfold still; now rewrite E|]. split; [exact (su_ball_kind _ _ _ _ _ _ _ _ _ St)|]. unfold b_pos. now rewrite (su_ball_p _ _ _ _ _ _ _ _ _ St).
  - intros i b Hi Hbi. destruct (N _ _ Hbi) as (c & Hc & E). destruct i as [|i]; [lia|]. cbn [nth_error] in Hc.
    destruct (Forall2_nth _ _ _ _ _ (su_rects _ _ _ _ _ _ _ _ _ St) Hc) as (x & Ex & (a & cy & wd & h & Ep & Hw & Hhh & Hk & Hpp & _)).
    exists (box_of (snd (fst x))). split; [exact (entries_nth _ _ _ _ _ Ex)|]. apply (upright_still c); [unfold still; now rewrite E|]. exists a, cy, wd, h. rewrite Ep. cbn [box_of fst snd nth]. unfold b_verts, is_circle. rewrite Hk. auto 8.
Qed.
Lemma free_v w J0 i b dt f v imps y : sound (b0 :: rects) (map total_init (tl rects)) J0 w -> w_contacts w = [] -> world_apply_forces w (w_t w) = Ok f -> balance w dt f v imps y (vzeros (3 * length (w_bodies w))) ->
  (i < 2)%nat -> nth_error (w_bodies w) i = Some b -> v3_at v i = b_v b.
Proof.
  intros S C Ef B Hi Hbi. pose proof (setup_ids _ _ _ _ _ _ _ _ _ St) as Id.
  assert (U : untouched w i). { split; [rewrite C; intros c []|]. intros j i1 i2 Hin. destruct (loose _ _ _ _ _ _ _ _ Id S Hin) as [L ->]. split; [lia|discriminate]. }
  destruct (apply_forces_layout _ _ _ Ef) as [Ln Lf]. pose proof (free_body _ _ _ w S i b dt f v imps y Ln U Hbi B) as Q. specialize (Lf i b Hbi).
  destruct (Forall2_nth _ _ _ _ _ (so_attrs _ _ _ _ S) Hbi) as (c & Hc & Sa). destruct Sa as (_ & M1 & I1 & _ & _ & _ & F1 & _).
  assert (K : b_mass c = 1 /\ b_inertia c <> 0 /\ b_forces c = []).
  { destruct i as [|[|i]]; [| |lia].
    - cbn in Hc. injection Hc as <-. destruct (su_ball _ _ _ _ _ _ _ _ _ St) as (_ & Q1 & Q2 & _ & _ & _ & Q3 & _). split; [exact Q1|]. split; [|exact Q3]. rewrite Q2. nra.
    - cbn [nth_error] in Hc. destruct (Forall2_nth _ _ _ 0%nat c (su_rects _ _ _ _ _ _ _ _ _ St)) as (x & _ & (aa & cc & wd & h & _ & Hw & Hhh & _ & _ & _ & _ & Q1 & Q2 & _ & _ & _ & Q3 & _)); [destruct rects; [discriminate|exact Hc]|].
      split; [exact Q1|]. split; [|exact Q3]. rewrite Q2. nra. }
  destruct K as (K1 & K2 & K3). unfold body_apply_forces in Lf. rewrite F1, K3 in Lf. cbn [mapM bind fold_left] in Lf.
  assert (Zf : v3_at f i = v3zero) by (assert (X : forall a b : v3 R, Ok a = Ok b -> a = b) by congruence; symmetry; now apply X). rewrite Zf in Q.
  rewrite <- M1 in K1. rewrite <- I1 in K2.
  destruct (b_v b) as [r [x yy]], (v3_at v i) as [r' [x' y']]. unfold body_momentum, v3add, v3scale, v3zero, v2zero, v2add, v2scale in Q. cbn [fst snd] in Q. rnum.
  injection Q as Q1 Q2 Q3. apply f_equal2; [apply (Rmult_eq_reg_l (b_inertia b)); [lra|exact K2]|]. apply f_equal2; apply (Rmult_eq_reg_l (b_mass b)); lra.
Qed.
Lemma held_v w J0 i v b : sound (b0 :: rects) (map total_init (tl rects)) J0 w -> constraint_velocity w v = vzeros (w_num_constraints w) -> (2 <= i)%nat -> nth_error (w_bodies w) i = Some b -> v3_at v i = (0, (0, 0)).
Proof.
  intros Sd E Hi Hbi. destruct (Forall2_nth _ _ _ _ _ (so_attrs _ _ _ _ Sd) Hbi) as (c & Hc & _). destruct i as [|[|i]]; [lia|lia|].
  apply (solved_still _ _ _ w (total_init c) (S (S i)) c v Sd); [|exact Hc|reflexivity|exact E]. apply in_map. cbn [nth_error] in Hc. destruct rects as [|r rs]; [discriminate|]. exact (nth_error_In _ _ Hc).
Qed.
Lemma glide w paddle ball u f a vx vy : gliding la mi gf o w0 w paddle blocks ball u -> 0 <= snd ball ->
  uncrowded (shifted (vx * a) (vy * a) paddle) blocks (shifted (fst (snd u)) (snd (snd u)) ball) ->
  exists w', step_breakout (S (S f)) o hd eng w 1 a vx vy = Ok w' /\ w_t w' = w_t w + 1 /\
    gliding la mi gf o w0 w' (shifted (vx * a) (vy * a) paddle) blocks (shifted (fst (snd u)) (snd (snd u)) ball) u.
Proof.
  intros [G At Vb Vp C Ro] Hrb Un. destruct (game_cfg w G) as (Cdt & Cps & Ceps & bsx & Ex). destruct At as [Ln Ab Ax].
  pose proof (setup_session la mi gf o _ _ _ _ _ _ _ _ Ho St G) as Hse. destruct (session_facts _ _ _ _ _ _ _ Hse) as (Hf & Hre & _ & _ & J0 & Sd & Vd).
  destruct (game_calm la mi gf o HL Hmi Ho Hg _ _ _ _ _ _ Hp Hb Hball Hs Hr H0 G) as (P & HP & Pw).
  set (nv := upd (upd (w_v w) 4 (vx * a)) 5 (vy * a)). destruct (ro_joints _ _ _ _ HP w Pw) as [_ Lw].
  destruct (set_v_total w nv) as [w1 E1]; [unfold nv; rewrite !upd_length; exact Lw|].
  pose proof (ro_set_v _ _ _ _ HP _ _ _ Pw E1) as P1.
  assert (X1 : exec 0 o hd eng [OSetV nv] w = Ok w1) by (cbn; now rewrite E1).
  destruct (session_exec _ _ _ _ _ _ _ _ _ _ Hse X1 J0 Sd Vd) as [Sd1 Vd1].
  assert (W1 : w1 = with_state w (mapi (fun i b => with_v b (v3_at nv i)) (w_bodies w)) (w_joints w) (w_t w) nv (w_contacts w) (w_cache w) (w_clk w)) by (apply set_v_inv in E1; tauto).
  assert (B1 : forall i b, nth_error (w_bodies w) i = Some b -> nth_error (w_bodies w1) i = Some (with_v b (pushed a vx vy i (b_v b)))).
  { intros i b Hbi. rewrite W1. cbn [w_bodies with_state]. rewrite mapi_nth, Hbi. cbn [option_map]. unfold nv. rewrite pushed_v by lia. now rewrite <- (aligned_reads _ _ _ (so_v _ _ _ _ Sd) Hbi). }
  assert (L1 : length (w_bodies w1) = length (w_bodies w)) by (rewrite W1; cbn; apply mapi_length).
  assert (C1 : w_contacts w1 = [] /\ w_t w1 = w_t w /\ w_dt w1 = 1 /\ w_post_stab w1 = false /\ w_eps w1 = 1 / 10 /\ map (excl (T := R)) (w_bodies w1) = map (excl (T := R)) (w_bodies w)).
  { pose proof (set_v_excl _ _ _ E1) as Q. rewrite W1 in Q |- *. cbn. auto 8. }
  destruct C1 as (C1 & T1 & D1 & Ps1 & Ee1 & Ex1).
  destruct (ro_solve _ _ _ _ HP w1 (w_t w1 + w_dt w1 - w_t w1) P1) as (v & c & Ev & Lv).
  destruct (solve_balance _ _ _ _ la mi Sd1 HL Vd1 _ _ _ Ev) as (fo & imps & y & Ef & _ & Ba & Cv).
  assert (V : forall i b, nth_error (w_bodies w) i = Some b -> v3_at v i = if (i <? 2)%nat then pushed a vx vy i (b_v b) else (0, (0, 0))).
  { intros i b Hbi. destruct (Nat.ltb_spec i 2) as [L|L].
    - rewrite (free_v w1 J0 i _ _ _ _ _ _ Sd1 C1 Ef Ba L (B1 _ _ Hbi)). reflexivity.
    - exact (held_v w1 J0 i v _ Sd1 Cv L (B1 _ _ Hbi)). }
  destruct (set_v_total (with_cache w1 c) v) as [w2 E2]; [exact Lv|]. pose proof (ro_set_v _ _ _ _ HP _ _ _ (ro_cache _ _ _ _ HP _ _ _ _ P1 Ev) E2) as P2.
  destruct (ro_joints _ _ _ _ HP w2 P2) as [J2 _]. destruct (move_all_total w2 (w_t w1 + w_dt w1 - w_t w1) J2) as (w3 & E3 & _). pose proof (ro_move _ _ _ _ HP _ _ _ P2 E3) as P3.
  destruct (ro_find _ _ _ _ HP w3 P3) as (w4 & E4 & P4).
  assert (B4 : forall i b, nth_error (w_bodies w4) i = Some b -> exists b', nth_error (w_bodies w) i = Some b' /\ still b = still (move (with_v b' (v3_at v i)) 1)).
  { intros i b Hbi. pose proof (find_contacts_frame _ _ _ _ Hf E4) as F. apply (f_equal (fun l => nth_error l i)) in F. rewrite !nth_error_map, Hbi in F.
    apply move_all_inv in E3. destruct E3 as [js3 E3]. apply set_v_inv in E2. destruct E2 as [_ E2]. rewrite E3, E2 in F. cbn [w_bodies with_state with_cache] in F.
    assert (Eb : w_bodies w1 = mapi (fun i b => with_v b (v3_at nv i)) (w_bodies w)) by (rewrite W1; reflexivity). rewrite Eb, nth_error_map, !mapi_nth in F. destruct (nth_error (w_bodies w) i) as [b'|]; [|discriminate]. exists b'. split; [reflexivity|]. cbn [option_map] in F.
    assert (E : forget b = forget (move (with_v (with_v b' (v3_at nv i)) (v3_at v i)) (w_t w1 + w_dt w1 - w_t w1))) by congruence.
    unfold still. rewrite E. assert (Q : w_t w1 + w_dt w1 - w_t w1 = 1) by (rewrite D1; ring). rewrite Q. reflexivity. }
  assert (L4 : length (w_bodies w4) = length (w_bodies w)).
  { pose proof (f_equal (@length _) (find_contacts_frame _ _ _ _ Hf E4)) as F. rewrite !map_length in F. rewrite F. apply move_all_inv in E3. destruct E3 as [js3 ->]. cbn. rewrite map_length. apply set_v_shape in E2. destruct E2 as (-> & _). exact L1. }
  assert (At4 : clear_at w4 (shifted (vx * a) (vy * a) paddle) blocks (shifted (fst (snd u)) (snd (snd u)) ball)).
  { constructor; [congruence| |].
    - intros b Hbi. destruct (B4 _ _ Hbi) as (b' & Hb' & E). apply (round_still _ _ _ _ (eq_sym E)). rewrite (V _ _ Hb'). cbn [Nat.ltb Nat.leb pushed Nat.eqb]. rewrite (Vb _ Hb').
      pose proof (round_move _ _ _ 1 u (Ab _ Hb')) as Q. unfold centre_of, shifted in *. cbn [fst snd nth] in *. rewrite !Rmult_1_l in Q. exact Q.
    - intros i b Hi Hbi. destruct (B4 _ _ Hbi) as (b' & Hb' & E). destruct (Ax _ _ Hi Hb') as (s & Hsi & Us). rewrite (V _ _ Hb') in E. destruct (Nat.ltb_spec i 2) as [L|L].
      + assert (i = 1%nat) by lia. subst i. cbn in Hsi. injection Hsi as <-. eexists. split; [reflexivity|]. apply (upright_still _ _ _ (eq_sym E)). unfold pushed. cbn [Nat.eqb]. rewrite (Vp _ Hb'), <- slide_box.
        pose proof (upright_move b' (vx * a) (vy * a) 1 _ Us) as Q. rewrite !Rmult_1_l in Q. exact Q.
      + exists s. split; [rewrite (board_tail _ paddle _ _ ball) by exact L; exact Hsi|]. apply (upright_still _ _ _ (eq_sym E)). pose proof (upright_move b' 0 0 1 _ Us) as Q. rewrite Rmult_0_r, slide_0 in Q. exact Q. }
  assert (C4 : w_contacts w4 = []).
  { apply (no_contacts gf o w4 bsx (shifted (vx * a) (vy * a) paddle) blocks (shifted (fst (snd u)) (snd (snd u)) ball) Ho Hh); auto.
    - exact (find_contacts_current _ _ _ _ Hf E4).
    - apply find_contacts_inv in E4. destruct E4 as (? & ? & ? & ->). apply move_all_inv in E3. destruct E3 as [js3 ->]. apply set_v_inv in E2. destruct E2 as [_ ->]. exact Ee1.
    - destruct (find_contacts_allowed _ _ _ _ Hf Hre E4) as [Q2 Q3]. rewrite (move_all_excl _ _ _ E3) in Q2, Q3. pose proof (set_v_excl _ _ _ E2) as Q4. rewrite Q4 in Q2, Q3. cbn [w_bodies with_cache with_state] in Q2, Q3. rewrite Ex1 in Q2, Q3.
      destruct Ex as [Ex _]. rewrite Ex in Q2, Q3. split; assumption. }
  assert (T4 : w_t w4 = w_t w /\ w_post_stab w4 = false).
  { apply find_contacts_inv in E4. destruct E4 as (? & ? & ? & ->). apply move_all_inv in E3. destruct E3 as [js3 ->]. apply set_v_inv in E2. destruct E2 as [_ ->]. cbn. auto. }
  destruct T4 as [T4 Ps4]. exists (with_t w4 (w_t w4 + (w_t w1 + w_dt w1 - w_t w1))).
  assert (Es : step_breakout (S (S f)) o hd eng w 1 a vx vy = Ok (with_t w4 (w_t w4 + (w_t w1 + w_dt w1 - w_t w1)))).
  { unfold step_breakout. cbv zeta. change (3 * 1 + 1)%nat with 4%nat. change (3 * 1 + 2)%nat with 5%nat. rnum. change (upd (upd (w_v w) 4 (vx * a)) 5 (vy * a)) with nv. rewrite E1. cbn [bind]. unfold step. cbn [fixed_loop].
    rnum. destruct (Rltb_spec (w_t w1) (w_t w1 + w_dt w1)) as [_|Q]; [|exfalso; lra].
    assert (Ed : step_dt (S (S f)) o hd eng w1 (w_t w1 + w_dt w1 - w_t w1) = Ok (with_t w4 (w_t w4 + (w_t w1 + w_dt w1 - w_t w1)))).
    { unfold step_dt. rewrite Ev. cbn [bind]. rewrite E2. cbn [bind step_loop]. rewrite E3. cbn [bind]. rewrite E4. cbn [bind]. assert (N : no_penetration w4 = true) by (unfold no_penetration; now rewrite C4). rewrite N. cbn [bind]. rewrite Ps4. reflexivity. }
    rewrite Ed. cbn [bind]. cbn [w_t with_t with_state]. destruct (Rltb_spec (w_t w4 + (w_t w1 + w_dt w1 - w_t w1)) (w_t w1 + w_dt w1)) as [Q|_]; [exfalso; lra|]. reflexivity. }
  split; [exact Es|]. split; [cbn; lra|].
  assert (G' : game la mi gf o w0 (with_t w4 (w_t w4 + (w_t w1 + w_dt w1 - w_t w1)))) by (eapply game_action; [exact G|exact Es]).
  pose proof (setup_session la mi gf o _ _ _ _ _ _ _ _ Ho St G') as Hse'. destruct (session_facts _ _ _ _ _ _ _ Hse') as (_ & _ & _ & _ & J0' & Sd' & _).
  assert (V4 : w_v w4 = v). { apply find_contacts_inv in E4. destruct E4 as (? & ? & ? & ->). apply move_all_inv in E3. destruct E3 as [js3 ->]. apply set_v_inv in E2. destruct E2 as [_ ->]. reflexivity. }
  assert (V' : forall i b, nth_error (w_bodies w4) i = Some b -> exists b', nth_error (w_bodies w) i = Some b' /\ b_v b = v3_at v i).
  { intros i b Hbi. destruct (B4 _ _ Hbi) as (b' & Hb' & _). exists b'. split; [exact Hb'|]. pose proof (aligned_reads _ _ _ (so_v _ _ _ _ Sd') Hbi) as Q. cbn [w_v with_t with_state] in Q. now rewrite V4 in Q. }
  constructor.
  - exact G'.
  - destruct At4 as [A1 A2 A3]. constructor; assumption.
  - intros b Hbi. destruct (V' _ _ Hbi) as (b' & Hb' & ->). rewrite (V _ _ Hb'). cbn. exact (Vb _ Hb').
  - intros b Hbi. destruct (V' _ _ Hbi) as (b' & Hb' & ->). rewrite (V _ _ Hb'). cbn. exact (Vp _ Hb').
  - exact C4.
  - intros Hu b Hbi. destruct (B4 _ _ Hbi) as (b' & Hb' & E). rewrite (V _ _ Hb') in E. cbn [Nat.ltb Nat.leb pushed Nat.eqb] in E. rewrite (Vb _ Hb') in E.
    assert (Er : b_rot b = b_rot (move (with_v b' u) 1)) by (apply (f_equal (fun c : body R => fst (b_p c))) in E; unfold still in E; cbn [b_p with_v] in E; rewrite !forget_p in E; exact E). rewrite Er. pose proof (Ro Hu _ Hb') as Z. destruct (Ab _ Hb') as [K _].
    unfold b_rot, move, set_p in *. cbn [b_kind b_p b_v with_v]. rewrite K. unfold body_set_p. cbn. rewrite Z, Hu. ring.
Qed.
End Round.

(** *** games and plans in which nothing touches *)
Lemma shifted_twice {A} x y x' y' (p : list R * A) : shifted x' y' (shifted x y p) = shifted (x + x') (y + y') p.
Proof. unfold shifted. cbn [fst snd nth]. now rewrite !Rplus_assoc. Qed.
Lemma box_shifted_0 p : box_of (shifted 0 0 p) = box_of p.
Proof. unfold box_of, shifted. cbn [fst snd nth]. now rewrite !Rplus_0_r. Qed.
Lemma round_fills b p : round b (centre_of p) (snd p) -> fills b (disc_of p).
Proof. intros [H1 H2] q. unfold body_points, b_rad, disc_of. rewrite H1, H2. reflexivity. Qed.
Lemma nth_Forall2 {A B} (P : A -> B -> Prop) : forall l l', length l = length l' -> (forall i x, nth_error l i = Some x -> exists y, nth_error l' i = Some y /\ P x y) -> Forall2 P l l'.
Proof.
  induction l as [|x l IH]; intros [|y l'] HL H; try discriminate; [constructor|]. constructor.
  - destruct (H 0%nat x eq_refl) as (y' & E & Q). cbn in E. congruence.
  - apply IH; [cbn in HL; lia|]. intros i z Hz. exact (H (S i) z Hz).
Qed.
Lemma clear_fills w paddle blocks ball : clear_at w paddle blocks ball -> Forall2 fills (w_bodies w) (board paddle blocks ball).
Proof.
  intros [L A1 A2]. apply nth_Forall2.
  - rewrite L. unfold board. rewrite app_length, map_length. reflexivity.
  - intros [|i] b Hb.
    + eexists. split; [reflexivity|]. apply round_fills. now apply A1.
    + destruct (A2 (S i) b (le_n_S _ _ (Nat.le_0_l i)) Hb) as (s & Hs & U). exists s. split; [exact Hs|]. now apply upright_fills.
Qed.
Lemma plain_shifted p x y : plain p -> plain (shifted x y p).
Proof. intros (a & c & w & h & -> & Hw & Hh). exists (a + x), (c + y), w, h. split; [reflexivity|auto]. Qed.
Lemma upright_pos b p : plain p -> upright b (box_of p) -> [fst (b_pos b); snd (b_pos b)] = fst p.
Proof.
  intros (x & y & w & h & -> & _) (a & c & w' & h' & E & _ & _ & Hp & _). unfold b_pos. rewrite Hp. unfold box_of in E. cbn [fst snd nth] in *. injection E as E1 E2 E3 E4. f_equal; [lra|]. f_equal. lra.
Qed.
Section Free.
Variables (la : lapack R) (mi gf : nat) (o : oracle R).
Hypothesis HL : lapack_ok la.
Hypothesis Hmi : (0 < mi)%nat.
Hypothesis Ho : broadphase_sane o.
Hypothesis Hg : (18 <= gf)%nat.
Notation hd := (diff_handler gf o).
Notation eng := (pdipm_engine la mi).
Lemma gliding_starts paddle blocks ball vel u w0 : startable paddle blocks ball -> 0 < snd ball -> to_v3 vel = Ok u -> uncrowded paddle blocks ball ->
  make_world o hd paddle blocks ball vel = Ok w0 -> gliding la mi gf o w0 w0 paddle blocks ball u /\ w_t w0 = 0.
Proof.
  intros [S1 S2 S3 S4 S5 S6 S7 S8] Hr Hv Hu H0. destruct (make_world_setup _ _ _ _ _ _ _ S1 S2 S3 H0) as (b0 & rects & St).
  assert (At : clear_at w0 paddle blocks ball) by (eapply (start_at mi); eassumption). split.
  - destruct (game_layout gf o paddle blocks ball vel w0 S1 S2 S3 H0) as (_ & (u' & Hu' & Ev) & _). rewrite Hv in Hu'. injection Hu' as <-. constructor.
    + constructor.
    + exact At.
    + intros b Hb. apply (f_equal (fun l => nth_error l 0)) in Ev. rewrite nth_error_map, Hb in Ev. cbn in Ev. congruence.
    + intros b Hb. apply (f_equal (fun l => nth_error l 1)) in Ev. rewrite nth_error_map, Hb in Ev. cbn in Ev. injection Ev as ->. reflexivity.
    + eapply (glide_start la mi); try eassumption. constructor.
    + intros _ b Hb. destruct (game_layout gf o paddle blocks ball vel w0 S1 S2 S3 H0) as (_ & _ & Er & _). apply (f_equal (fun l => nth_error l 0)) in Er. rewrite nth_error_map, Hb in Er. cbn in Er. congruence.
  - pose proof (su_init _ _ _ _ _ _ _ _ _ St) as Hi. apply world_init_inv in Hi. destruct Hi as (_ & _ & _ & _ & _ & _ & E & _). exact E.
Qed.
Lemma free_chain paddle0 blocks ball0 vel w0 f vx vy u : startable paddle0 blocks ball0 -> 0 < snd ball0 -> make_world o hd paddle0 blocks ball0 vel = Ok w0 ->
  forall acts w paddle ball, gliding la mi gf o w0 w paddle blocks ball u -> 0 <= snd ball ->
  (forall k, (1 <= k <= length acts)%nat -> uncrowded (shifted (vx * total (firstn k acts)) (vy * total (firstn k acts)) paddle) blocks (shifted (INR k * fst (snd u)) (INR k * snd (snd u)) ball)) ->
  exists w', play (S (S f)) o hd eng vx vy acts w = Ok w' /\ game la mi gf o w0 w' /\ w_t w' = w_t w + INR (length acts) /\ w_contacts w' = [] /\
    Forall2 fills (w_bodies w') (board (shifted (vx * total acts) (vy * total acts) paddle) blocks (shifted (INR (length acts) * fst (snd u)) (INR (length acts) * snd (snd u)) ball)).
Proof.
  intros ST Hr H0. destruct (make_world_setup _ _ _ _ _ _ _ (st_paddle _ _ _ ST) (st_blocks _ _ _ ST) (st_ball _ _ _ ST) H0) as (b0 & rects & St).
  induction acts as [|a acts IH]; intros w paddle ball Gl Hb HU.
  - exists w. split; [reflexivity|]. split; [exact (gl_game _ _ _ _ _ _ _ _ _ _ Gl)|]. split; [cbn; lra|]. split; [exact (gl_contacts _ _ _ _ _ _ _ _ _ _ Gl)|].
    pose proof (clear_fills _ _ _ _ (gl_at _ _ _ _ _ _ _ _ _ _ Gl)) as F. cbn [total fold_right length INR]. rewrite !Rmult_0_r, !Rmult_0_l. unfold board in *. rewrite box_shifted_0.
    assert (E : disc_of (shifted 0 0 ball) = disc_of ball) by (unfold disc_of, shifted; cbn [fst snd nth]; now rewrite !Rplus_0_r). rewrite E. exact F.
  - assert (U1 : uncrowded (shifted (vx * a) (vy * a) paddle) blocks (shifted (fst (snd u)) (snd (snd u)) ball)).
    { specialize (HU 1%nat ltac:(cbn; lia)). cbn [firstn total fold_right INR] in HU. now rewrite !Rplus_0_r, !Rmult_1_l in HU. }
    destruct (glide la mi gf o HL Hmi Ho Hg paddle0 blocks ball0 vel w0 b0 rects (st_paddle _ _ _ ST) (st_blocks _ _ _ ST) (st_ball _ _ _ ST) (st_sized _ _ _ ST) Hr (st_hanging _ _ _ ST) H0 St w paddle ball u f a vx vy Gl Hb U1) as (w1 & E1 & T1 & G1).
    destruct (IH w1 _ _ G1 Hb) as (w' & E' & G' & T' & C' & F').
    { intros k Hk. specialize (HU (S k)). rewrite !shifted_twice. replace (vx * a + vx * total (firstn k acts)) with (vx * total (firstn (S k) (a :: acts))) by (cbn [firstn total fold_right]; unfold total; ring).
      replace (vy * a + vy * total (firstn k acts)) with (vy * total (firstn (S k) (a :: acts))) by (cbn [firstn total fold_right]; unfold total; ring).
      replace (fst (snd u) + INR k * fst (snd u)) with (INR (S k) * fst (snd u)) by (rewrite S_INR; ring). replace (snd (snd u) + INR k * snd (snd u)) with (INR (S k) * snd (snd u)) by (rewrite S_INR; ring).
      apply HU. cbn [length]. lia. }
    exists w'. split; [cbn [play]; rewrite E1; exact E'|]. split; [exact G'|]. split; [rewrite T', T1; cbn [length]; rewrite S_INR; ring|]. split; [exact C'|].
    rewrite !shifted_twice in F'. cbn [total fold_right length]. rewrite S_INR. unfold total in F'.
    replace (vx * (a + fold_right Rplus 0 acts)) with (vx * a + vx * fold_right Rplus 0 acts) by ring. replace (vy * (a + fold_right Rplus 0 acts)) with (vy * a + vy * fold_right Rplus 0 acts) by ring.
    replace ((INR (length acts) + 1) * fst (snd u)) with (fst (snd u) + INR (length acts) * fst (snd u)) by ring. replace ((INR (length acts) + 1) * snd (snd u)) with (snd (snd u) + INR (length acts) * snd (snd u)) by ring. exact F'.
Qed.
Lemma uncrowded_0 paddle blocks ball : plain paddle -> plain_ball ball -> uncrowded (shifted 0 0 paddle) blocks (shifted 0 0 ball) -> uncrowded paddle blocks ball.
Proof.
  intros (x & y & w & h & -> & _) (bx & by_ & Eb) H. destruct ball as [bp br]. cbn in Eb. subst bp. unfold shifted in H. cbn [fst snd nth] in H. now rewrite !Rplus_0_r in H.
Qed.
(** a game *)
Lemma free_game paddle blocks ball vel u w0 f vx vy acts : startable paddle blocks ball -> 0 < snd ball -> to_v3 vel = Ok u -> make_world o hd paddle blocks ball vel = Ok w0 ->
  (forall k, (k <= length acts)%nat -> uncrowded (shifted (vx * total (firstn k acts)) (vy * total (firstn k acts)) paddle) blocks (shifted (INR k * fst (snd u)) (INR k * snd (snd u)) ball)) ->
  exists w, play (S (S f)) o hd eng vx vy acts w0 = Ok w /\ game la mi gf o w0 w /\ w_t w = INR (length acts) /\ w_contacts w = [] /\
    Forall2 fills (w_bodies w) (board (shifted (vx * total acts) (vy * total acts) paddle) blocks (shifted (INR (length acts) * fst (snd u)) (INR (length acts) * snd (snd u)) ball)).
Proof.
  intros ST Hr Hv H0 HU. assert (U0 : uncrowded paddle blocks ball).
  { apply uncrowded_0; [exact (st_paddle _ _ _ ST)|exact (st_ball _ _ _ ST)|]. specialize (HU 0%nat (Nat.le_0_l _)). cbn [firstn total fold_right INR] in HU. now rewrite !Rmult_0_r, !Rmult_0_l in HU. }
  destruct (gliding_starts _ _ _ _ _ _ ST Hr Hv U0 H0) as [Gl T0].
  destruct (free_chain _ _ _ _ _ f vx vy u ST Hr H0 acts w0 paddle ball Gl (Rlt_le _ _ Hr)) as (w & E & G & T & C & F); [intros k Hk; apply HU; lia|].
  exists w. rewrite T0, Rplus_0_l in T. auto.
Qed.
(** the planner's dynamics *)
Lemma startable_shifted paddle blocks ball x y bx by_ : startable paddle blocks ball -> uncrowded (shifted x y paddle) blocks (shifted bx by_ ball) -> startable (shifted x y paddle) blocks (shifted bx by_ ball).
Proof.
  intros [S1 S2 S3 S4 S5 S6 S7 S8] [U1 U2]. constructor; auto.
  - now apply plain_shifted.
  - eexists. eexists. reflexivity.
  - unfold board in *. cbn [app] in *. inversion S4 as [|? ? Q1 S4']; subst. inversion S4' as [|? ? Q2 S4'']; subst. constructor; [exact Q1|]. constructor; [|exact S4''].
    unfold box_of, shifted in *. cbn [fst snd nth sized] in *. lra.
  - intros j s Hj Hs. specialize (U2 j s Hj Hs). unfold disc_of in *. destruct s; [destruct U2|]. cbn [far beside] in *. lra.
Qed.
Lemma free_forward paddle blocks ball vel u f vx vy a : startable paddle blocks ball -> blocks <> [] -> 0 < snd ball -> to_v3 vel = Ok u -> uncrowded paddle blocks ball ->
  uncrowded (shifted (vx * a) (vy * a) paddle) blocks (shifted (fst (snd u)) (snd (snd u)) ball) ->
  forward (S (S f)) o hd eng vel vx vy (to_vector paddle blocks ball) a = Ok (to_vector (shifted (vx * a) (vy * a) paddle) blocks (shifted (fst (snd u)) (snd (snd u)) ball)).
Proof.
  intros ST Hne Hr Hv U0 U1. destruct (make_world_starts gf o _ _ _ vel u Hg Ho ST Hv) as [w0 H0]. destruct (gliding_starts _ _ _ _ _ _ ST Hr Hv U0 H0) as [Gl _].
  destruct ST as [S1 S2 S3 S4 S5 S6 S7 S8]. destruct (make_world_setup _ _ _ _ _ _ _ S1 S2 S3 H0) as (b0 & rects & St).
  destruct (glide la mi gf o HL Hmi Ho Hg paddle blocks ball vel w0 b0 rects S1 S2 S3 S4 Hr S6 H0 St w0 paddle ball u f a vx vy Gl (Rlt_le _ _ Hr) U1) as (w1 & E1 & _ & G1).
  destruct (game_state la mi gf o _ _ _ _ _ _ _ _ _ _ _ S1 S2 S3 HL Ho H0 (game_start _ _ _ _ _) E1) as (b & p & rest & Eb & Es).
  unfold forward. rewrite from_seen by assumption. replace (seen blocks) with blocks by (destruct blocks; [congruence|reflexivity]). rewrite H0. cbn [bind]. rewrite Es.
  destruct (gl_at _ _ _ _ _ _ _ _ _ _ G1) as [_ A1 A2]. rewrite Eb in A1, A2. destruct (A2 1%nat p (le_n _) eq_refl) as (s & Hs & Up). cbn in Hs. injection Hs as <-.
  pose proof (upright_pos _ _ (plain_shifted _ (vx * a) (vy * a) S1) Up) as Q1. destruct (A1 b eq_refl) as [_ Q2].
  destruct blocks as [|k ks]; [congruence|]. cbn [bind fst]. rewrite Q1, Q2. reflexivity.
Qed.
Lemma free_plan vel u f vx vy acts : to_v3 vel = Ok u -> forall paddle blocks ball, startable paddle blocks ball -> blocks <> [] -> 0 < snd ball ->
  (forall k, (k <= length acts)%nat -> uncrowded (shifted (vx * total (firstn k acts)) (vy * total (firstn k acts)) paddle) blocks (shifted (INR k * fst (snd u)) (INR k * snd (snd u)) ball)) ->
  plan (S (S f)) o hd eng vel vx vy (to_vector paddle blocks ball) acts
    (to_vector (shifted (vx * total acts) (vy * total acts) paddle) blocks (shifted (INR (length acts) * fst (snd u)) (INR (length acts) * snd (snd u)) ball)).
Proof.
  intros Hv. induction acts as [|a acts IH]; intros paddle blocks ball ST Hne Hr HU.
  - cbn [total fold_right length INR]. rewrite !Rmult_0_r, !Rmult_0_l. destruct (st_paddle _ _ _ ST) as (x & y & w & h & -> & _). destruct (st_ball _ _ _ ST) as (bx & by_ & Eb). destruct ball as [bp br]. cbn in Eb. subst bp.
    unfold shifted. cbn [fst snd nth]. rewrite !Rplus_0_r. constructor.
  - assert (U0 : uncrowded paddle blocks ball).
    { apply uncrowded_0; [exact (st_paddle _ _ _ ST)|exact (st_ball _ _ _ ST)|]. specialize (HU 0%nat (Nat.le_0_l _)). cbn [firstn total fold_right INR] in HU. now rewrite !Rmult_0_r, !Rmult_0_l in HU. }
    assert (U1 : uncrowded (shifted (vx * a) (vy * a) paddle) blocks (shifted (fst (snd u)) (snd (snd u)) ball)).
    { specialize (HU 1%nat ltac:(cbn; lia)). cbn [firstn total fold_right INR] in HU. now rewrite !Rplus_0_r, !Rmult_1_l in HU. }
    econstructor; [exact (free_forward _ _ _ _ _ f vx vy a ST Hne Hr Hv U0 U1)|].
    assert (E1 : forall c, vx * total (a :: c) = vx * a + vx * total c) by (intros; cbn [total fold_right]; unfold total; ring). assert (E2 : forall c, vy * total (a :: c) = vy * a + vy * total c) by (intros; cbn [total fold_right]; unfold total; ring).
    assert (E3 : forall k (z : R), INR (S k) * z = z + INR k * z) by (intros; rewrite S_INR; ring).
    rewrite E1, E2. cbn [length]. rewrite !E3, <- !shifted_twice. apply IH; [now apply startable_shifted|exact Hne|exact Hr|].
    intros k Hk. specialize (HU (S k)). cbn [firstn length] in HU. rewrite E1, E2, !E3, <- !shifted_twice in HU. apply HU. lia.
Qed.
End Free.
