(** The simulated Breakout game: how it starts *)
From Coq Require Import List Arith ZArith Lia Bool Reals Lra.
From Verif Require Import Num Tensor Utils Bodies Forces Constraints Contacts World Lapack Engines Breakout Screen Game
     Spec GeoSpec BodySpec JointSpec FreshSpec ContactSpec LapackSpec EngineSpec ScreenSpec GameSpec ResFacts RBase BodyFacts RigidFacts GeomFacts BodyReach WorldFacts HandlerFacts
     LayoutFacts HistFacts SatFacts FreshFacts CollideFacts EngineFacts MomentumFacts EngineProps EngineMore StrictSpec StrictFacts SceneInit RunTotal LapackRef LuFacts GameFacts GameProps.
Import ListNotations.
Open Scope R_scope.

(** *** the layout *)
Lemma points_forget (b : body R) q : body_points (forget b) q <-> body_points b q.
Proof. unfold body_points, forget, set_last. destruct b as [? k ? ? ? ? ? ? ? ? ?]. destruct k; reflexivity. Qed.
Lemma fills_forget b c s : forget b = forget c -> fills c s -> fills b s.
Proof. intros E H q. rewrite <- (points_forget b), E, points_forget. apply H. Qed.
Lemma Forall2_forget_l {B} (P : body R -> B -> Prop) (Q : body R -> Prop) l l' l2 : map forget l = map forget l' -> (forall a b y, forget a = forget b -> P b y -> P a y) -> Forall2 P l' l2 -> Forall2 P l l2.
Proof.
  intros E H F. revert l E. induction F as [|a y l' l2 Ha F IH]; intros l E; destruct l as [|b l]; try discriminate; constructor.
  - eapply H; [|exact Ha]. now injection E.
  - apply IH. now injection E.
Qed.
Lemma ball_fills (b : body R) (ball : ball_params (T := R)) : b_kind b = KCircle (snd ball) -> b_p b = (0, (nth 0 (fst ball) 0, nth 1 (fst ball) 0)) -> fills b (disc_of ball).
Proof. intros Hk Hp q. unfold body_points. rewrite Hk. unfold b_pos. rewrite Hp. reflexivity. Qed.
Lemma setup_layout st gf o paddle blocks ball vel w b0 rects : setup (st := st) o (diff_handler gf o) paddle blocks ball vel w b0 rects -> Forall2 fills (w_bodies w) (board paddle blocks ball).
Proof.
  intros S. pose proof (init_forget _ _ _ _ _ _ _ _ _ _ _ _ (diff_handler_frame gf o) (su_init _ _ _ _ _ _ _ _ _ S)) as E.
  apply (Forall2_forget_l fills (fun _ => True) _ _ _ E); [intros a b y Eab; now apply fills_forget|].
  change (board paddle blocks ball) with (disc_of ball :: tl (board paddle blocks ball)). constructor.
  - apply ball_fills; [exact (su_ball_kind _ _ _ _ _ _ _ _ _ S)|exact (su_ball_p _ _ _ _ _ _ _ _ _ S)].
  - rewrite <- (entries_board paddle blocks ball). pose proof (su_rects _ _ _ _ _ _ _ _ _ S) as F. clear S E. revert F. generalize (entries paddle blocks). intros l F.
    induction F as [|x b l l' H F IH]; cbn [map]; constructor; [now apply rect_body_fills|exact IH].
Qed.
Lemma map_forget_eq {A} (g : body R -> A) l l' : (forall b, g (forget b) = g b) -> map forget l = map forget l' -> map g l = map g l'.
Proof. intros H E. rewrite <- (map_ext (fun b => g (forget b)) g H l), <- (map_ext (fun b => g (forget b)) g H l'). rewrite <- !map_map with (f := forget). now rewrite E. Qed.
Lemma game_layout gf o paddle blocks ball vel w : plain paddle -> Forall plain blocks -> plain_ball ball -> make_world o (diff_handler gf o) paddle blocks ball vel = Ok w ->
  Forall2 fills (w_bodies w) (board paddle blocks ball) /\
  (exists u, to_v3 vel = Ok u /\ map b_v (w_bodies w) = u :: repeat (0, (0, 0)) (6 + length blocks)) /\
  map b_rot (w_bodies w) = repeat 0 (7 + length blocks) /\ map b_mass (w_bodies w) = repeat 1 (7 + length blocks) /\
  map b_rest (w_bodies w) = [1; 1; 1; 1; 1; -1; -1] ++ repeat 1 (length blocks) /\ map b_fric (w_bodies w) = repeat 0 (7 + length blocks).
Proof.
  intros Hp Hb Hball H. destruct (make_world_setup _ _ _ _ _ _ _ Hp Hb Hball H) as (b0 & rects & S). split; [exact (setup_layout _ _ _ _ _ _ _ _ _ _ S)|].
  pose proof (init_forget _ _ _ _ _ _ _ _ _ _ _ _ (diff_handler_frame gf o) (su_init _ _ _ _ _ _ _ _ _ S)) as E.
  rewrite (map_forget_eq b_v _ _ forget_v E), (map_forget_eq b_mass _ _ forget_mass E), (map_forget_eq b_rest _ _ forget_rest E), (map_forget_eq b_fric _ _ forget_fric E).
  rewrite (map_forget_eq b_rot _ _ (fun b => f_equal fst (forget_p b)) E).
  destruct (su_ball _ _ _ _ _ _ _ _ _ S) as (_ & M & _ & F & Rs & _). pose proof (su_rects _ _ _ _ _ _ _ _ _ S) as FR. pose proof (setup_length _ _ _ _ _ _ _ _ _ S) as L.
  assert (G : forall (A : Type) (g : body R -> A) a, (forall x b, rect_body x b -> g b = a) -> map g rects = repeat a (6 + length blocks)).
  { intros A g a Hg. rewrite <- L. clear - FR Hg. revert FR. generalize (entries paddle blocks). intros l FR. induction FR as [|x b l l' Hx FR IH]; [reflexivity|]. cbn [map length repeat]. rewrite (Hg x b Hx), IH. reflexivity. }
  cbn [map]. split; [|split; [|split; [|split]]].
  - exists (b_v b0). split; [exact (su_ball_v _ _ _ _ _ _ _ _ _ S)|]. f_equal. apply G. intros x b (a & c & wd & h & Q). tauto.
  - unfold b_rot at 1. rewrite (su_ball_p _ _ _ _ _ _ _ _ _ S). cbn [fst]. change (7 + length blocks)%nat with (Datatypes.S (6 + length blocks)). cbn [repeat]. f_equal. apply G. intros x b (a & c & wd & h & Q). unfold b_rot. replace (b_p b) with (0, (a, c)) by (symmetry; tauto). reflexivity.
  - rewrite M. change (7 + length blocks)%nat with (Datatypes.S (6 + length blocks)). cbn [repeat]. f_equal. apply G. intros x b (a & c & wd & h & Q). tauto.
  - rewrite Rs. assert (Q : map b_rest rects = map snd (entries paddle blocks)).
    { clear - FR. revert FR. generalize (entries paddle blocks). intros l FR. induction FR as [|x b l l' Hx FR IH]; [reflexivity|]. cbn [map]. destruct Hx as (a & c & wd & h & Hx). f_equal; [tauto|exact IH]. }
    rewrite Q. cbn. rnum. repeat (apply f_equal2; [try reflexivity; lra|]). clear. generalize 7%nat. induction blocks as [|p l IH]; intros k; [reflexivity|]. cbn. f_equal. apply IH.
  - rewrite F. change (7 + length blocks)%nat with (Datatypes.S (6 + length blocks)). cbn [repeat]. f_equal. apply G. intros x b (a & c & wd & h & Q). tauto.
Qed.

(** *** the constructor succeeds *)
Lemma find_contacts_same o hd (wa wb w2 : world R) : w_eps wb = w_eps wa -> w_bodies wb = w_bodies wa -> w_clk wb = w_clk wa -> find_contacts o hd wa = Ok w2 ->
  exists w3, find_contacts o hd wb = Ok w3 /\ w_contacts w3 = w_contacts w2 /\ w_tol w3 = w_tol wb.
Proof.
  intros E1 E2 E3 H. unfold find_contacts in *. cbv zeta in *. rewrite E1, E2, E3. bind_inv H as r Er. rewrite Er. cbn [bind]. destruct r as [[cs bs'] clk]. injection H as <-. eexists. split; [reflexivity|]. auto.
Qed.
Lemma init_strict o hd heap bs js dt eps tol fd ps (w : world R) : world_init o hd heap bs js dt eps tol fd ps false = Ok w -> (forall c, In c (w_contacts w) -> c_pen c <= tol) ->
  exists w', world_init o hd heap bs js dt eps tol fd ps true = Ok w'.
Proof.
  intros H Hc. unfold world_init in *. destruct bs as [|b0 bs]; [discriminate|]. bind_inv H as js' Ej. rewrite Ej. cbn [bind]. bind_inv H as w1 E1. bind_inv H as w2 E2. cbn [andb] in H. injection H as <-.
  unfold set_v in *. cbn [w_bodies] in *. destruct (Nat.eqb _ _); [|discriminate]. cbn [bind]. injection E1 as <-.
  match type of E2 with find_contacts _ _ ?a = _ => match goal with |- context [find_contacts o hd ?x] => destruct (find_contacts_same o hd a x w2 eq_refl eq_refl eq_refl E2) as (w3 & E3 & Ec & Et) end end.
  rewrite E3. cbn [bind andb]. assert (P : no_penetration w3 = true).
  { apply no_penetration_spec. apply Forall_forall. intros c Hin. rewrite Et. cbn [w_tol with_state]. rewrite Ec in Hin. apply Rleb_true. now apply Hc. }
  rewrite P. cbn [negb]. eauto.
Qed.
Lemma entries_sized paddle blocks ball : Forall sized (board paddle blocks ball) -> Forall (fun x => sized (box_of (snd (fst x)))) (entries paddle blocks).
Proof.
  intros H. apply Forall_forall. intros x Hx. destruct (In_nth_error _ _ Hx) as [i Hi]. apply (entries_nth _ _ ball) in Hi. rewrite Forall_forall in H. apply H. eapply nth_error_In; eauto.
Qed.
Lemma make_world_parts o hd paddle blocks ball vel u : plain paddle -> Forall plain blocks -> plain_ball ball -> to_v3 vel = Ok u -> Forall (fun p => coloured (box_of p)) blocks -> exists b0 rects,
  circle_init 0 (fst ball) (snd ball) vel 1 1 0 EPSILON = Ok b0 /\ Forall2 makes (entries paddle blocks) rects /\
  make_world o hd paddle blocks ball vel = world_init o hd [] (no_contact_ops (b0 :: rects) (exclusions (length blocks))) (map total_init (tl rects)) DT EPSILON TOL 2 false true.
Proof.
  intros Hp Hb (x & y & Hxy) Hv Hc. unfold make_world.
  assert (E0 : exists b0, circle_init (T := R) 0 (fst ball) (snd ball) vel 1 1 0 EPSILON = Ok b0). { rewrite Hxy. unfold circle_init, body_init. rewrite Hv. cbn [to_v3 bind]. eauto. }
  destruct E0 as [b0 E0]. assert (Q : forall id p r, plain p -> exists b, game_rect (T := R) id p r = Ok b) by (intros id p r (a & c & w & h & -> & Hw & Hh); now apply game_rect_ok).
  destruct (Q 1%nat paddle 1 Hp) as [b1 E1].
  assert (E2 : exists walls, mapM (fun '(id, (p, rest)) => game_rect (T := R) id p rest) (combine (seq 2 5) furniture) = Ok walls).
  { apply mapM_exists. intros [id [p r]] Hin. apply Q. apply in_combine_r in Hin. pose proof furniture_plain as F. rewrite Forall_forall in F. exact (F _ Hin). }
  destruct E2 as [walls E2].
  assert (E3 : exists bricks, mapM (fun '(id, p) => do _ <- block_level (T := R) p; game_rect id p 1) (combine (seq 7 (length blocks)) blocks) = Ok bricks).
  { apply mapM_exists. intros [id p] Hin. apply in_combine_r in Hin. rewrite Forall_forall in Hb, Hc. pose proof (Hb p Hin) as Pp. pose proof (Hc p Hin) as Cp.
    destruct (Q id p 1 Pp) as [b Eb]. destruct Pp as (a & c & w & h & -> & Hw & Hh). unfold block_level. cbn [nth_error fst snd] in *. unfold box_of in Cp. cbn [nth fst snd coloured] in Cp. rnum.
    destruct (Rltb_spec (-7) ((c - h / 2 - 57) / 6)) as [_|N]; [|lra]. destruct (Rltb_spec ((c - h / 2 - 57) / 6) 6) as [_|N]; [|lra]. cbn [andb bind]. eauto. }
  destruct E3 as [bricks E3]. exists b0, (b1 :: walls ++ bricks). split; [exact E0|]. split.
  - constructor; [exact E1|]. apply Forall2_app.
    + apply mapM_Forall2 in E2. clear - E2. revert E2. generalize (combine (seq 2 5) (furniture (T := R))). intros l F. induction F as [|[id [p r]] b l l' Hx F IH]; cbn [map]; constructor; auto.
    + apply mapM_Forall2 in E3. clear - E3. revert E3. generalize (combine (seq 7 (length blocks)) blocks). intros l F. induction F as [|[id p] b l l' Hx F IH]; cbn [map]; constructor; auto. bind_inv Hx as u Eu. exact Hx.
  - rnum. rewrite E0. cbn [bind]. rewrite E1. cbn [bind]. rewrite E2. cbn [bind]. rewrite E3. cbn [bind tl]. rewrite exclude_ops. reflexivity.
Qed.
Lemma corners_near w h v : 0 < w -> 0 < h -> w <= 10 ^ 8 -> h <= 10 ^ 8 -> In v (corners w h) -> dist v (0, 0) <= 10 ^ 9.
Proof.
  intros Hw Hh Lw Lh Hv. assert (E : dist v (0, 0) = sqrt (w / 2 * (w / 2) + h / 2 * (h / 2))). { destruct Hv as [<-|[<-|[<-|[<-|[]]]]]; unfold dist; cbn [fst snd]; f_equal; ring. }
  rewrite E. apply Rsqr_incr_0_var; [|nra]. unfold Rsqr. rewrite sqrt_sqrt by nra. nra.
Qed.
Lemma parts_manageable gf paddle blocks ball b0 rects : (18 <= gf)%nat -> Forall sized (board paddle blocks ball) -> b_kind b0 = KCircle (snd ball) -> available b0 -> Forall2 rect_body (entries paddle blocks) rects ->
  Forall (fun b => available b /\ tidy b /\ ContactSpec.in_range b /\ (gjk_rounds b <= gf)%nat) (b0 :: rects).
Proof.
  intros Hg Hs Hk Ha F. pose proof (entries_sized _ _ _ Hs) as Hz. constructor.
  - split; [exact Ha|]. inversion Hs as [|? ? H0 _]; subst. cbn in H0. unfold tidy, ContactSpec.in_range, gjk_rounds, is_circle, b_rad, b_verts. rewrite Hk. cbn [length]. split; [lra|]. split; [lra|lia].
  - clear Hs. revert F Hz. generalize (entries paddle blocks). intros l F Hz. induction F as [|x b l l' H F IH]; constructor; [|inversion Hz; auto].
    inversion Hz as [|? ? Hx _]; subst. destruct H as (a & c & w & h & Ep & Hw & Hh & Hkb & _ & _ & _ & _ & _ & _ & _ & _ & _ & Av).
    rewrite Ep in Hx. unfold box_of in Hx. cbn [nth fst snd sized] in Hx. split; [exact Av|].
    assert (Ic : is_circle b = false) by (unfold is_circle; now rewrite Hkb). assert (Ev : b_verts b = corners w h) by (unfold b_verts; now rewrite Hkb).
    split; [unfold tidy; rewrite Ic; exact (proj1 (rect_tidy b (w, h) (corners w h) 0 (RBavailable _ Av) Hkb Hw Hh))|].
    split; [unfold ContactSpec.in_range; rewrite Ic; intros v Hv; rewrite Ev in Hv; apply (corners_near w h); auto; lra|]. unfold gjk_rounds. rewrite Ev. cbn. lia.
Qed.
Lemma beside_overlap b1 b2 s1 s2 : fills b1 s1 -> fills b2 s2 -> beside s1 s2 -> overlap_at_most 0 b1 b2 /\ overlap_at_most 0 b2 b1.
Proof.
  intros F1 F2 H. destruct s1 as [c r|]; [|destruct H]. destruct s2 as [|x0 x1 y0 y1]; [destruct H|]. cbn [beside] in H.
  assert (D : forall q, in_piece (Disc c r) q -> fst c - r <= fst q <= fst c + r /\ snd c - r <= snd q <= snd c + r).
  { intros q Hq. cbn in Hq. unfold dist in Hq. set (u := fst q - fst c) in *. set (v := snd q - snd c) in *.
    assert (S : 0 <= u * u + v * v) by nra. pose proof (sqrt_pos (u * u + v * v)) as P. pose proof (sqrt_sqrt _ S) as Q. set (s := sqrt (u * u + v * v)) in *. clearbody s.
    assert (K : forall a b, s * s = a * a + b * b -> - r <= a <= r).
    { intros a b E. split; [destruct (Rle_or_lt (- r) a) as [|L]; [assumption|exfalso]|destruct (Rle_or_lt a r) as [|L]; [assumption|exfalso]].
      - assert (s * s <= - a * - a - (- a - s) * - a) by (assert (0 < (- a - s) * (- a)) by (apply Rmult_lt_0_compat; lra); nra). nra.
      - assert (0 < (a - s) * a) by (apply Rmult_lt_0_compat; lra). assert (0 <= (a - s) * s) by (apply Rmult_le_pos; lra). nra. }
    pose proof (K u v Q). pose proof (K v u ltac:(lra)). unfold u, v in *. lra. }
  destruct H as [H|[H|[H|H]]].
  - split; [exists (-1, 0)|exists (1, 0)]; (split; [unfold unit_vec; cbn; lra|]); intros q1 q2 H1 H2;
      [apply F1, D in H1; apply F2 in H2|apply F2 in H1; apply F1, D in H2]; cbn in *; lra.
  - split; [exists (1, 0)|exists (-1, 0)]; (split; [unfold unit_vec; cbn; lra|]); intros q1 q2 H1 H2;
      [apply F1, D in H1; apply F2 in H2|apply F2 in H1; apply F1, D in H2]; cbn in *; lra.
  - split; [exists (0, -1)|exists (0, 1)]; (split; [unfold unit_vec; cbn; lra|]); intros q1 q2 H1 H2;
      [apply F1, D in H1; apply F2 in H2|apply F2 in H1; apply F1, D in H2]; cbn in *; lra.
  - split; [exists (0, 1)|exists (0, -1)]; (split; [unfold unit_vec; cbn; lra|]); intros q1 q2 H1 H2;
      [apply F1, D in H1; apply F2 in H2|apply F2 in H1; apply F1, D in H2]; cbn in *; lra.
Qed.
Lemma tidy_still a b : still a = still b -> tidy b -> tidy a.
Proof.
  intros E. assert (K : forall x : body R, tidy (still x) <-> tidy x). { intros x. unfold still, forget, set_last, tidy, is_circle, b_rad, b_verts, with_v, with_kind. destruct x as [? k ? ? ? ? ? ? ? ? ?]. now destruct k. }
  intros H. apply K. rewrite E. now apply K.
Qed.
Lemma make_world_starts gf o paddle blocks ball vel u : (18 <= gf)%nat -> broadphase_sane o -> startable paddle blocks ball -> to_v3 vel = Ok u ->
  exists w, make_world o (diff_handler gf o) paddle blocks ball vel = Ok w.
Proof.
  intros Hg Ho ST Hv. pose proof (st_paddle _ _ _ ST) as Hp. pose proof (st_blocks _ _ _ ST) as Hb. pose proof (st_ball _ _ _ ST) as Hball.
  destruct (make_world_parts o (diff_handler gf o) paddle blocks ball vel u Hp Hb Hball Hv (st_coloured _ _ _ ST)) as (c0 & cs & E0 & F & ->).
  destruct (parts_bodies _ _ _ _ _ _ Hp Hb Hball E0 F) as (b0 & rects & -> & -> & Hk & Av & FR & S).
  pose proof (parts_manageable gf _ _ _ _ _ Hg (st_sized _ _ _ ST) Hk Av FR) as HM.
  assert (W : exists w, world_init o (diff_handler gf o) [] (b0 :: rects) (map total_init (tl rects)) DT EPSILON TOL 2 false false = Ok w).
  { unfold world_init. assert (EJ : exists js, mapM (fun j : joint R => do i1 <- index_of (b0 :: rects) (j_b1 j); match j_b2 j with Some id => do i2 <- index_of (b0 :: rects) id; Ok (j, i1, Some i2) | None => Ok (j, i1, None) end) (map total_init (tl rects)) = Ok js).
    { apply mapM_exists. intros j Hj. apply in_map_iff in Hj. destruct Hj as (b & <- & Hin).
      destruct (index_of_total (b0 :: rects) b) as (i & c & Ei & _); [right; destruct rects; [destruct Hin|right; exact Hin]|]. change (j_b1 (total_init b)) with (b_id b). change (j_b2 (total_init b)) with (@None nat). rewrite Ei. cbn [bind]. eauto. }
    destruct EJ as [js EJ]. rewrite EJ. cbn [bind]. unfold set_v. rewrite cat3_length, map_length. cbn [w_bodies]. rewrite Nat.eqb_refl. cbn [bind].
    match goal with |- context [find_contacts _ _ ?x] => assert (FC : exists w2, find_contacts o (diff_handler gf o) x = Ok w2) end.
    { apply find_contacts_total; [exact Ho|]. cbn [w_bodies with_state]. apply Forall_forall. intros b Hin. destruct (In_nth_error _ _ Hin) as [i Hi]. rewrite mapi_nth in Hi.
      destruct (nth_error (b0 :: rects) i) as [c|] eqn:Ec; [|discriminate]. cbn [option_map] in Hi. injection Hi as <-. rewrite Forall_forall in HM. destruct (HM c (nth_error_In _ _ Ec)) as (A & T1 & T2 & T3).
      destruct (fit_manageable gf c (available_fit gf c A T1 T2 T3)) as (M1 & M2 & M3 & M4). split; [exact M1|]. split; [exact M2|]. split; [exact M3|exact M4]. }
    destruct FC as [w2 ->]. cbn [bind andb]. eauto. }
  destruct W as [w W]. apply (init_strict _ _ _ _ _ _ _ _ _ _ _ W). intros c Hc.
  pose proof (S false o (diff_handler gf o) w W) as St. clear S.
  assert (G : game ref_lapack 1 gf o w w) by constructor.
  pose proof (setup_contacts _ _ _ _ _ _ _ _ _ _ _ _ _ ref_lapack_ok Ho (st_hanging _ _ _ ST) St G Hc) as HT.
  pose proof (setup_session ref_lapack 1 gf o _ _ _ _ _ _ _ _ Ho St G) as Hs. pose proof (session_current _ _ _ _ _ _ _ Hs) as Cu.
  destruct (current_report _ _ _ _ Cu Hc Ho) as (Hne & L1 & L2 & new & Hin & (clk & bs0 & bs1 & clk1 & Hst & Hd)).
  pose proof (setup_layout _ _ _ _ _ _ _ _ _ _ St) as Lay. assert (Eps : w_eps w = 1 / 10) by (apply world_init_inv in W; destruct W as (_ & E & _); rewrite E; reflexivity).
  assert (Tol : 0 <= TOL) by (unfold TOL; rnum; lra).
  destruct (nth_error (w_bodies w) (c_i1 c)) as [b1|] eqn:B1; [|apply nth_error_None in B1; lia]. destruct (nth_error (w_bodies w) (c_i2 c)) as [b2|] eqn:B2; [|apply nth_error_None in B2; lia].
  destruct (still_nth _ _ _ _ Hst B1) as (a1 & A1 & E1). destruct (still_nth _ _ _ _ Hst B2) as (a2 & A2 & E2).
  destruct (Forall2_nth_l _ _ _ _ _ Lay B1) as (s1 & S1 & F1). destruct (Forall2_nth_l _ _ _ _ _ Lay B2) as (s2 & S2 & F2).
  pose proof (init_forget _ _ _ _ _ _ _ _ _ _ _ _ (diff_handler_frame gf o) W) as EF.
  assert (Ti : forall i b, nth_error (w_bodies w) i = Some b -> tidy b /\ is_circle b = Nat.eqb i 0).
  { intros i b Hb'. apply (f_equal (fun l => nth_error l i)) in EF. rewrite !nth_error_map, Hb' in EF. destruct (nth_error (b0 :: rects) i) as [d|] eqn:Ed; [|discriminate]. assert (Eq : forget b = forget d) by (now injection EF).
    rewrite Forall_forall in HM. destruct (HM d (nth_error_In _ _ Ed)) as (_ & T1 & _). split; [apply (tidy_still b d); [unfold still; now rewrite Eq|exact T1]|].
    assert (K : forall x : body R, is_circle (forget x) = is_circle x) by (intros x; unfold is_circle, forget, set_last; destruct x as [? k ? ? ? ? ? ? ? ? ?]; now destruct k).
    rewrite <- K, Eq, K. destruct i as [|i]; [injection Ed as <-; unfold is_circle; now rewrite Hk|]. cbn [nth_error] in Ed.
    destruct (Forall2_nth _ _ _ _ _ FR Ed) as (x & _ & (? & ? & ? & ? & _ & _ & _ & Hkd & _)). unfold is_circle. now rewrite Hkd. }
  destruct (Ti _ _ B1) as [T1 C1]. destruct (Ti _ _ B2) as [T2 C2].
  assert (Kc : forall x y : body R, still x = still y -> is_circle x = is_circle y).
  { intros x y E. assert (K : forall x : body R, is_circle (still x) = is_circle x) by (intros z; unfold still, is_circle, forget, set_last; destruct z as [? k ? ? ? ? ? ? ? ? ?]; now destruct k). rewrite <- K, E. apply K. }
  assert (Ball : is_circle b1 = true \/ is_circle b2 = true -> overlap_at_most 0 b1 b2 -> c_pen c <= TOL).
  { intros Hci Hov. apply Rle_trans with 0; [|exact Tol].
    refine (handler_depth _ _ _ _ _ _ _ _ _ _ _ _ c 0 A1 A2 (tidy_still _ _ E1 T1) (tidy_still _ _ E2 T2) _ (still_overlap _ _ _ _ _ E1 E2 Hov) Hd Hin).
    rewrite (Kc _ _ E1), (Kc _ _ E2). exact Hci. }
  assert (Up : forall i b s, (1 <= i)%nat -> nth_error (w_bodies w) i = Some b -> nth_error (board paddle blocks ball) i = Some s -> upright b s).
  { intros i b s Hi Hb' Hs'. destruct i as [|i]; [lia|]. apply (f_equal (fun l => nth_error l (Datatypes.S i))) in EF. rewrite !nth_error_map, Hb' in EF. destruct (nth_error (b0 :: rects) (Datatypes.S i)) as [d|] eqn:Ed; [|discriminate]. assert (Eq : forget b = forget d) by (now injection EF).
    cbn [nth_error] in Ed. destruct (Forall2_nth _ _ _ _ _ FR Ed) as (x & Ex & (a & cy & wd & h & Ep & Hw & Hh & Hkd & Hpd & _)). apply (entries_nth _ _ ball) in Ex. rewrite Hs' in Ex. injection Ex as ->.
    apply (upright_still d); [unfold still; now rewrite Eq|]. exists a, cy, wd, h. rewrite Ep. cbn [box_of fst snd nth]. unfold b_verts, is_circle. rewrite Hkd. auto 8. }
  assert (Apart : (1 <= c_i1 c)%nat -> (1 <= c_i2 c)%nat -> apart (1 / 10) s1 s2 -> False).
  { intros I1 I2 Ha. rewrite Eps in Hd. rewrite (apart_handler _ _ _ _ _ _ _ _ _ _ _ _ _ _ A1 A2 (upright_still _ _ _ (eq_sym E1) (Up _ _ _ I1 B1 S1)) (upright_still _ _ _ (eq_sym E2) (Up _ _ _ I2 B2 S2)) Ha Hd) in Hin. destruct Hin. }
  destruct HT as [HT|HT].
  - pose proof HT as HT'. destruct HT as [[I0 J]|[I1 J]].
    + apply Ball; [left; rewrite C1, I0; reflexivity|]. rewrite I0 in S1. cbn in S1. injection S1 as <-. rewrite I0 in HT'. exact (proj1 (beside_overlap _ _ _ _ F1 F2 (st_beside _ _ _ ST _ _ HT' S2))).
    + exfalso. rewrite I1 in S1, HT'. cbn in S1. injection S1 as <-. apply Apart; [lia|lia|]. exact (st_apart _ _ _ ST _ _ HT' S2).
  - pose proof HT as HT'. destruct HT as [[I0 J]|[I1 J]].
    + apply Ball; [right; rewrite C2, I0; reflexivity|]. rewrite I0 in S2. cbn in S2. injection S2 as <-. rewrite I0 in HT'. exact (proj2 (beside_overlap _ _ _ _ F2 F1 (st_beside _ _ _ ST _ _ HT' S1))).
    + exfalso. rewrite I1 in S2, HT'. cbn in S2. injection S2 as <-. apply Apart; [lia|lia|]. apply apart_sym. exact (st_apart _ _ _ ST _ _ HT' S1).
Qed.
