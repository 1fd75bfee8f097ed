(** Scenes of discs and rectangles that stay apart along the axes (proofs for C100) *)
From Coq Require Import List Arith ZArith Lia Bool Reals Lra.
From Verif Require Import Num Tensor Utils Bodies Forces Constraints Contacts World Lapack Pdipm Engines Game Infer
     Spec GeoSpec BodySpec JointSpec FreshSpec ContactSpec LapackSpec EngineSpec GameSpec StaticsSpec InferSpec DemoSpec StrictSpec RBase ResFacts LinAlg BodyFacts RigidFacts GeomFacts BodyReach WorldFacts HandlerFacts
     LayoutFacts HistFacts SatFacts FreshFacts CollideFacts EngineFacts JointFacts JeFacts HeldFacts MomentumFacts FlightFacts EngineProps EngineMore SceneInit RunTotal FuelFacts CacheFacts GroupFacts EnergyRun
     SysFacts StaticsFacts StaticsProps CoastRun GameFacts GameProps GameStart GameFree InferFacts InferRun BesideRun StrictFacts DemoFacts.
Import ListNotations.
Open Scope R_scope.

(** *** a table of bodies *)
Inductive form := Ball (r : R) | Plate (w h : R).
Record thing := Thing { th_form : form; th_p : v3 R; th_v : v3 R; th_rest : R; th_fric : R; th_forces : list nat }.
Definition form_kind (f : form) : kind R := match f with Ball r => KCircle r | Plate w h => KRect (w, h) (corners w h) 0 end.
Definition form_inertia (f : form) : R := match f with Ball r => r * r / 2 | Plate w h => (w * w + h * h) / 12 end.
Definition form_ok (f : form) : Prop := match f with Ball r => 0 < r <= 10 ^ 8 | Plate w h => 0 < w <= 10 ^ 8 /\ 0 < h <= 10 ^ 8 end.
Record matches (i : nat) (th : thing) (b : body R) : Prop := {
  mt_available : available b;
  mt_kind : b_kind b = form_kind (th_form th);
  mt_ok : form_ok (th_form th);
  mt_rot : fst (th_p th) = 0;
  mt_p : b_p b = th_p th;
  mt_v : b_v b = th_v th;
  mt_id : b_id b = i;
  mt_mass : b_mass b = 1;
  mt_inertia : b_inertia b = form_inertia (th_form th);
  mt_rest : b_rest b = th_rest th;
  mt_fric : b_fric b = th_fric th;
  mt_forces : b_forces b = th_forces th }.
Lemma ball_made i x y r s a c rest fric eps : 0 < r <= 10 ^ 8 -> exists b, circle_init (T := R) i [x; y] r [s; a; c] 1 rest fric eps = Ok b /\ b_forces b = [] /\
  b_mass b = 1 /\ forall fs, matches i (Thing (Ball r) (0, (x, y)) (s, (a, c)) rest fric fs) (with_forces b fs).
Proof.
  intros Hr. assert (E : exists b, circle_init (T := R) i [x; y] r [s; a; c] 1 rest fric eps = Ok b) by (unfold circle_init, body_init; cbn [to_v3 bind]; eexists; reflexivity).
  destruct E as [b E]. exists b. split; [exact E|]. pose proof E as E0. unfold circle_init, body_init in E. cbn [to_v3 bind] in E. injection E as <-. split; [reflexivity|]. split; [reflexivity|]. intros fs.
  constructor; try reflexivity.
  - eexists _, [BForces fs]. split; [|reflexivity]. left. exists i, [x; y], r, [s; a; c], 1, rest, fric, eps. exact E0.
  - exact Hr.
  - cbn. unfold circle_inertia. rnum. lra.
Qed.
Lemma plate_made i x y w h s a c rest fric eps : 0 < w <= 10 ^ 8 -> 0 < h <= 10 ^ 8 -> exists b, rect_init (T := R) i [x; y] (w, h) [s; a; c] 1 rest fric eps = Ok b /\ b_forces b = [] /\
  b_mass b = 1 /\ forall fs, matches i (Thing (Plate w h) (0, (x, y)) (s, (a, c)) rest fric fs) (with_forces b fs).
Proof.
  intros Hw Hh. assert (E : exists b, rect_init (T := R) i [x; y] (w, h) [s; a; c] 1 rest fric eps = Ok b).
  { unfold rect_init, hull_init_gen. rewrite rect_verts_corners. cbn [to_v3 bind length corners Nat.ltb Nat.leb andb Nat.eqb fst snd].
    assert (C : is_clockwise (corners w h) = true) by (apply is_clockwise_area; rewrite corners_area; apply Rmult_lt_0_compat; tauto).
    unfold corners in *. rewrite C. cbn [bind]. eexists; reflexivity. }
  destruct E as [b E]. exists b. split; [exact E|]. assert (Cb : constructed b) by (right; right; do 8 eexists; exact E).
  pose proof (rect_init_inv _ _ _ _ _ _ _ _ _ E) as (p' & Ep & _ & Hp' & Hm & Hi & Hv & Hk & Hid & Hfr & Hre & _ & Hvel).
  cbn [to_v3] in Ep. injection Ep as <-. cbn [fst snd] in *. assert (H0 : b_rot b = 0) by (unfold b_rot; rewrite Hp'; reflexivity).
  rewrite H0, map_rotate_0 in Hv. rewrite Hv in Hk. cbn in Hvel. injection Hvel as Hvel.
  split; [now apply constructed_forces|]. split; [exact Hm|]. intros fs. constructor; auto.
  - exists b, [BForces fs]. split; [exact Cb|reflexivity].
  - split; assumption.
  - cbn [with_forces b_inertia]. rewrite Hi. unfold form_inertia, th_form. lra.
Qed.
Lemma no_forces (b : body R) : b_forces b = [] -> with_forces b [] = b.
Proof. destruct b. cbn. now intros ->. Qed.
Lemma matches_fit gf i th b : (18 <= gf)%nat -> matches i th b -> fit gf b.
Proof.
  intros Hg B. pose proof (mt_kind _ _ _ B) as K. pose proof (mt_ok _ _ _ B) as O. destruct (th_form th) as [r|w h]; cbn [form_kind form_ok] in *.
  - apply available_fit; [exact (mt_available _ _ _ B)| | |]; unfold tidy, ContactSpec.in_range, gjk_rounds, is_circle, b_rad, b_verts; rewrite K; cbn [length]; [lra|lra|lia].
  - assert (Ic : is_circle b = false) by (unfold is_circle; now rewrite K). apply available_fit; [exact (mt_available _ _ _ B)| | |].
    + unfold tidy. rewrite Ic. refine (proj1 (rect_tidy b (w, h) (corners w h) 0 (RBavailable _ (mt_available _ _ _ B)) K _ _)); cbn; lra.
    + unfold ContactSpec.in_range. rewrite Ic. intros v Hv. unfold b_verts in Hv. rewrite K in Hv. apply (corners_near w h); tauto.
    + unfold gjk_rounds, b_verts. rewrite K. cbn. lia.
Qed.
Lemma matches_masses i th b : matches i th b -> 0 < b_mass b /\ 0 < b_inertia b.
Proof.
  intros B. rewrite (mt_mass _ _ _ B), (mt_inertia _ _ _ B). split; [lra|]. pose proof (mt_ok _ _ _ B) as O. destruct (th_form th) as [r|w h]; cbn [form_inertia form_ok] in *; [|destruct O]; nra.
Qed.

(** *** how far a body reaches along the axes *)
Definition reaches (f : form) (rot ex ey : R) : Prop :=
  match f with
  | Ball r => r <= ex /\ r <= ey
  | Plate w h => rot = 0 /\ w / 2 <= ex /\ h / 2 <= ey \/ (w + h) / 2 <= ex /\ (w + h) / 2 <= ey
  end.
Definition within (b : body R) (ex ey : R) : Prop := forall q, body_points b q -> Rabs (fst q - fst (b_pos b)) <= ex /\ Rabs (snd q - snd (b_pos b)) <= ey.
Lemma dist_axes q c r : dist q c <= r -> Rabs (fst q - fst c) <= r /\ Rabs (snd q - snd c) <= r.
Proof.
  intros H. unfold dist in H. set (u := fst q - fst c) in *. set (v := snd q - snd c) in *. pose proof (Rle_0_sqr u) as S1. pose proof (Rle_0_sqr v) as S2. unfold Rsqr in *.
  split; (eapply Rle_trans; [|exact H]); rewrite <- sqrt_Rsqr_abs; apply sqrt_le_1_alt; unfold Rsqr; lra.
Qed.
Lemma turned_bound th w h v : 0 < w -> 0 < h -> In v (corners w h) -> Rabs (fst (rotate th v)) <= (w + h) / 2 /\ Rabs (snd (rotate th v)) <= (w + h) / 2.
Proof.
  intros Hw Hh Hv. pose proof (COS_bound th) as C. pose proof (SIN_bound th) as Sn. unfold rotate. set (c := cos th) in *. set (s := sin th) in *. clearbody c s.
  destruct Hv as [<-|[<-|[<-|[<-|[]]]]]; cbn [fst snd]; split; apply Rabs_le; split; nra.
Qed.
Lemma matches_class i th b b' : matches i th b -> moved b b' -> match th_form th with Ball r => b_kind b' = KCircle r | Plate w h => is_circle b' = false /\ b_verts b' = map (rotate (b_rot b')) (corners w h) end.
Proof.
  intros B M. pose proof (mt_kind _ _ _ B) as K. destruct (moved_rel _ rigid_steps _ _ M) as (_ & V & C); [apply shape_poly_wf, available_shape, (mt_available _ _ _ B)|].
  unfold same_class in C. unfold moved_rigidly in V. assert (R0 : b_rot b = 0) by (unfold b_rot; rewrite (mt_p _ _ _ B); exact (mt_rot _ _ _ B)).
  destruct (th_form th) as [r|w h]; cbn [form_kind] in K; rewrite K in C.
  - destruct (b_kind b'); try tauto. now rewrite C.
  - rewrite R0, Rminus_0_r in V. split; [unfold is_circle; destruct (b_kind b'); tauto|]. rewrite V. unfold b_verts at 1. now rewrite K.
Qed.
Lemma matches_within i th b b' ex ey : matches i th b -> moved b b' -> reaches (th_form th) (b_rot b') ex ey -> within b' ex ey.
Proof.
  intros B M Re q Hq. pose proof (matches_class _ _ _ _ B M) as C. pose proof (mt_ok _ _ _ B) as O. unfold body_points in Hq. destruct (th_form th) as [r|w h]; cbn [reaches form_ok] in *.
  - rewrite C in Hq. destruct (dist_axes _ _ _ Hq). split; lra.
  - destruct C as [Ic V]. assert (H : in_hull (b_verts b') (v2sub q (b_pos b'))) by (unfold is_circle in Ic; destruct (b_kind b'); [discriminate|exact Hq|exact Hq]).
    rewrite V in H. change (fst q - fst (b_pos b')) with (fst (v2sub q (b_pos b'))). change (snd q - snd (b_pos b')) with (snd (v2sub q (b_pos b'))).
    destruct Re as [(Z & E1 & E2)|[E1 E2]].
    + rewrite Z, map_rotate_0 in H. split; [apply (in_hull_bound fst _ _ ex (or_introl eq_refl) H)|apply (in_hull_bound snd _ _ ey (or_intror eq_refl) H)];
        (intros v Hv; destruct Hv as [<-|[<-|[<-|[<-|[]]]]]; cbn [fst snd]; apply Rabs_le; split; lra).
    + split; [apply (in_hull_bound fst _ _ ex (or_introl eq_refl) H)|apply (in_hull_bound snd _ _ ey (or_intror eq_refl) H)];
        (intros v Hv; apply in_map_iff in Hv; destruct Hv as (v0 & <- & Hv); destruct (turned_bound (b_rot b') w h v0) as [T1 T2]; [lra|lra|exact Hv|lra]).
Qed.
Lemma within_still b b' ex ey : still b = still b' -> within b ex ey -> within b' ex ey.
Proof.
  intros E W q Hq. destruct (still_shape b b' E) as (_ & Hp & Hc & Hr & Hv & _).
  assert (Q : body_points b q).
  { unfold body_points, is_circle, b_rad in *. rewrite Hv, Hp. destruct (b_kind b), (b_kind b'); try discriminate; try exact Hq. now rewrite Hr. }
  rewrite <- Hp. exact (W q Q).
Qed.
(** two boxes, apart along an axis *)
Definition spaced (d : R) (c1 : pt) (ex1 ey1 : R) (c2 : pt) (ex2 ey2 : R) : Prop :=
  fst c1 + ex1 + ex2 + d < fst c2 \/ fst c2 + ex1 + ex2 + d < fst c1 \/ snd c1 + ey1 + ey2 + d < snd c2 \/ snd c2 + ey1 + ey2 + d < snd c1.
Lemma spaced_sym d c1 ex1 ey1 c2 ex2 ey2 : spaced d c1 ex1 ey1 c2 ex2 ey2 -> spaced d c2 ex2 ey2 c1 ex1 ey1.
Proof. unfold spaced. intros [H|[H|[H|H]]]; [right; left|left|right; right; right|right; right; left]; lra. Qed.
Lemma spaced_overlap d b1 b2 ex1 ey1 ex2 ey2 : within b1 ex1 ey1 -> within b2 ex2 ey2 -> spaced d (b_pos b1) ex1 ey1 (b_pos b2) ex2 ey2 -> exists t, t < - d /\ overlap_at_most t b1 b2.
Proof.
  intros W1 W2 Sp. assert (B : forall q1 q2, body_points b1 q1 -> body_points b2 q2 ->
    (fst q1 <= fst (b_pos b1) + ex1 /\ fst (b_pos b1) - ex1 <= fst q1 /\ snd q1 <= snd (b_pos b1) + ey1 /\ snd (b_pos b1) - ey1 <= snd q1) /\
    (fst q2 <= fst (b_pos b2) + ex2 /\ fst (b_pos b2) - ex2 <= fst q2 /\ snd q2 <= snd (b_pos b2) + ey2 /\ snd (b_pos b2) - ey2 <= snd q2)).
  { intros q1 q2 P1 P2. destruct (W1 q1 P1) as [X1 Y1]. destruct (W2 q2 P2) as [X2 Y2].
    assert (A : forall u k, Rabs u <= k -> u <= k /\ - u <= k) by (intros u k H; pose proof (Rle_abs u); pose proof (Rle_abs (- u)) as Q; rewrite Rabs_Ropp in Q; split; lra).
    apply A in X1. apply A in Y1. apply A in X2. apply A in Y2. lra. }
  destruct Sp as [H|[H|[H|H]]].
  - exists (fst (b_pos b1) + ex1 + ex2 - fst (b_pos b2)). split; [lra|]. exists (-1, 0). split; [unfold unit_vec; cbn; rnum; lra|]. intros q1 q2 P1 P2. specialize (B q1 q2 P1 P2). cbn [fst snd]. lra.
  - exists (fst (b_pos b2) + ex1 + ex2 - fst (b_pos b1)). split; [lra|]. exists (1, 0). split; [unfold unit_vec; cbn; rnum; lra|]. intros q1 q2 P1 P2. specialize (B q1 q2 P1 P2). cbn [fst snd]. lra.
  - exists (snd (b_pos b1) + ey1 + ey2 - snd (b_pos b2)). split; [lra|]. exists (0, -1). split; [unfold unit_vec; cbn; rnum; lra|]. intros q1 q2 P1 P2. specialize (B q1 q2 P1 P2). cbn [fst snd]. lra.
  - exists (snd (b_pos b2) + ey1 + ey2 - snd (b_pos b1)). split; [lra|]. exists (0, 1). split; [unfold unit_vec; cbn; rnum; lra|]. intros q1 q2 P1 P2. specialize (B q1 q2 P1 P2). cbn [fst snd]. lra.
Qed.
Lemma spaced_handler gf o eps clk bs i j b1 b2 t cs bs' clk' : tidy b1 -> tidy b2 -> is_circle b1 = true -> is_circle b2 = false -> t < - eps -> overlap_at_most t b1 b2 ->
  (nth_error bs i = Some b1 /\ nth_error bs j = Some b2 \/ nth_error bs i = Some b2 /\ nth_error bs j = Some b1) ->
  diff_handler (T := R) gf o eps clk bs i j = Ok (cs, bs', clk') -> cs = [].
Proof.
  intros T1 T2 C1 C2 Ht Ho Hij H. pose proof T2 as Cv. unfold tidy in Cv. rewrite C2 in Cv. destruct cs as [|k cs]; [reflexivity|exfalso].
  assert (P : c_pen k <= t). { destruct Hij as [[H1 H2]|[H1 H2]]; [exact (handler_depth _ _ _ _ _ _ _ _ _ _ _ _ _ _ H1 H2 T1 T2 (or_introl C1) Ho H (or_introl eq_refl))|exact (handler_depth _ _ _ _ _ _ _ _ _ _ _ _ _ _ H1 H2 T2 T1 (or_intror C1) (overlap_sym _ _ _ Ho) H (or_introl eq_refl))]. }
  assert (Q : - eps <= c_pen k); [|lra]. unfold diff_handler, get_body in H. destruct Hij as [[H1 H2]|[H1 H2]]; rewrite H1, H2 in H; cbn [bind] in H; (destruct (existsb _ _); [discriminate|]); rewrite C1, C2 in H; cbn [andb orb] in H;
    (destruct (Nat.eqb_spec (length (b_verts b2)) 0) as [|N]; [discriminate|]); bind_inv H as x E; destruct x as [[[[[n p1] p2] pen]|] hu']; try discriminate; injection H as <- _ _ _; cbn [c_pen];
    (eapply circle_hull_pen; [exact Cv| |exact E]; apply Nat.mod_upper_bound; exact N).
Qed.

(** *** a scene of such bodies *)
Record scene (tab : list thing) (bs : list (body R)) : Prop := {
  sc_len : length bs = length tab;
  sc_match : forall i b, nth_error bs i = Some b -> exists th, nth_error tab i = Some th /\ matches i th b }.
(** how far each form reaches at the pose it has, and that the boxes are apart; every pair has a ball *)
Definition boxed (tab : list thing) (ps : list (v3 R)) (ext : list (R * R)) : Prop :=
  (forall i th p e, nth_error tab i = Some th -> nth_error ps i = Some p -> nth_error ext i = Some e -> reaches (th_form th) (fst p) (fst e) (snd e)) /\
  forall i j th1 th2 p1 p2 e1 e2, (i < j)%nat -> nth_error tab i = Some th1 -> nth_error tab j = Some th2 -> nth_error ps i = Some p1 -> nth_error ps j = Some p2 -> nth_error ext i = Some e1 -> nth_error ext j = Some e2 ->
    (exists r, th_form th1 = Ball r \/ th_form th2 = Ball r) /\ spaced (1 / 10) (snd p1) (fst e1) (snd e1) (snd p2) (fst e2) (snd e2).
Lemma scene_clear gf tab bs o (a : world R) ps ext : (18 <= gf)%nat -> scene tab bs -> broadphase_sane o -> Forall2 moved bs (w_bodies a) -> w_eps a = 1 / 10 -> map b_p (w_bodies a) = ps ->
  length ext = length tab -> boxed tab ps ext -> contacts_current o (diff_handler gf o) a -> w_contacts a = [].
Proof.
  intros Hg Sc Ho Mv Eps Hp Le [Bx Bp] Cu. destruct (w_contacts a) as [|c cs] eqn:Ec; [reflexivity|exfalso].
  assert (Hc : In c (w_contacts a)) by (rewrite Ec; now left). clear Ec cs.
  destruct (current_report _ _ _ _ Cu Hc Ho) as (Hne & L1 & L2 & new & Hin & Hrep).
  assert (G : forall i, (i < length (w_bodies a))%nat -> exists b d th e, nth_error (w_bodies a) i = Some b /\ moved d b /\ matches i th d /\ nth_error tab i = Some th /\ nth_error ps i = Some (b_p b) /\ nth_error ext i = Some e /\ within b (fst e) (snd e) /\ tidy b).
  { intros i Hi. destruct (nth_error (w_bodies a) i) as [b|] eqn:Hb; [|apply nth_error_None in Hb; lia]. destruct (Forall2_nth _ _ _ _ _ Mv Hb) as (d & Hd & Hm). destruct (sc_match _ _ Sc i d Hd) as (th & Ht & B).
    destruct (nth_error ext i) as [e|] eqn:He; [|apply nth_error_None in He; rewrite Le, <- (sc_len _ _ Sc) in He; pose proof (proj1 (nth_error_Some bs i) ltac:(congruence)); lia].
    assert (Hps : nth_error ps i = Some (b_p b)) by (rewrite <- Hp, nth_error_map, Hb; reflexivity).
    exists b, d, th, e. do 6 (split; [auto|]). split.
    - exact (matches_within _ _ _ _ _ _ B Hm (Bx _ _ _ _ Ht Hps He)).
    - pose proof (moved_rel _ (fit_steps gf) _ _ Hm (matches_fit gf _ _ _ Hg B)) as F. destruct F as (_ & _ & F & _). exact F. }
  destruct (G _ L1) as (b1 & d1 & th1 & e1 & B1 & M1 & T1 & N1 & P1 & X1 & W1 & D1). destruct (G _ L2) as (b2 & d2 & th2 & e2 & B2 & M2 & T2 & N2 & P2 & X2 & W2 & D2). clear G.
  assert (Sp : (exists r, th_form th1 = Ball r \/ th_form th2 = Ball r) /\ spaced (1 / 10) (b_pos b1) (fst e1) (snd e1) (b_pos b2) (fst e2) (snd e2)).
  { destruct (Nat.lt_total (c_i1 c) (c_i2 c)) as [L|[L|L]]; [|lia|].
    - exact (Bp _ _ _ _ _ _ _ _ L N1 N2 P1 P2 X1 X2).
    - destruct (Bp _ _ _ _ _ _ _ _ L N2 N1 P2 P1 X2 X1) as [[r Q] Sp]. split; [exists r; tauto|now apply spaced_sym]. }
  destruct Sp as [[r Hr] Sp]. destruct (spaced_overlap _ _ _ _ _ _ _ W1 W2 Sp) as (t & Ht & Hov).
  pose proof (matches_class _ _ _ _ T1 M1) as K1. pose proof (matches_class _ _ _ _ T2 M2) as K2.
  destruct (is_circle b1) eqn:C1, (is_circle b2) eqn:C2.
  - destruct Hov as (n & Un & Hn). assert (Hq : forall b, tidy b -> is_circle b = true -> 0 <= b_rad b) by (intros b Tb Cb; unfold tidy in Tb; rewrite Cb in Tb; exact Tb).
    assert (Gd : dist (b_pos b1) (b_pos b2) > b_rad b1 + b_rad b2 + 1 / 10).
    { pose proof (circle_far b1 (v2opp n) C1 (Hq _ D1 C1) (unit_opp _ Un)) as F1. pose proof (circle_far b2 n C2 (Hq _ D2 C2) Un) as F2. specialize (Hn _ _ F1 F2). unfold v2add, v2scale, v2opp in Hn. cbn [fst snd] in Hn. rnum.
      unfold unit_vec in Un. assert (U2 : fst n * fst n + snd n * snd n = 1) by (unfold v2dot in Un; rnum; lra). clear Un.
      set (x1 := fst (b_pos b1)) in *. set (y1 := snd (b_pos b1)) in *. set (x2 := fst (b_pos b2)) in *. set (y2 := snd (b_pos b2)) in *. set (r1 := b_rad b1) in *. set (r2 := b_rad b2) in *. set (n1 := fst n) in *. set (n2 := snd n) in *.
      assert (I : n1 * (x1 - x2) + n2 * (y1 - y2) >= r1 + r2 - t).
      { assert (Z : n1 * (x2 + r2 * n1 - (x1 + r1 * - n1)) + n2 * (y2 + r2 * n2 - (y1 + r1 * - n2)) = - (n1 * (x1 - x2) + n2 * (y1 - y2)) + (r1 + r2) * (n1 * n1 + n2 * n2)) by ring. rewrite U2 in Z. lra. }
      assert (CS : n1 * (x1 - x2) + n2 * (y1 - y2) <= dist (b_pos b1) (b_pos b2)).
      { unfold dist. fold x1 y1 x2 y2. set (u := x1 - x2). set (v := y1 - y2). destruct (Rle_lt_dec (n1 * u + n2 * v) 0) as [Q|Q]; [eapply Rle_trans; [exact Q|apply sqrt_pos]|].
        rewrite <- (sqrt_Rsqr (n1 * u + n2 * v)) by lra. apply sqrt_le_1_alt. unfold Rsqr.
        assert (Z : u * u + v * v - (n1 * u + n2 * v) * (n1 * u + n2 * v) = (n1 * v - n2 * u) * (n1 * v - n2 * u) + (u * u + v * v) * (1 - (n1 * n1 + n2 * n2))) by ring. rewrite U2 in Z. pose proof (Rle_0_sqr (n1 * v - n2 * u)) as Sq. unfold Rsqr in Sq. lra. }
      lra. }
    pose proof (Hq _ D1 C1) as R1. pose proof (Hq _ D2 C2) as R2.
    destruct (current_circles gf o a c b1 b2 Cu Hc B1 B2 C1 C2) as [Q _].
    + intros E. rewrite E in Gd. unfold dist in Gd. rewrite !Rminus_diag_eq, Rmult_0_l, Rplus_0_l, sqrt_0 in Gd by reflexivity. lra.
    + unfold gap in Q. rewrite Eps in Q. lra.
  - destruct Hrep as (clk & bs0 & bs1 & clk1 & Hst & Hd). destruct (still_nth _ _ _ _ Hst B1) as (a1 & A1 & E1). destruct (still_nth _ _ _ _ Hst B2) as (a2 & A2 & E2). rewrite Eps in Hd.
    destruct (spaced_overlap (1 / 10) _ _ _ _ _ _ (within_still _ _ _ _ (eq_sym E1) W1) (within_still _ _ _ _ (eq_sym E2) W2)) as (t' & Ht' & Hov').
    { destruct (still_shape _ _ E1) as (_ & -> & _). destruct (still_shape _ _ E2) as (_ & -> & _). exact Sp. }
    assert (Z : new = []); [|rewrite Z in Hin; destruct Hin]. refine (spaced_handler _ _ _ _ _ _ _ a1 a2 t' _ _ _ (still_tidy _ _ (eq_sym E1) D1) (still_tidy _ _ (eq_sym E2) D2) _ _ Ht' Hov' (or_introl (conj A1 A2)) Hd).
    + destruct (still_shape _ _ E1) as (_ & _ & -> & _). exact C1.
    + destruct (still_shape _ _ E2) as (_ & _ & -> & _). exact C2.
  - destruct Hrep as (clk & bs0 & bs1 & clk1 & Hst & Hd). destruct (still_nth _ _ _ _ Hst B1) as (a1 & A1 & E1). destruct (still_nth _ _ _ _ Hst B2) as (a2 & A2 & E2). rewrite Eps in Hd.
    destruct (spaced_overlap (1 / 10) _ _ _ _ _ _ (within_still _ _ _ _ (eq_sym E2) W2) (within_still _ _ _ _ (eq_sym E1) W1)) as (t' & Ht' & Hov').
    { destruct (still_shape _ _ E1) as (_ & -> & _). destruct (still_shape _ _ E2) as (_ & -> & _). now apply spaced_sym. }
    assert (Z : new = []); [|rewrite Z in Hin; destruct Hin]. refine (spaced_handler _ _ _ _ _ _ _ a2 a1 t' _ _ _ (still_tidy _ _ (eq_sym E2) D2) (still_tidy _ _ (eq_sym E1) D1) _ _ Ht' Hov' (or_intror (conj A1 A2)) Hd).
    + destruct (still_shape _ _ E2) as (_ & _ & -> & _). exact C2.
    + destruct (still_shape _ _ E1) as (_ & _ & -> & _). exact C1.
  - exfalso. destruct Hr as [Hr|Hr]; [rewrite Hr in K1; unfold is_circle in C1; rewrite K1 in C1; discriminate|rewrite Hr in K2; unfold is_circle in C2; rewrite K2 in C2; discriminate].
Qed.
