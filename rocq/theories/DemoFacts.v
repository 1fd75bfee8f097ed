(** slide_demo (proofs for C94) *)
From Coq Require Import List Arith ZArith Bool Reals Lra Lia.
From Verif Require Import Num Tensor Utils Bodies Forces Constraints Contacts World Lapack LapackRef Pdipm Lcp Engines Game Infer Demo Spec GeoSpec BodySpec JointSpec FreshSpec ContactSpec EngineSpec ImpactSpec SlopeSpec StaticsSpec DemoSpec
     RBase ResFacts LinAlg LapackSpec BodyFacts RigidFacts GeomFacts BodyReach WorldFacts HandlerFacts LayoutFacts HistFacts SatFacts FreshFacts CollideFacts EngineFacts JointFacts JeFacts MomentumFacts FlightFacts EngineProps EngineMore SceneInit RunTotal
     EnergyRun SysFacts StaticsFacts StaticsProps GameFacts GameProps GameStart GameFree InferFacts InferRun SlopeProps BesideRun.
Import ListNotations.
Open Scope R_scope.

(** *** a rectangle *)
Record slab (id : nat) (p : v3 R) (w h mass : R) (b : body R) : Prop := {
  sl_available : available b;
  sl_kind : b_kind b = KRect (w, h) (map (rotate (fst p)) (corners w h)) 0;
  sl_p : b_p b = p;
  sl_id : b_id b = id;
  sl_v : b_v b = (0, (0, 0));
  sl_mass : b_mass b = mass;
  sl_inertia : b_inertia b = mass * (w * w + h * h) / 12 }.
Lemma slab_ok id pos p (w h mass rest fric eps : R) : to_v3 pos = Ok p -> (length pos = 3%nat \/ fst p = 0) -> 0 < w -> 0 < h ->
  exists b, rect_init id pos (w, h) [0; 0; 0] mass rest fric eps = Ok b /\ slab id p w h mass b /\ b_forces b = [] /\ b_fric b = fric /\ b_rest b = rest.
Proof.
  intros Hp Hl Hw Hh.
  assert (E : exists b, rect_init (T := R) id pos (w, h) [0; 0; 0] mass rest fric eps = Ok b).
  { unfold rect_init, hull_init_gen. rewrite rect_verts_corners, Hp. cbn [bind length corners Nat.ltb Nat.leb andb Nat.eqb fst snd].
    assert (C : is_clockwise (corners w h) = true) by (apply is_clockwise_area; rewrite corners_area; now apply Rmult_lt_0_compat).
    unfold corners in *. rewrite C. cbn [bind]. destruct p as [a q]. cbn. destruct (length pos =? 3)%nat; eexists; reflexivity. }
  destruct E as [b E]. exists b. split; [exact E|]. assert (Cb : constructed b) by (right; right; do 8 eexists; exact E).
  pose proof (rect_init_inv _ _ _ _ _ _ _ _ _ E) as (p' & Ep & _ & Hp' & Hm & Hi & Hv & Hk & Hid & Hfr & Hre & _ & Hvel).
  rewrite Hp in Ep. injection Ep as <-. cbn [fst snd] in *. assert (H0 : b_rot b = fst p) by (unfold b_rot; now rewrite Hp').
  rewrite H0 in Hv. rewrite Hv in Hk. cbn in Hvel. injection Hvel as Hvel.
  split; [|split; [now apply constructed_forces|auto]]. constructor; auto. exists b, []. split; [exact Cb|reflexivity].
Qed.
Lemma slab_forces id p w h mass b fs : slab id p w h mass b -> slab id p w h mass (with_forces b fs).
Proof.
  intros [(b0 & ops & H & E) K P I V M J]. constructor; auto. exists b0, (ops ++ [BForces fs]). split; [exact H|]. unfold bexec in *. rewrite fold_left_app, <- E. reflexivity.
Qed.
Lemma slab_fit gf id p w h mass b : slab id p w h mass b -> 0 < w <= 10 ^ 8 -> 0 < h <= 10 ^ 8 -> (18 <= gf)%nat -> fit gf b.
Proof.
  intros B [Hw Lw] [Hh Lh] Hg. assert (Ic : is_circle b = false) by (unfold is_circle; now rewrite (sl_kind _ _ _ _ _ _ B)).
  apply available_fit; [exact (sl_available _ _ _ _ _ _ B)| | |].
  - unfold tidy. rewrite Ic. refine (proj1 (rect_tidy b (w, h) _ 0 (RBavailable _ (sl_available _ _ _ _ _ _ B)) (sl_kind _ _ _ _ _ _ B) _ _)); assumption.
  - unfold ContactSpec.in_range. rewrite Ic. intros v Hv. unfold b_verts in Hv. rewrite (sl_kind _ _ _ _ _ _ B) in Hv. apply in_map_iff in Hv. destruct Hv as (u & <- & Hu).
    pose proof (corners_near w h u Hw Hh Lw Lh Hu) as Q. unfold dist, rotate in *. cbn [fst snd] in *. pose proof (sin2_cos2 (fst p)) as SC. unfold Rsqr in SC.
    replace ((cos (fst p) * fst u - sin (fst p) * snd u - 0) * (cos (fst p) * fst u - sin (fst p) * snd u - 0) + (sin (fst p) * fst u + cos (fst p) * snd u - 0) * (sin (fst p) * fst u + cos (fst p) * snd u - 0))
      with ((sin (fst p) * sin (fst p) + cos (fst p) * cos (fst p)) * ((fst u - 0) * (fst u - 0) + (snd u - 0) * (snd u - 0))) by ring.
    now rewrite SC, Rmult_1_l.
  - unfold gjk_rounds, b_verts. rewrite (sl_kind _ _ _ _ _ _ B). cbn. lia.
Qed.
(** where it is after it was moved *)
Lemma slab_moved id p w h mass b b' : slab id p w h mass b -> moved b b' -> is_circle b' = false /\ b_verts b' = map (rotate (b_rot b')) (corners w h).
Proof.
  intros B M. destruct (moved_rel _ rigid_steps _ _ M) as (_ & V & C); [apply shape_poly_wf, available_shape, (sl_available _ _ _ _ _ _ B)|].
  split.
  - unfold same_class in C. rewrite (sl_kind _ _ _ _ _ _ B) in C. unfold is_circle. destruct (b_kind b'); tauto.
  - unfold moved_rigidly in V. rewrite V. unfold b_verts. rewrite (sl_kind _ _ _ _ _ _ B), map_map. apply map_ext. intros u.
    unfold b_rot. rewrite (sl_p _ _ _ _ _ _ B). set (x := fst (b_p b')). set (y := fst p).
    assert (Ec : cos x = cos (x - y) * cos y - sin (x - y) * sin y) by (rewrite <- cos_plus; apply f_equal; ring).
    assert (Es : sin x = sin (x - y) * cos y + cos (x - y) * sin y) by (rewrite <- sin_plus; apply f_equal; ring).
    unfold rotate. cbn [fst snd]. rewrite Ec, Es. apply f_equal2; ring.
Qed.
(** *** the angle of the plane *)
Lemma incline_trig : 0 < sin (PI / 32) < 1 / 10 /\ 99 / 100 < cos (PI / 32) < 1.
Proof.
  assert (D : forall x, cos (2 * x) = 2 * (cos x * cos x) - 1) by (intros x; rewrite cos_2a_cos; ring).
  pose proof PI_RGT_0 as P. assert (C4 : cos (PI / 4) = 1 / sqrt 2) by apply cos_PI4.
  assert (S2 : sqrt 2 * sqrt 2 = 2) by (apply sqrt_sqrt; lra). assert (S0 : 0 < sqrt 2) by (apply sqrt_lt_R0; lra).
  assert (C4' : 707 / 1000 < cos (PI / 4)). { rewrite C4. apply Rmult_lt_reg_r with (sqrt 2); [exact S0|]. unfold Rdiv. rewrite (Rmult_assoc 1), Rinv_l by lra. nra. }
  pose proof (D (PI / 8)) as D8. replace (2 * (PI / 8)) with (PI / 4) in D8 by field. pose proof (D (PI / 16)) as D16. replace (2 * (PI / 16)) with (PI / 8) in D16 by field.
  pose proof (D (PI / 32)) as D32. replace (2 * (PI / 32)) with (PI / 16) in D32 by field.
  assert (C8 : 0 < cos (PI / 8)) by (apply cos_gt_0; lra). assert (C16 : 0 < cos (PI / 16)) by (apply cos_gt_0; lra). assert (C32 : 0 < cos (PI / 32)) by (apply cos_gt_0; lra).
  assert (B8 : 923 / 1000 < cos (PI / 8)) by nra. assert (B16 : 98 / 100 < cos (PI / 16)) by nra.
  assert (S32 : 0 < sin (PI / 32)) by (apply sin_gt_0; lra). pose proof (sin2_cos2 (PI / 32)) as SC. unfold Rsqr in SC. split; split; nra.
Qed.

(** *** the block above the plane *)
Lemma above_plane y b1 b2 : b_verts b1 = map (rotate (PI / 32)) (corners 900 10) -> b_verts b2 = map (rotate 0) (corners 60 60) ->
  b_pos b1 = (500, 300) -> b_pos b2 = (100, y) -> y <= 221 ->
  exists e m, In e (edges (b_verts b1)) /\ separation (b_verts b2) (offset b1 b2) e m /\ 1 / 10 < m.
Proof.
  intros V1 V2 P1 P2 Hy. destruct incline_trig as [Hs Hc]. rewrite V1, V2. unfold offset. rewrite P1, P2, map_rotate_0.
  set (s := sin (PI / 32)) in *. set (c := cos (PI / 32)) in *.
  assert (SC : s * s + c * c = 1) by (pose proof (sin2_cos2 (PI / 32)) as Q; unfold Rsqr in Q; exact Q).
  set (A := rotate (PI / 32) (- (900 / 2), - (10 / 2))). set (B := rotate (PI / 32) (900 / 2, - (10 / 2))).
  exists (A, B), (- 430 * s - c * (y - 270) - 5). split; [cbn; tauto|].
  assert (L : dist A B = 900).
  { unfold dist, A, B, rotate. cbn [fst snd]. fold s c. match goal with |- sqrt ?t = _ => replace t with (900 * 900 * (s * s + c * c)) by field end. rewrite SC, Rmult_1_r. apply sqrt_square. lra. }
  assert (Ed : forall v, edge_dist (A, B) v = s * fst v - c * snd v - 5).
  { intros v. unfold edge_dist. cbn [fst snd]. rewrite L. unfold tri2, det2, A, B, rotate. cbn [fst snd]. fold s c.
    match goal with |- ?t / 900 = _ => replace t with (900 * (s * fst v - c * snd v) - 4500 * (s * s + c * c)) by field end. rewrite SC. field. }
  split; [split|].
  - exists (- (60 / 2), 60 / 2). split; [cbn; tauto|]. rewrite Ed. cbn. rnum. lra.
  - intros v Hv. rewrite Ed. destruct Hv as [<-|[<-|[<-|[<-|[]]]]]; cbn; rnum; lra.
  - nra.
Qed.

Ltac prs := repeat match goal with |- (_, _) = (_, _) => apply f_equal2; try reflexivity end.
Section Slide.
Variables (gf : nat) (o : oracle R) (r b : body R).
Hypothesis Ho : broadphase_sane o.
Hypothesis Hr : slab 0 plane_pose 900 10 1 r.
Hypothesis Hb : slab 1 (0, (100, 100)) 60 60 1 b.
Notation hd := (diff_handler gf o).
Lemma slide_clear (a : world R) y : Forall2 moved [r; b] (w_bodies a) -> w_eps a = 1 / 10 -> map b_p (w_bodies a) = [plane_pose; (0, (100, y))] -> y <= 221 ->
  contacts_current o hd a -> w_contacts a = [].
Proof.
  intros Mv Eps Hp Hy Cu. destruct (w_contacts a) as [|c cs] eqn:Ec; [reflexivity|exfalso].
  assert (Hc : In c (w_contacts a)) by (rewrite Ec; now left). clear Ec cs.
  destruct (current_report _ _ _ _ Cu Hc Ho) as (Hne & L1 & L2 & new & Hin & Hrep).
  inversion Mv as [|x1 x2 l1 l2 M1 Mv' E1 E2]; subst. inversion Mv' as [|y1 y2 k1 k2 M2 Mv'' E3 E4]; subst. inversion Mv''; subst. symmetry in E2. rewrite E2 in *. cbn [map] in Hp.
  assert (Hp1 : b_p x2 = plane_pose) by congruence. assert (Hp2 : b_p y2 = (0, (100, y))) by congruence.
  destruct (slab_moved _ _ _ _ _ _ _ Hr M1) as [C1 V1]. destruct (slab_moved _ _ _ _ _ _ _ Hb M2) as [C2 V2].
  destruct Hrep as (clk & bs0 & bs1 & clk1 & Hst & Hd). rewrite Eps in Hd.
  assert (Pr : forall x z, still x = still z -> b_p x = b_p z /\ b_verts x = b_verts z /\ is_circle x = is_circle z).
  { intros x z E. split; [apply (f_equal b_p) in E; unfold still in E; cbn in E; now rewrite !forget_p in E|]. split.
    - apply (f_equal b_verts) in E. change (b_verts (forget x) = b_verts (forget z)) in E. now rewrite !forget_verts in E.
    - apply (f_equal b_kind) in E. unfold is_circle. destruct x as [? k ? ? ? ? ? ? ? ? ?], z as [? k' ? ? ? ? ? ? ? ? ?]. cbn in *. destruct k, k'; cbn in E; congruence. }
  assert (P0 : forall i x, nth_error bs0 i = Some x -> i = 0%nat -> is_circle x = false /\ b_verts x = map (rotate (PI / 32)) (corners 900 10) /\ b_pos x = (500, 300)).
  { intros i x Hx ->. destruct (still_nth _ _ 0%nat x2 Hst eq_refl) as (x' & Hx' & E). rewrite Hx in Hx'. injection Hx' as <-. destruct (Pr _ _ E) as (Q1 & Q2 & Q3).
    rewrite Q3, Q2, C1, V1. unfold b_rot, b_pos. rewrite Q1, Hp1. unfold plane_pose. cbn [fst snd]. auto. }
  assert (P1 : forall i x, nth_error bs0 i = Some x -> i = 1%nat -> is_circle x = false /\ b_verts x = map (rotate 0) (corners 60 60) /\ b_pos x = (100, y)).
  { intros i x Hx ->. destruct (still_nth _ _ 1%nat y2 Hst eq_refl) as (x' & Hx' & E). rewrite Hx in Hx'. injection Hx' as <-. destruct (Pr _ _ E) as (Q1 & Q2 & Q3).
    rewrite Q3, Q2, C2, V2. unfold b_rot, b_pos. rewrite Q1, Hp2. cbn [fst snd]. auto. }
  assert (Z0 : exists a0, nth_error bs0 0 = Some a0) by (destruct (still_nth _ _ 0%nat x2 Hst eq_refl) as (x' & Hx' & _); eauto).
  assert (Z1 : exists a1, nth_error bs0 1 = Some a1) by (destruct (still_nth _ _ 1%nat y2 Hst eq_refl) as (x' & Hx' & _); eauto).
  destruct Z0 as [a0 Z0]. destruct Z1 as [a1 Z1]. destruct (P0 _ _ Z0 eq_refl) as (K0 & W0 & O0). destruct (P1 _ _ Z1 eq_refl) as (K1 & W1 & O1).
  pose proof (above_plane y a0 a1 W0 W1 O0 O1 Hy) as Sep. cbn [length] in L1, L2.
  assert (N0 : (0 < length (b_verts a0))%nat) by (rewrite W0; cbn; lia). assert (N1 : (0 < length (b_verts a1))%nat) by (rewrite W1; cbn; lia).
  assert (Hcase : (c_i1 c = 0 /\ c_i2 c = 1 \/ c_i1 c = 1 /\ c_i2 c = 0)%nat) by lia. destruct Hcase as [[I1 I2]|[I1 I2]]; rewrite I1, I2 in Hd.
  - rewrite (edge_apart _ _ _ _ _ _ _ _ _ _ _ _ Z0 Z1 K0 K1 N0 N1 (or_introl Sep) Hd) in Hin. destruct Hin.
  - rewrite (edge_apart _ _ _ _ _ _ _ _ _ _ _ _ Z1 Z0 K1 K0 N1 N0 (or_intror Sep) Hd) in Hin. destruct Hin.
Qed.

(** *** the world *)
Hypothesis Hg : (18 <= gf)%nat.
Hypothesis Hrf : b_forces r = [].
Hypothesis Hbf : b_forces b = [0%nat].
Notation hh := [FGrav 100 (Some (0, (0, 100)))].
Lemma slide_available : Forall available [r; b].
Proof. constructor; [exact (sl_available _ _ _ _ _ _ Hr)|]. constructor; [exact (sl_available _ _ _ _ _ _ Hb)|constructor]. Qed.
Lemma slide_fit : Forall (fit gf) [r; b].
Proof. constructor; [apply (slab_fit _ _ _ _ _ _ _ Hr); lra || exact Hg|]. constructor; [apply (slab_fit _ _ _ _ _ _ _ Hb); lra || exact Hg|constructor]. Qed.
Lemma slide_ids : NoDup (map b_id [r; b]).
Proof. cbn. rewrite (sl_id _ _ _ _ _ _ Hr), (sl_id _ _ _ _ _ _ Hb). repeat constructor; cbn; intuition discriminate. Qed.
Lemma slide_built : Forall (built [r; b]) [total_init r].
Proof. constructor; [|constructor]. constructor. now left. Qed.
Lemma slide_loops : loop_free [total_init r].
Proof. apply (loop_free_add [] (total_init r) []); [constructor|]. left. exists 0%nat. split; [left; exact (sl_id _ _ _ _ _ _ Hr)|intros j []]. Qed.
Lemma slide_masses : Forall (fun c : body R => 0 < b_mass c /\ 0 < b_inertia c) [r; b].
Proof.
  constructor; [|constructor; [|constructor]]; rewrite ?(sl_mass _ _ _ _ _ _ Hr), ?(sl_mass _ _ _ _ _ _ Hb), ?(sl_inertia _ _ _ _ _ _ Hr), ?(sl_inertia _ _ _ _ _ _ Hb); lra.
Qed.
Lemma slide_starts : exists w, world_init o hd hh [r; b] [total_init r] STEP EPSILON TOL 2 false true = Ok w.
Proof.
  apply (scene_starts gf o [r; b] [total_init r]); [exact Ho|discriminate|apply slide_available|apply slide_fit|apply slide_ids|apply slide_built|].
  intros w H. apply (slide_clear w 100).
  - exact (beside_moved _ _ _ _ _ _ _ _ _ _ _ H).
  - destruct (world_init_inv _ _ _ _ _ _ _ _ _ _ _ _ H) as (_ & -> & _). reflexivity.
  - pose proof (init_forget _ _ _ _ _ _ _ _ _ _ _ _ (diff_handler_frame gf o) H) as E. apply (f_equal (map b_p)) in E. rewrite !map_map in E.
    rewrite (map_ext _ b_p) in E by (intros; apply forget_p). rewrite E. cbn [map]. rewrite !forget_p. now rewrite (sl_p _ _ _ _ _ _ Hr), (sl_p _ _ _ _ _ _ Hb).
  - lra.
  - eapply init_current; [apply diff_handler_frame|exact H].
Qed.
Section Run.
Variable w0 : world R.
Hypothesis Hw : world_init o hd hh [r; b] [total_init r] STEP EPSILON TOL 2 false true = Ok w0.
Definition held (i : nat) : bool := Nat.eqb i 0.
Definition weights (t : R) : vecR := [0; 0; 0; 0; 0; 100].
Lemma slide_bodies : exists r0 b0, w_bodies w0 = [r0; b0] /\ forget r0 = forget r /\ forget b0 = forget b.
Proof.
  pose proof (init_forget _ _ _ _ _ _ _ _ _ _ _ _ (diff_handler_frame gf o) Hw) as E. destruct (w_bodies w0) as [|r0 [|b0 [|]]]; try discriminate E. cbn [map] in E. exists r0, b0. split; [reflexivity|]. split; congruence.
Qed.
Lemma slide_forces t : world_apply_forces w0 t = Ok (weights t).
Proof.
  destruct slide_bodies as (r0 & b0 & E & E1 & E2). destruct (beside_clock _ _ _ _ _ _ _ _ _ _ _ Hw) as (_ & _ & _ & _ & Eh). unfold world_apply_forces. rewrite E, Eh. cbn [mapM]. unfold body_apply_forces.
  destruct (forget_keeps _ _ E1) as (_ & _ & _ & -> & _). destruct (forget_keeps _ _ E2) as (_ & _ & _ & -> & _). rewrite Hrf, Hbf. cbn. unfold weights. rnum. repeat (apply f_equal2 || apply f_equal); ring || reflexivity.
Qed.
Lemma slide_entry j i1 i2 : In (j, i1, i2) (w_joints w0) -> i1 = 0%nat /\ i2 = None.
Proof.
  intros Hin. destruct (world_init_joints _ _ _ _ _ _ _ _ _ _ _ _ (diff_handler_frame gf o) Hw) as [F _]. apply In_nth_error in Hin. destruct Hin as [k Hk]. destruct (Forall2_nth _ _ _ _ _ F Hk) as (j0 & Hj0 & (-> & (b1 & Hb1 & E1) & E2)).
  destruct k as [|[|]]; try discriminate Hj0. cbn [nth_error] in Hj0. assert (Ej : total_init r = j0) by (now injection Hj0). rewrite <- Ej in E1, E2. change (j_b1 (total_init r)) with (b_id r) in E1. change (j_b2 (total_init r)) with (@None nat) in E2.
  split; [|destruct i2; [destruct E2|reflexivity]]. destruct i1 as [|[|i1]]; [reflexivity| |cbn in Hb1; destruct i1; discriminate Hb1]. cbn in Hb1. injection Hb1 as <-. rewrite (sl_id _ _ _ _ _ _ Hr), (sl_id _ _ _ _ _ _ Hb) in E1. discriminate E1.
Qed.
Lemma slide_structure : jointed w0 held weights.
Proof.
  apply structure_jointed. split.
  - intros j i1 i2 Hin. destruct (slide_entry _ _ _ Hin) as [-> ->]. split; [reflexivity|exact Logic.I].
  - intros i c Hc Hh. unfold held in Hh. apply Nat.eqb_eq in Hh. subst i. destruct slide_bodies as (r0 & b0 & E & E1 & _). rewrite E in Hc. cbn in Hc. injection Hc as <-. destruct (forget_keeps _ _ E1) as (_ & -> & _). exact (sl_v _ _ _ _ _ _ Hr).
Qed.
Lemma slide_balance t : in_balance w0 held (weights t).
Proof.
  destruct slide_bodies as (r0 & b0 & E & _). intros x Lx _ Hx. rewrite E in Lx. cbn in Lx. specialize (Hx 1%nat eq_refl).
  destruct x as [|x0 [|x1 [|x2 [|x3 [|x4 [|x5 [|]]]]]]]; try discriminate Lx. unfold v3_at, vget in Hx. cbn in Hx. injection Hx as -> -> ->. unfold dot, weights. cbn. rnum. ring.
Qed.
Lemma fall_coast k : forall t y v, coast (1 / 30) t (fun _ => (0, (0, 100))) (0, (100, y)) (0, (0, v)) k = ((0, (100, y + INR k / 30 * v + INR k * (INR k + 1) / 18)), (0, (0, v + 10 / 3 * INR k))).
Proof.
  induction k as [|k IH]; intros t y v; cbn [coast].
  - cbn. prs; field.
  - unfold v3add, v3scale, v2add, v2scale. cbn [fst snd]. rnum. replace (0 + 1 / 30 * 0) with 0 by ring. replace (0 + 1 / 30 * 0) with 0 by ring. replace (100 + 1 / 30 * 0) with 100 by ring. rewrite IH, S_INR. prs; field.
Qed.
Lemma slide_coasting k : coasting w0 held weights k = [(plane_pose, (0, (0, 0))); fallen k].
Proof.
  destruct slide_bodies as (r0 & b0 & E & E1 & E2). destruct (beside_clock _ _ _ _ _ _ _ _ _ _ _ Hw) as (Ed & Et & _). unfold coasting. rewrite E. cbn [mapi combine seq length map held Nat.eqb fst snd].
  unfold mapi. cbn. destruct (forget_keeps _ _ E1) as (Q1 & _). destruct (forget_keeps _ _ E2) as (Q2 & Q3 & _ & _ & Q5 & Q6). rewrite Q1, Q2, Q3, (sl_p _ _ _ _ _ _ Hr), (sl_p _ _ _ _ _ _ Hb), (sl_v _ _ _ _ _ _ Hb), Ed, Et.
  apply f_equal2; [reflexivity|]. apply f_equal2; [|reflexivity]. unfold STEP. rnum. rewrite (coast_ext (1 / 30) _ (fun _ => (0, (0, 100)))).
  - rewrite fall_coast. unfold fallen. prs; field.
  - intros t. unfold acceleration, weights, v3_at, vget, v2scale. cbn. rewrite Q5, Q6, (sl_mass _ _ _ _ _ _ Hb), (sl_inertia _ _ _ _ _ _ Hb). rnum. prs; field.
Qed.
Lemma slide_away k : (k <= 46)%nat -> EngineSpec.clear_at o hd w0 (map fst (coasting w0 held weights k)).
Proof.
  intros Hk a Mv Eps Hp Cu. rewrite slide_coasting in Hp. cbn [map fst fallen] in Hp. apply (slide_clear a (100 + INR k * (INR k + 1) / 18)); auto.
  - pose proof (beside_moved _ _ _ _ _ _ _ _ _ _ _ Hw) as M0. eapply Forall2_trans'; [apply moved_steps|exact M0|exact Mv].
  - destruct (beside_clock _ _ _ _ _ _ _ _ _ _ _ Hw) as (_ & _ & Q & _). rewrite Eps, Q. reflexivity.
  - apply le_INR in Hk. replace (INR 46) with 46 in Hk by (rewrite INR_IZR_INZ; reflexivity). pose proof (pos_INR k). nra.
Qed.
Theorem slide_run la mi k fuel lfuel run_time : lapack_ok la -> (0 < mi)%nat -> (k <= 46)%nat -> (forall m, (m < k)%nat -> INR m / 30 < run_time) -> run_time <= INR k / 30 -> (k < fuel)%nat ->
  exists w', run_world fuel (S lfuel) o hd (pdipm_engine la mi) run_time w0 = Ok w' /\ map (fun c => (b_p c, b_v c)) (w_bodies w') = [(plane_pose, (0, (0, 0))); fallen k] /\ w_t w' = INR k / 30 /\ w_contacts w' = [].
Proof.
  intros HL Hmi Hk Hlt Hle Hfu. assert (ES : STEP = 1 / 30) by reflexivity.
  destruct (beside_run gf o [r; b] [total_init r] Ho slide_available slide_fit slide_ids slide_built hh STEP EPSILON TOL false true w0 held weights la mi Hw slide_loops slide_masses slide_forces slide_structure HL Hmi k lfuel fuel run_time) as (w' & E & Q1 & Q2 & Q3).
  - intros m _. apply slide_balance.
  - intros m Hm. apply slide_away. lia.
  - intros m Hm. rewrite ES. specialize (Hlt m Hm). lra.
  - rewrite ES. lra.
  - exact Hfu.
  - exists w'. split; [exact E|]. split; [rewrite Q1; apply slide_coasting|]. split; [rewrite Q2, ES; lra|exact Q3].
Qed.
End Run.
End Slide.
(** *** slide_demo itself *)
Lemma slide_made gf o : exists r b, slide_demo (T := R) PI o (diff_handler gf o) = world_init o (diff_handler gf o) [FGrav 100 (Some (0, (0, 100)))] [r; b] [total_init r] STEP EPSILON TOL 2 false true /\
  slab 0 plane_pose 900 10 1 r /\ slab 1 (0, (100, 100)) 60 60 1 b /\ b_forces r = [] /\ b_forces b = [0%nat] /\ b_fric r = 3 / 20 /\ b_fric b = 3 / 20 /\ b_rest r = 1 / 2 /\ b_rest b = 1 / 2.
Proof.
  destruct (slab_ok 0 [PI / 32; 500; 300] plane_pose 900 10 1 RESTITUTION (15 / 100) EPSILON eq_refl (or_introl eq_refl) ltac:(lra) ltac:(lra)) as (r & Er & Hr & Fr & Cr & Rr).
  destruct (slab_ok 1 [100; 100] (0, (100, 100)) 60 60 1 RESTITUTION (15 / 100) EPSILON eq_refl (or_intror eq_refl) ltac:(lra) ltac:(lra)) as (b & Eb & Hb & Fb & Cb & Rb).
  exists r, (with_forces b [0%nat]). split.
  - unfold slide_demo. rnum. unfold Rcst in *. rewrite Er. cbn [bind]. rewrite Eb. cbn [bind]. unfold add_force. cbn [nth_error]. rewrite Fb. cbn [app bind fst snd].
    assert (Es : upd [FGrav 100 None] 0 (set_body (FGrav 100 None) (b_mass b)) = [FGrav 100 (Some (0, (0, 100)))]); [|rewrite Es; reflexivity].
    unfold set_body, upd. cbn. rewrite (sl_mass _ _ _ _ _ _ Hb). unfold v3mulr, DOWN. cbn [fst snd]. rnum. apply f_equal2; [|reflexivity]. apply (f_equal (fun z => FGrav 100 (Some z))). prs; ring.
  - split; [exact Hr|]. split; [now apply slab_forces|]. split; [exact Fr|]. split; [reflexivity|]. cbn [b_fric b_rest with_forces]. rewrite Cr, Cb, Rr, Rb. unfold RESTITUTION. rnum. unfold Rcst. repeat split; lra.
Qed.
Lemma forget_made id p w h (x y : body R) : forget x = forget y -> slab id p w h 1 y -> b_fric y = 3 / 20 -> b_rest y = 1 / 2 -> made x (w, h).
Proof.
  intros E B F Q. pose proof (sl_mass _ _ _ _ _ _ B) as M. pose proof (sl_kind _ _ _ _ _ _ B) as K. destruct (forget_surface _ _ E) as [E1 E2]. destruct (forget_keeps _ _ E) as (_ & _ & _ & _ & E3 & _).
  split; [congruence|]. split; [congruence|]. split; [congruence|]. destruct x as [? kx ? ? ? ? ? ? ? ? ?], y as [? ky ? ? ? ? ? ? ? ? ?]. cbn in K. subst ky. destruct kx; cbn in E; try discriminate E. injection E. intros. subst. cbn. do 2 eexists. reflexivity.
Qed.
Theorem slide_falls gf o : broadphase_sane o -> (18 <= gf)%nat ->
  exists w0, slide_demo PI o (diff_handler gf o) = Ok w0 /\
    map (fun c => (b_p c, b_v c)) (w_bodies w0) = [(plane_pose, (0, (0, 0))); fallen 0] /\
    Forall2 made (w_bodies w0) [(900, 10); (60, 60)] /\ joined w0 = [(JTotal, 0%nat, None)] /\
    forall la mi k fuel lfuel run_time, lapack_ok la -> (0 < mi)%nat -> (k <= 46)%nat -> (forall m, (m < k)%nat -> INR m / 30 < run_time) -> run_time <= INR k / 30 -> (k < fuel)%nat ->
      exists w', run_world fuel (S lfuel) o (diff_handler gf o) (pdipm_engine la mi) run_time w0 = Ok w' /\
        map (fun c => (b_p c, b_v c)) (w_bodies w') = [(plane_pose, (0, (0, 0))); fallen k] /\ w_t w' = INR k / 30 /\ w_contacts w' = [].
Proof.
  intros Ho Hg. destruct (slide_made gf o) as (r & b & E & Hr & Hb & Fr & Fb & Cr & Cb & Rr & Rb).
  destruct (slide_starts gf o r b Ho Hr Hb Hg) as [w0 Hw]. exists w0. split; [rewrite E; exact Hw|].
  destruct (slide_bodies gf o r b w0 Hw) as (r0 & b0 & Eb & E1 & E2). split; [|split; [|split]].
  - rewrite Eb. cbn [map]. destruct (forget_keeps _ _ E1) as (-> & -> & _). destruct (forget_keeps _ _ E2) as (-> & -> & _).
    rewrite (sl_p _ _ _ _ _ _ Hr), (sl_v _ _ _ _ _ _ Hr), (sl_p _ _ _ _ _ _ Hb), (sl_v _ _ _ _ _ _ Hb). unfold fallen. cbn. apply f_equal2; [reflexivity|]. apply f_equal2; [prs; field|reflexivity].
  - rewrite Eb. constructor; [|constructor; [|constructor]]; [eapply forget_made|eapply forget_made]; eauto.
  - unfold joined. destruct (world_init_joints _ _ _ _ _ _ _ _ _ _ _ _ (diff_handler_frame gf o) Hw) as [F _]. inversion F as [|j0 [[j i1] i2] ? l E3 F2 X1 X2]. subst. inversion F2. subst. destruct E3 as (-> & (c & Hc & Ec) & E4). cbn in E4. destruct i2 as [i2|]; [destruct E4|].
    cbn [map]. assert (i1 = 0%nat) as ->; [|reflexivity]. destruct i1 as [|[|[|i1]]]; try discriminate Hc; auto. cbn in Hc. injection Hc as <-. cbn in Ec. rewrite (sl_id _ _ _ _ _ _ Hr), (sl_id _ _ _ _ _ _ Hb) in Ec. discriminate Ec.
  - intros la mi k fuel lfuel run_time. exact (slide_run gf o r b Ho Hr Hb Hg Fr Fb w0 Hw la mi k fuel lfuel run_time).
Qed.
(** one step later the block would be in the plane *)
Lemma incline_sin : 9 / 97 < sin (PI / 32).
Proof.
  pose proof PI2_3_2 as P3. pose proof PI_4 as P4. assert (Hx : 3 / 32 < PI / 32 <= 1 / 8) by lra.
  assert (H : sin (3 / 32) < sin (PI / 32)) by (apply sin_increasing_1; lra).
  pose proof (proj1 (sin_bound (3 / 32) 0 ltac:(lra) ltac:(lra))) as B. unfold sin_approx, sin_term in B. cbn in B. lra.
Qed.
Lemma slide_lands : let corner := (70, snd (snd (fst (fallen 47))) + 30) in
  let u := rotate (- (PI / 32)) (v2sub corner (500, 300)) in Rabs (fst u) < 450 /\ Rabs (snd u) < 5.
Proof.
  cbv zeta. pose proof incline_trig as [[S0 S1] [C0 C1]]. pose proof incline_sin as S2. unfold fallen, rotate, v2sub. cbn [fst snd]. replace (INR 47) with 47 by (rewrite INR_IZR_INZ; reflexivity). rnum. rewrite cos_neg, sin_neg.
  split; apply Rabs_def1; lra.
Qed.
