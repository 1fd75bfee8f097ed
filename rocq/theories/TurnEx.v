(** A turned body by the API, and concrete turned scenes *)
From Coq Require Import List Arith ZArith Bool Reals Lia Lra.
From Verif Require Import Num Tensor Utils Bodies Forces Constraints Contacts World Lapack LapackRef Pdipm Lcp Engines Spec GeoSpec BodySpec JointSpec EngineSpec FreshSpec ContactSpec SymSpec AcceptSpec SceneSpec TurnSpec
     RBase ResFacts BodyFacts RigidFacts GeomFacts BodyReach PlaneFacts HandlerFacts WorldFacts FreshFacts SatFacts CollideFacts LuFacts EngineProps RunTotal LayoutFacts GameProps AcceptFacts InferRun DemoFacts SceneFacts SceneContacts SceneEngine SceneSolve SceneRun SceneInit SceneSame TurnFacts TurnRun FloatEx RealEx ContactEx.
Import ListNotations.
Open Scope R_scope.

Lemma turned_by_api th b : geom_ok b -> turn_body (turned th) b = with_v (set_p b (fst (b_p b) + th, rotate th (b_pos b))) (fst (b_v b), rotate th (snd (b_v b))).
Proof.
  intros (G1 & _ & G3).
  assert (E : turn_pose (turned th) (b_p b) = (fst (b_p b) + th, rotate th (b_pos b))) by (unfold turn_pose, place, hand, b_pos; cbn; f_equal; ring).
  assert (EV : turn_vel (turned th) (b_v b) = (fst (b_v b), rotate th (snd (b_v b)))) by (unfold turn_vel, place, hand; cbn; f_equal; ring).
  assert (PL : forall a, place (turned th) a = rotate th a) by reflexivity.
  unfold turn_body, set_p. rewrite E, EV, G1, PL.
  assert (ED : fst (b_p b) + th - fst (b_p b) = th) by ring.
  assert (R0 : forall a, rotate 0 a = a) by (intros [x y]; unfold rotate; rewrite cos_0, sin_0; cbn [fst snd]; f_equal; ring).
  destruct b as [id k q v m it fr re ep fs [sh gp gq gn]]. cbn [b_kind b_p b_v b_geom g_pos b_pos] in *. 
  destruct k as [r|vs l|d vs l]; cbn [turn_kind kind_upd_rot kind_rotate].
  - unfold with_v, body_set_p. cbn. rewrite map_id. reflexivity.
  - rnum. cbn [fst snd]. rewrite ED. destruct (Reqb th 0) eqn:Z; unfold with_v, body_set_p, with_kind, turn_quat; cbn; rewrite map_id.
    + apply Reqb_true in Z. subst th. f_equal. f_equal. rewrite <- (map_id vs) at 2. apply map_ext. exact R0.
    + f_equal. f_equal. unfold hull_rotate. apply map_ext. intros a. now rewrite rot_apply_rotate.
  - assert (Q : map (rotate th) vs = rect_rotate th vs).
    { destruct G3 as (-> & _). unfold rect_rotate. cbv zeta. unfold corners, vert. cbn [map nth]. rewrite !rot_apply_rotate. 
      repeat (apply f_equal2; [try reflexivity|]); try reflexivity; unfold rotate, v2opp; rnum; cbn [fst snd]; f_equal; lra. }
    rnum. cbn [fst snd]. rewrite ED. assert (Q2 : map (place (turned th)) vs = map (rotate th) vs) by reflexivity.
    assert (EF : fst (turn_pose (turned th) q) = fst q + th) by (rewrite E; reflexivity).
    destruct (Reqb th 0) eqn:Z; unfold with_v, body_set_p, with_kind, turn_quat; cbn -[place rotate rect_rotate map turn_pose turned]; rewrite EF, Q2; cbn [turned v_name]; rewrite !map_id; rnum.
    + apply Reqb_true in Z. subst th. replace (map (rotate 0) vs) with vs by (symmetry; rewrite <- (map_id vs) at 2; apply map_ext; exact R0). reflexivity.
    + rewrite Q. reflexivity.
Qed.

(** the broad phase that reports all pairs does not see the turn *)
Lemma pair_turned th : turned_oracle th pair_oracle pair_oracle.
Proof. split; [|reflexivity]. intros k bs _. cbn. now rewrite !map_length. Qed.
(** a rectangle without friction *)
Lemma smooth_rect id x y w h : 0 < w -> 0 < h -> exists b, plain_rect id x y w h b /\ b_fric b = 0 /\ (0 < b_mass b /\ 0 < b_inertia b) /\ b_forces b = [].
Proof.
  intros Hw Hh. assert (E : exists b, rect_init id [x; y] (w, h) [0; 0; 0] 1 (1/2) 0 (1/10) = Ok b /\ g_no_contact (b_geom b) = [] /\ b_forces b = []).
  { unfold rect_init, hull_init_gen. rewrite rect_verts_corners. cbn [to_v3 bind length corners Nat.ltb Nat.leb andb Nat.eqb].
    assert (C : is_clockwise (corners (fst (w, h)) (snd (w, h))) = true).
    { apply is_clockwise_area. rewrite corners_area. cbn. nra. }
    unfold corners in *. rewrite C. cbn. eexists. split; [reflexivity|]. split; reflexivity. }
  destruct E as (b & E & N & F). exists b. pose proof (rect_init_inv _ _ _ _ _ _ _ _ _ E) as (p & Ep & _ & Hp & Hm & Hin & Hv & Hk & Hi & Hfr & _ & He & _).
  assert (Ep' : p = (0, (x, y))) by (cbn in Ep; congruence). rewrite Ep' in Hp. clear p Ep Ep'. cbn [fst snd] in *. assert (Hr : b_rot b = 0) by (unfold b_rot; rewrite Hp; reflexivity).
  rewrite Hr, map_rotate_0 in Hv. rewrite Hv in Hk. split; [|split; [exact Hfr|split; [|exact F]]].
  - constructor; auto; [right; right; do 8 eexists; exact E|]. unfold b_pos. rewrite Hp. reflexivity.
  - rewrite Hm, Hin. split; [lra|]. nra.
Qed.
(** a 2 by 2 box at the origin, held in place, overlapped by a 4 by 2 box at (1, 1) *)
Definition box_on_box (bs : list (body R)) (js : list (joint R)) : Prop :=
  exists b1 b2, plain_rect 0 0 0 2 2 b1 /\ plain_rect 1 1 1 4 2 b2 /\ b_fric b1 = 0 /\ b_fric b2 = 0 /\ bs = [b1; b2] /\ js = [total_init b1].
Lemma boxes_touch b1 b2 eps : plain_rect 0 0 0 2 2 b1 -> plain_rect 1 1 1 4 2 b2 -> touching eps b1 b2.
Proof.
  intros H1 H2. pose proof (plain_circle _ _ _ _ _ _ H1) as C1. pose proof (plain_circle _ _ _ _ _ _ H2) as C2.
  pose proof (plain_verts _ _ _ _ _ _ H1) as V1. pose proof (plain_verts _ _ _ _ _ _ H2) as V2.
  unfold touching. rewrite C1, C2. cbn [orb]. exists (1, 1). split.
  - apply polygon_points; auto. rewrite V1, (pr_pos _ _ _ _ _ _ H1). exists [1; 0; 0; 0]. split; [reflexivity|]. split; [repeat constructor; lra|]. split; [cbn; lra|]. unfold wsum, corners. v2unfold. cbn. split; lra.
  - apply polygon_points; auto. rewrite V2, (pr_pos _ _ _ _ _ _ H2). exists [1/2; 0; 1/2; 0]. split; [reflexivity|]. split; [repeat constructor; lra|]. split; [cbn; lra|]. unfold wsum, corners. v2unfold. cbn. split; lra.
Qed.
Lemma box_on_box_runs v fixed : length v = 6%nat -> exists bs js w0 w, box_on_box bs js /\ Forall available bs /\ NoDup (map b_id bs) /\
  (forall th, Forall2 (built_alike (turned th) bs) js (map (fun b => total_init (turn_body (turned th) b)) (firstn 1 bs))) /\
  world_init pair_oracle (diff_handler 18 pair_oracle) [] bs js (1/2) (1/10) 0 2 false false = Ok w0 /\ w_contacts w0 <> [] /\
  exec 9 pair_oracle (diff_handler 18 pair_oracle) (pdipm_engine ref_lapack 10) (OSetV v :: map OStep fixed) w0 = Ok w.
Proof.
  intros Lv. destruct (smooth_rect 0 0 0 2 2) as (b1 & H1 & R1 & M1 & F1); [lra|lra|]. destruct (smooth_rect 1 1 1 4 2) as (b2 & H2 & R2 & M2 & F2); [lra|lra|].
  destruct (plain_manageable _ _ _ _ _ _ H1) as (U1 & T1 & B1 & G1); [lra|lra|]. destruct (plain_manageable _ _ _ _ _ _ H2) as (U2 & T2 & B2 & G2); [lra|lra|].
  destruct (plain_convex _ _ _ _ _ _ H1) as [S1 J1]; [lra|lra|]. destruct (plain_convex _ _ _ _ _ _ H2) as [S2 J2]; [lra|lra|].
  set (bs := [b1; b2]). set (js := [total_init b1]).
  assert (Av : Forall available bs) by (constructor; [eapply plain_available; eauto|constructor; [eapply plain_available; eauto|constructor]]).
  assert (Id : NoDup (map b_id bs)) by (cbn; rewrite (pr_id _ _ _ _ _ _ H1), (pr_id _ _ _ _ _ _ H2); repeat constructor; cbn; intuition discriminate).
  assert (Bu : Forall (built bs) js) by (constructor; [|constructor]; apply built_total; now left).
  assert (Hh : Forall (at_hand bs) js). { constructor; [|constructor]. split; [left; reflexivity|]. cbn. discriminate. }
  destruct (init_relaxed_tidy 18 pair_oracle [] bs js (1/2) (1/10) 0 2 false pair_sane ltac:(discriminate)) as [w0 H0]; [|exact Hh|].
  { intros b Hb. rewrite Forall_forall in Av. split; [now apply Av|]. destruct Hb as [<-|[<-|[]]]; auto. }
  pose proof (init_forget _ _ _ _ _ _ _ _ _ _ _ _ (diff_handler_frame 18 pair_oracle) H0) as Ef. pose proof (world_init_inv _ _ _ _ _ _ _ _ _ _ _ _ H0) as Ci.
  assert (SM : smooth 18 bs js w0).
  { constructor; auto.
    - repeat (apply Forall_cons; [auto|]). apply Forall_nil.
    - repeat (apply Forall_cons; [auto|]). apply Forall_nil.
    - repeat (apply Forall_cons; [auto|]). apply Forall_nil.
    - apply (loop_free_add [] (total_init b1) []); [constructor|]. left. exists 0%nat. split; [left; exact (pr_id _ _ _ _ _ _ H1)|intros j []].
    - intros t. unfold world_apply_forces. destruct (w_bodies w0) as [|a1 [|a2 [|]]]; try discriminate Ef. cbn [map bs] in Ef. assert (E1 : forget a1 = forget b1) by congruence. assert (E2 : forget a2 = forget b2) by congruence.
      destruct (forget_keeps _ _ E1) as (_ & _ & _ & Q1 & _). destruct (forget_keeps _ _ E2) as (_ & _ & _ & Q2 & _). cbn [mapM]. unfold body_apply_forces. rewrite Q1, Q2, F1, F2. cbn [mapM bind]. eexists. reflexivity.
    - destruct Ci as (Q & _). rewrite Q. lra.
    - tauto.
    - tauto. }
  destruct (set_v w0 v) as [w1|] eqn:E1; [|exfalso; unfold set_v in E1; apply (f_equal (@length _)) in Ef; rewrite !map_length in Ef; rewrite Ef, Lv in E1; discriminate E1].
  destruct (smooth_steps ref_lapack 10 18 pair_oracle bs js w0 ref_lapack_ok ltac:(lia) pair_sane SM [] (1/2) (1/10) 0 2 false false H0 9 [OSetV v] w1 fixed) as [w Hw]; [lia|cbn [exec]; rewrite E1; reflexivity|].
  exists bs, js, w0, w. split; [exists b1, b2; auto 10|]. split; [exact Av|]. split; [exact Id|]. split; [intros th; constructor; [|constructor]; apply ba_total; now left|]. split; [exact H0|]. split.
  - destruct (scene_body' bs w0 0 b1 Ef eq_refl) as (a1 & A1 & Q1). destruct (scene_body' bs w0 1 b2 Ef eq_refl) as (a2 & A2 & Q2).
    apply still_forget in Q1, Q2. destruct (still_shape _ _ Q1) as (_ & _ & C1 & _ & V1 & N1). destruct (still_shape _ _ Q2) as (_ & _ & C2 & _ & V2 & N2).
    destruct (current_touching 18 pair_oracle w0 0 1 a1 a2) as (c & Hc & _); auto.
    + eapply init_current; [apply diff_handler_frame|exact H0].
    + intros k. left. apply (f_equal (@length _)) in Ef. rewrite !map_length in Ef. cbn [pair_oracle o_collide]. rewrite map_length, Ef. cbn. now left.
    + unfold excluded. rewrite N2, (pr_nc _ _ _ _ _ _ H2). intros [].
    + unfold excluded. rewrite N1, (pr_nc _ _ _ _ _ _ H1). intros [].
    + exact (still_tidy _ _ (eq_sym Q1) T1).
    + exact (still_tidy _ _ (eq_sym Q2) T2).
    + intros _ _. now rewrite V1, V2.
    + destruct Ci as (_ & Q & _). rewrite Q. lra.
    + apply (still_touching _ b1 _ b2); auto. now apply boxes_touch.
    + intros E. now rewrite E in Hc.
  - cbn [exec]. rewrite E1. exact Hw.
Qed.
