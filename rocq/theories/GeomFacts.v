(** Broad-phase geometry: orientation of boxes, no close pair is missed *)
From Coq Require Import List Arith ZArith Bool Reals Lra Lia Psatz.
From Verif Require Import Num Tensor Utils Bodies Constraints Contacts World Spec ResFacts RBase
     GeoSpec BodyFacts RigidFacts WorldFacts HandlerFacts LayoutFacts HistFacts.
Import ListNotations.
Open Scope R_scope.

(** what the constructors establish and moves keep *)
Definition geom_ok (b : body R) : Prop :=
  g_pos (b_geom b) = b_pos b /\
  g_shape (b_geom b) = kind_gshape (b_kind b) (b_eps b) /\
  match b_kind b with
  | KRect d vs _ =>
      vs = map (rotate (b_rot b)) (corners (fst d) (snd d)) /\ 0 < fst d * snd d /\
      match g_quat (b_geom b) with
      | None => b_rot b = 0
      | Some q => q = (sin (- b_rot b / 2), cos (- b_rot b / 2))
      end
  | _ => True
  end.

Lemma max_sq_fold l m :
  m <= fold_left (fun m (v : pt) => if Rltb m (v2dot v v) then v2dot v v else m) l m /\
  (forall v, In v l -> v2dot v v <= fold_left (fun m (v : pt) => if Rltb m (v2dot v v) then v2dot v v else m) l m).
Proof.
  revert m; induction l as [|a l IH]; intros m; cbn [fold_left In]; [split; [lra|tauto]|].
  destruct (Rltb_spec m (v2dot a a)) as [H|H].
  - destruct (IH (v2dot a a)) as [H1 H2]. split; [lra|]. intros v [Hv|Hv]; [subst; lra|auto].
  - destruct (IH m) as [H1 H2]. split; [lra|]. intros v [Hv|Hv]; [subst; lra|auto].
Qed.
Lemma max_sq_ge (vs : list pt) v : In v vs -> v2dot v v <= max_sq vs.
Proof.
  destruct vs as [|a l]; [intros []|]. intros H. unfold max_sq.
  destruct (max_sq_fold l (v2dot a a)) as [H1 H2]. destruct H as [H|H]; [subst; exact H1|apply H2, H].
Qed.
Lemma max_sq_rotate th (vs : list pt) : max_sq (map (rotate th) vs) = max_sq vs.
Proof.
  destruct vs as [|a l]; [reflexivity|]. cbn [map max_sq]. rewrite v2dot_rotate.
  generalize (v2dot a a). induction l as [|b l IH]; intros m; cbn [map fold_left]; [reflexivity|].
  rewrite v2dot_rotate. apply IH.
Qed.

Lemma set_p_geom (b : body R) p : geom_ok b -> geom_ok (set_p b p).
Proof.
  intros (H1 & H2 & H3).
  assert (W : poly_wf b).
  { unfold poly_wf. destruct (b_kind b) as [|vs l|d vs l]; auto. destruct H3 as (-> & _).
    apply rect_form_rotate, corners_form. }
  destruct (set_p_verts b p W) as (W' & Hv & Hc).
  pose proof (bs_p _ same_attrs_steps b p) as (A1 & A2 & A3 & A4 & A5 & A6 & A7 & A8 & A9).
  assert (Hr : b_rot (set_p b p) = fst p) by (unfold b_rot; now rewrite set_p_p).
  split; [|split].
  - unfold b_pos. rewrite set_p_p. unfold set_p. destruct (b_kind b); try reflexivity; destruct (neqb _ _); reflexivity.
  - rewrite A6, A8, H2. unfold same_class, b_verts in *.
    destruct (b_kind b) as [r|vs l|d vs l], (b_kind (set_p b p)) as [r'|vs' l'|d' vs' l']; try tauto; cbn.
    + now subst.
    + subst. now rewrite max_sq_rotate.
    + now subst.
  - rewrite Hr. unfold same_class in *.
    assert (Q : kind_upd_rot (b_kind b) = true -> g_quat (b_geom (set_p b p)) = Some (sin (- fst p / 2), cos (- fst p / 2))).
    { unfold set_p. destruct (b_kind b); try discriminate; intros _; destruct (neqb _ _); reflexivity. }
    unfold b_verts in Hv.
    destruct (b_kind b) as [r|vs l|d vs l], (b_kind (set_p b p)) as [r'|vs' l'|d' vs' l']; try tauto.
    subst d'. destruct H3 as (Ev & Hd & _). rewrite (Q eq_refl). split; [|split; [auto|reflexivity]].
    rewrite Hv, Ev, map_rotate_plus. f_equal. f_equal. ring.
Qed.

Definition geom_rel (b b' : body R) : Prop := geom_ok b -> geom_ok b'.
Lemma geom_steps : body_steps geom_rel.
Proof.
  constructor; unfold geom_rel.
  - auto.
  - intros b v H. exact H.
  - intros b p. apply set_p_geom.
  - intros b b' E (H1 & H2 & H3).
    pose proof (f_equal b_kind E) as Ek. rewrite !forget_b_kind in Ek.
    assert (Eg : b_geom b' = b_geom b) by (rewrite <- (forget_geom b), <- (forget_geom b'), E; reflexivity).
    assert (Ep : b_p b' = b_p b) by (rewrite <- (forget_p b), <- (forget_p b'), E; reflexivity).
    assert (Ee : b_eps b' = b_eps b) by (rewrite <- (forget_eps b), <- (forget_eps b'), E; reflexivity).
    unfold geom_ok, b_pos, b_rot in *. rewrite Eg, Ep, Ee.
    split; auto. split.
    + rewrite H2. destruct (b_kind b), (b_kind b'); try discriminate; inversion Ek; reflexivity.
    + destruct (b_kind b), (b_kind b'); try discriminate; inversion Ek; subst; auto.
Qed.

Lemma circle_init_geom id pos rad vel m rest fric eps b :
  circle_init id pos rad vel m rest fric eps = Ok b -> geom_ok b.
Proof.
  unfold circle_init, body_init. intros H. binv H. binv H. inversion H; subst. repeat split.
Qed.
Lemma hull_init_geom id ref vs vel m rest fric eps b :
  hull_init id ref vs vel m rest fric eps = Ok b -> geom_ok b.
Proof.
  unfold hull_init, hull_init_gen. intros H. destruct (_ && _); [|discriminate].
  unfold body_init in H. binv H. binv H. inversion H; subst. repeat split.
Qed.
Lemma rect_init_geom id pos dims vel m rest fric eps b :
  rect_init id pos dims vel m rest fric eps = Ok b -> geom_ok b.
Proof.
  intros H. destruct (rect_init_inv _ _ _ _ _ _ _ _ _ H) as (p & Ep & Hd & Hp & _ & _ & Hv & Hk & _ & _ & _ & He & _).
  unfold rect_init in H. rewrite Ep in H. cbn [bind] in H. bind_inv H as b1 E1.
  assert (G1 : g_pos (b_geom b1) = b_pos b1 /\ g_shape (b_geom b1) = kind_gshape (b_kind b1) (b_eps b1) /\ g_quat (b_geom b1) = None).
  { unfold hull_init_gen in E1. destruct (_ && _); [|discriminate]. unfold body_init in E1. binv E1. binv E1.
    inversion E1; subst. repeat split. }
  destruct G1 as (G1 & G2 & G3).
  destruct (Nat.eqb (length pos) 3) eqn:El; inversion H; subst b; clear H.
  - assert (K1 : match b_kind b1 with KRect d _ _ => d = dims | _ => False end).
    { unfold hull_init_gen in E1. destruct (_ && _); [|discriminate]. unfold body_init in E1. binv E1. binv E1.
      inversion E1; subst. reflexivity. }
    unfold geom_ok. rewrite Hk. split; [|split].
    + unfold b_pos. rewrite set_p_p. unfold set_p. destruct (b_kind b1); try reflexivity; destruct (neqb _ _); reflexivity.
    + pose proof (bs_p _ same_attrs_steps b1 p) as (A1 & A2 & A3 & A4 & A5 & A6 & A7 & A8 & A9).
      rewrite A6, A8, G2. destruct (b_kind b1); try tauto. now subst.
    + split; [exact Hv|]. split; [exact Hd|].
      assert (Hr : b_rot (set_p b1 p) = fst p) by (unfold b_rot; now rewrite set_p_p). rewrite Hr.
      unfold set_p. destruct (b_kind b1); try tauto; destruct (neqb _ _); reflexivity.
  - unfold geom_ok. rewrite Hk, G3. split; [auto|]. split.
    + rewrite G2, Hk. reflexivity.
    + split; [exact Hv|]. split; [exact Hd|].
      assert (Hl : (length pos = 2)%nat).
      { assert (L : (length pos = 2)%nat \/ (length pos = 3)%nat) by (apply to_v3_ok; eauto).
        destruct L as [L|L]; auto. rewrite L in El. discriminate. }
      destruct pos as [|x [|y [|z l]]]; try discriminate. cbn in Ep. inversion Ep. unfold b_rot. rewrite Hp, <- H0. reflexivity.
Qed.

(** *** box orientation *)
Lemma quat_mat_rot th : quat_mat (Some (sin (- th / 2), cos (- th / 2))) =
  ((- cos th, sin th), (- sin th, - cos th)).
Proof.
  unfold quat_mat.
  assert (E : th = 2 * (th / 2)) by field.
  assert (Ec : cos th = 2 * (cos (th / 2) * cos (th / 2)) - 1).
  { rewrite E at 1. rewrite cos_2a_cos. ring. }
  assert (Es : sin th = 2 * sin (th / 2) * cos (th / 2)).
  { rewrite E at 1. rewrite sin_2a. ring. }
  replace (- th / 2) with (- (th / 2)) by field. rewrite sin_neg, cos_neg, Ec, Es.
  paireq; ring.
Qed.

Definition box_points (th w h : R) (q : pt) : Prop :=
  exists x y, Rabs x <= w / 2 /\ Rabs y <= h / 2 /\ q = rotate th (x, y).

Lemma geom_box (b : body R) d vs l :
  b_kind b = KRect d vs l -> geom_ok b ->
  forall q, geom_points (b_geom b) q <->
            exists q', box_points (b_rot b) (fst d + 2 * b_eps b) (snd d + 2 * b_eps b) q' /\ q = v2add (b_pos b) q'.
Proof.
  intros Ek (H1 & H2 & H3) q. rewrite Ek in H2, H3. destruct H3 as (_ & _ & Hq).
  unfold geom_points. rewrite H2. cbn [kind_gshape]. rnum. rewrite H1.
  destruct (g_quat (b_geom b)) as [qq|].
  - subst qq. rewrite quat_mat_rot. split.
    + intros (x & y & Hx & Hy & E). exists (rotate (b_rot b) (- x, - y)). split.
      * exists (- x), (- y). rewrite !Rabs_Ropp. auto.
      * rewrite E. f_equal. unfold rotate. v2eq.
    + intros (q' & (x & y & Hx & Hy & E) & Eq). exists (- x), (- y). rewrite !Rabs_Ropp.
      repeat split; auto. rewrite Eq, E. f_equal. unfold rotate. v2eq.
  - rewrite Hq. unfold box_points. split.
    + intros (x & y & Hx & Hy & E). exists (x, y). split.
      * exists x, y. rewrite rotate_0. auto.
      * rewrite E. f_equal. unfold quat_mat. v2eq.
    + intros (q' & (x & y & Hx & Hy & E) & Eq). exists x, y. repeat split; auto.
      rewrite Eq, E, rotate_0. f_equal. unfold quat_mat. v2eq.
Qed.

(** *** extents *)
Lemma wsum_bound ws (f : pt -> R) vs k :
  length ws = length vs -> Forall (fun x => 0 <= x) ws -> (forall v, In v vs -> Rabs (f v) <= k) ->
  Rabs (wsum ws f vs) <= k * Rsum ws.
Proof.
  revert vs; induction ws as [|w ws IH]; intros vs Hl Hw Hk; destruct vs as [|v vs]; try discriminate.
  - unfold wsum. cbn. rewrite Rabs_R0. lra.
  - inversion Hw; subst. unfold wsum in *. cbn [combine map fst snd]. rewrite !Rsum_cons.
    assert (E := IH vs ltac:(simpl in Hl; lia) ltac:(auto) ltac:(intros; apply Hk; right; auto)).
    assert (Ev : Rabs (w * f v) <= k * w).
    { rewrite Rabs_mult, (Rabs_pos_eq w) by auto. pose proof (Hk v (or_introl eq_refl)). nra. }
    pose proof (Rabs_triang (w * f v) (Rsum (map (fun wv => fst wv * f (snd wv)) (combine ws vs)))). lra.
Qed.

Lemma in_hull_bound (f : pt -> R) vs q k :
  (f = fst \/ f = snd) -> in_hull vs q -> (forall v, In v vs -> Rabs (f v) <= k) -> Rabs (f q) <= k.
Proof.
  intros Hf (ws & Hl & Hw & Hs & Hx & Hy) Hk.
  destruct Hf as [-> | ->]; [rewrite Hx|rewrite Hy];
    (eapply Rle_trans; [apply wsum_bound with (k := k); eauto|rewrite Hs; lra]).
Qed.

Lemma abs_le_norm a b : Rabs a <= sqrt (a * a + b * b).
Proof.
  rewrite <- (sqrt_Rsqr_abs a). apply sqrt_le_1_alt. unfold Rsqr. nra.
Qed.
Lemma abs_le_norm2 a b : Rabs b <= sqrt (a * a + b * b).
Proof. rewrite Rplus_comm. apply abs_le_norm. Qed.

Lemma cos_sin_abs th : 1 <= Rabs (cos th) + Rabs (sin th).
Proof.
  pose proof (sin2_cos2 th) as H. unfold Rsqr in H.
  pose proof (Rabs_pos (cos th)). pose proof (Rabs_pos (sin th)).
  assert (Rabs (cos th) * Rabs (cos th) = cos th * cos th) by (rewrite <- Rabs_mult; apply Rabs_pos_eq; nra).
  assert (Rabs (sin th) * Rabs (sin th) = sin th * sin th) by (rewrite <- Rabs_mult; apply Rabs_pos_eq; nra).
  nra.
Qed.

Lemma rot_corner_bound th w h v : In v (corners w h) ->
  Rabs (fst (rotate th v)) <= Rabs (cos th) * Rabs (w / 2) + Rabs (sin th) * Rabs (h / 2) /\
  Rabs (snd (rotate th v)) <= Rabs (sin th) * Rabs (w / 2) + Rabs (cos th) * Rabs (h / 2).
Proof.
  intros H.
  assert (Hv : Rabs (fst v) = Rabs (w / 2) /\ Rabs (snd v) = Rabs (h / 2)).
  { unfold corners in H. simpl in H.
    destruct H as [H|[H|[H|[H|[]]]]]; subst v; cbn [fst snd]; rewrite ?Rabs_Ropp; auto. }
  destruct Hv as [H1 H2]. unfold rotate. cbn [fst snd]. rewrite <- H1, <- H2. split.
  - unfold Rminus. eapply Rle_trans; [apply Rabs_triang|]. rewrite Rabs_Ropp, !Rabs_mult. lra.
  - eapply Rle_trans; [apply Rabs_triang|]. rewrite !Rabs_mult. lra.
Qed.

Lemma pts_extent (b : body R) q :
  geom_ok b -> 0 <= b_eps b -> (match b_kind b with KRect d _ _ => 0 < fst d | _ => True end) ->
  body_points b q ->
  Rabs (fst q - fst (b_pos b)) <= fst (aabb_half (b_geom b)) - b_eps b /\
  Rabs (snd q - snd (b_pos b)) <= snd (aabb_half (b_geom b)) - b_eps b.
Proof.
  intros (H1 & H2 & H3) He Hd Hq. unfold body_points in Hq. unfold aabb_half. rewrite H2.
  destruct (b_kind b) as [r|vs l|d vs l] eqn:Ek; cbn [kind_gshape].
  - rnum. cbn [fst snd]. unfold dist in Hq.
    pose proof (abs_le_norm (fst q - fst (b_pos b)) (snd q - snd (b_pos b))).
    pose proof (abs_le_norm2 (fst q - fst (b_pos b)) (snd q - snd (b_pos b))). lra.
  - unfold b_verts in Hq. rewrite Ek in Hq. rnum. cbn [fst snd].
    assert (B : forall v, In v vs -> Rabs (fst v) <= sqrt (max_sq vs) /\ Rabs (snd v) <= sqrt (max_sq vs)).
    { intros v Hv. pose proof (max_sq_ge vs v Hv) as Hm. unfold v2dot in Hm. rnum.
      pose proof (abs_le_norm (fst v) (snd v)). pose proof (abs_le_norm2 (fst v) (snd v)).
      apply sqrt_le_1_alt in Hm. lra. }
    pose proof (in_hull_bound fst vs _ _ ltac:(auto) Hq (fun v Hv => proj1 (B v Hv))) as Bx.
    pose proof (in_hull_bound snd vs _ _ ltac:(auto) Hq (fun v Hv => proj2 (B v Hv))) as By.
    v2unfold. lra.
  - unfold b_verts in Hq. rewrite Ek in Hq. destruct H3 as (Ev & Hd2 & Hquat). rnum.
    assert (Hh : 0 < snd d) by nra.
    assert (B : forall v, In v vs ->
       Rabs (fst v) <= Rabs (cos (b_rot b)) * (fst d / 2) + Rabs (sin (b_rot b)) * (snd d / 2) /\
       Rabs (snd v) <= Rabs (sin (b_rot b)) * (fst d / 2) + Rabs (cos (b_rot b)) * (snd d / 2)).
    { intros v Hv. rewrite Ev in Hv. apply in_map_iff in Hv. destruct Hv as (c & <- & Hc).
      pose proof (rot_corner_bound (b_rot b) _ _ _ Hc) as B.
      rewrite (Rabs_pos_eq (fst d / 2)), (Rabs_pos_eq (snd d / 2)) in B by lra. exact B. }
    pose proof (in_hull_bound fst vs _ _ ltac:(auto) Hq (fun v Hv => proj1 (B v Hv))) as Bx.
    pose proof (in_hull_bound snd vs _ _ ltac:(auto) Hq (fun v Hv => proj2 (B v Hv))) as By.
    assert (M : exists m00 m01 m10 m11, quat_mat (g_quat (b_geom b)) = ((m00, m01), (m10, m11)) /\
       Rabs m00 = Rabs (cos (b_rot b)) /\ Rabs m01 = Rabs (sin (b_rot b)) /\
       Rabs m10 = Rabs (sin (b_rot b)) /\ Rabs m11 = Rabs (cos (b_rot b))).
    { destruct (g_quat (b_geom b)) as [qq|].
      - subst qq. rewrite quat_mat_rot. do 4 eexists. split; [reflexivity|]. rewrite !Rabs_Ropp. auto.
      - rewrite Hquat, cos_0, sin_0. unfold quat_mat. do 4 eexists. split; [reflexivity|].
        repeat split; f_equal; ring. }
    destruct M as (m00 & m01 & m10 & m11 & Em & A00 & A01 & A10 & A11). rewrite Em. cbn [fst snd].
    rewrite !Rabs_mult, A00, A01, A10, A11, (Rabs_pos_eq (fst d + 2 * b_eps b)), (Rabs_pos_eq (snd d + 2 * b_eps b)) by lra.
    pose proof (cos_sin_abs (b_rot b)) as Hcs. unfold v2sub in Bx, By. rnum. cbn [fst snd] in Bx, By.
    split; nra.
Qed.

(** no close pair is missed *)
Lemma broadphase_overlap (b1 b2 : body R) (eps : R) (q1 q2 : pt) :
  geom_ok b1 -> geom_ok b2 -> 0 <= b_eps b1 -> 0 <= b_eps b2 ->
  (match b_kind b1 with KRect d _ _ => 0 < fst d | _ => True end) ->
  (match b_kind b2 with KRect d _ _ => 0 < fst d | _ => True end) ->
  body_points b1 q1 -> body_points b2 q2 -> dist q1 q2 <= eps -> eps <= b_eps b1 + b_eps b2 ->
  aabb_overlap (b_geom b1) (b_geom b2).
Proof.
  intros G1 G2 E1 E2 D1 D2 Q1 Q2 Hd He.
  destruct (pts_extent _ _ G1 E1 D1 Q1) as [X1 Y1]. destruct (pts_extent _ _ G2 E2 D2 Q2) as [X2 Y2].
  destruct G1 as [P1 _], G2 as [P2 _]. unfold aabb_overlap. rewrite P1, P2. unfold dist in Hd.
  pose proof (abs_le_norm (fst q1 - fst q2) (snd q1 - snd q2)).
  pose proof (abs_le_norm2 (fst q1 - fst q2) (snd q1 - snd q2)).
  split.
  - replace (fst (b_pos b1) - fst (b_pos b2)) with
      (- (fst q1 - fst (b_pos b1)) + ((fst q1 - fst q2) + (fst q2 - fst (b_pos b2)))) by ring.
    eapply Rle_trans; [apply Rabs_triang|]. rewrite Rabs_Ropp.
    pose proof (Rabs_triang (fst q1 - fst q2) (fst q2 - fst (b_pos b2))). lra.
  - replace (snd (b_pos b1) - snd (b_pos b2)) with
      (- (snd q1 - snd (b_pos b1)) + ((snd q1 - snd q2) + (snd q2 - snd (b_pos b2)))) by ring.
    eapply Rle_trans; [apply Rabs_triang|]. rewrite Rabs_Ropp.
    pose proof (Rabs_triang (snd q1 - snd q2) (snd q2 - snd (b_pos b2))). lra.
Qed.

Lemma bexec_geom ops b : geom_rel b (bexec ops b).
Proof.
  apply (bexec_rel _ geom_steps).
  - intros c fs H. exact H.
  - intros c nc H. exact H.
Qed.
Lemma constructed_geom b : constructed b -> geom_ok b.
Proof.
  intros [H|[H|H]].
  - destruct H as (id & pos & rad & vel & m & rest & fric & eps & H). eapply circle_init_geom; eauto.
  - destruct H as (id & ref & vs & vel & m & rest & fric & eps & H). eapply hull_init_geom; eauto.
  - destruct H as (id & pos & dims & vel & m & rest & fric & eps & H). eapply rect_init_geom; eauto.
Qed.
Lemma available_geom b : available b -> geom_ok b.
Proof. intros (b0 & ops & H & ->). apply bexec_geom. now apply constructed_geom. Qed.
