(** Rigid motion of bodies, inertia, rectangles, construction *)
From Coq Require Import List Arith ZArith Bool Reals Lra Lia Psatz.
From Verif Require Import Num Tensor Utils Bodies Constraints Contacts World Spec ResFacts RBase
     GeoSpec BodyFacts WorldFacts HandlerFacts LayoutFacts HistFacts.
Import ListNotations.
Open Scope R_scope.

(** *** rigid motion *)
(** a rect's four vertices are opposite in pairs *)
Definition rect_form (vs : list pt) : Prop := exists a c : pt, vs = [a; c; v2opp a; v2opp c].
Definition poly_wf (b : body R) : Prop :=
  match b_kind b with KRect _ vs _ => rect_form vs | _ => True end.
Definition moved_rigidly (b b' : body R) : Prop :=
  b_verts b' = map (rotate (b_rot b' - b_rot b)) (b_verts b).
Definition same_class (b b' : body R) : Prop :=
  match b_kind b, b_kind b' with
  | KCircle r, KCircle r' => r' = r
  | KHull _ _, KHull _ _ => True
  | KRect d _ _, KRect d' _ _ => d' = d
  | _, _ => False
  end.

Lemma map_rotate_0 vs : map (rotate 0) vs = vs.
Proof. induction vs; simpl; [reflexivity|]. now rewrite rotate_0, IHvs. Qed.
Lemma map_rotate_plus t1 t2 vs : map (rotate t1) (map (rotate t2) vs) = map (rotate (t1 + t2)) vs.
Proof. rewrite map_map. apply map_ext. intros. apply rotate_plus. Qed.

Lemma hull_rotate_eq th vs : hull_rotate th vs = map (rotate th) vs.
Proof. apply map_ext. intros. apply rot_apply_rotate. Qed.
Lemma rect_rotate_eq th vs : rect_form vs -> rect_rotate th vs = map (rotate th) vs.
Proof.
  intros (a & c & ->). unfold rect_rotate. rewrite !rot_apply_rotate. cbn.
  now rewrite !rotate_opp.
Qed.
Lemma rect_form_rotate th vs : rect_form vs -> rect_form (map (rotate th) vs).
Proof. intros (a & c & ->). exists (rotate th a), (rotate th c). cbn. now rewrite !rotate_opp. Qed.

Lemma set_p_verts (b : body R) p : poly_wf b ->
  poly_wf (set_p b p) /\ b_verts (set_p b p) = map (rotate (fst p - b_rot b)) (b_verts b) /\
  same_class b (set_p b p).
Proof.
  unfold poly_wf, b_verts, b_rot, set_p, same_class. intros H.
  destruct (b_kind b) as [r|vs l|d vs l] eqn:Ek; cbn [b_kind body_set_p].
  - rewrite Ek. auto.
  - rnum. destruct (Reqb_spec (fst p - fst (b_p b)) 0) as [E|E]; cbn.
    + rewrite Ek, E, map_rotate_0. auto.
    + split; [auto|]. split; [apply hull_rotate_eq|auto].
  - rnum. destruct (Reqb_spec (fst p - fst (b_p b)) 0) as [E|E]; cbn.
    + rewrite Ek, E, map_rotate_0. auto.
    + change (rect_rotate (fst p - fst (b_p b)) vs) with (rect_rotate (fst p - fst (b_p b)) vs).
      split; [|split; [|auto]].
      * rewrite rect_rotate_eq by auto. apply rect_form_rotate; auto.
      * apply rect_rotate_eq; auto.
Qed.

Lemma forget_b_kind (b : body R) : b_kind (forget b) =
  match b_kind b with KCircle r => KCircle r | KHull vs _ => KHull vs 0 | KRect d vs _ => KRect d vs 0 end.
Proof. unfold forget, set_last. destruct (b_kind b) eqn:E; auto. Qed.

Definition rigid_rel (b b' : body R) : Prop :=
  poly_wf b -> poly_wf b' /\ moved_rigidly b b' /\ same_class b b'.
Lemma rigid_steps : body_steps rigid_rel.
Proof.
  constructor.
  - intros a b c Hab Hbc Ha. destruct (Hab Ha) as (Hb & Mab & Cab). destruct (Hbc Hb) as (Hc & Mbc & Cbc).
    split; auto. split.
    + unfold moved_rigidly in *. rewrite Mbc, Mab, map_rotate_plus. f_equal. f_equal. lra.
    + unfold same_class in *. destruct (b_kind a), (b_kind b), (b_kind c); try tauto; congruence.
  - intros b v H. split; [exact H|]. split.
    + unfold moved_rigidly. change (b_verts (with_v b v)) with (b_verts b).
      change (b_rot (with_v b v)) with (b_rot b). rewrite Rminus_diag_eq by auto. now rewrite map_rotate_0.
    + unfold same_class. cbn. destruct (b_kind b); auto.
  - intros b p H. destruct (set_p_verts b p H) as (H1 & H2 & H3). split; auto. split; auto.
    unfold moved_rigidly. rewrite H2. unfold b_rot at 2. rewrite set_p_p. reflexivity.
  - intros b b' E H.
    pose proof (f_equal b_kind E) as Ek. rewrite !forget_b_kind in Ek.
    assert (Ev : b_verts b' = b_verts b).
    { rewrite <- (forget_verts b), <- (forget_verts b'), E. reflexivity. }
    assert (Ep : b_p b' = b_p b).
    { rewrite <- (forget_p b), <- (forget_p b'), E. reflexivity. }
    split; [|split].
    + unfold poly_wf in *. destruct (b_kind b), (b_kind b'); try discriminate; auto. inversion Ek; subst; auto.
    + unfold moved_rigidly. rewrite Ev. unfold b_rot. rewrite Ep, Rminus_diag_eq by auto. now rewrite map_rotate_0.
    + unfold same_class. destruct (b_kind b), (b_kind b'); try discriminate; auto; inversion Ek; auto.
Qed.

Lemma bexec_rel RB (H : body_steps RB) ops b :
  (forall b fs, RB b (with_forces b fs)) -> (forall b nc, RB b (with_no_contact b nc)) ->
  RB b (bexec ops b).
Proof.
  intros HF HN. unfold bexec. assert (G : forall b', RB b b' -> RB b (fold_left brun ops b')).
  { induction ops as [|x ops IH]; simpl; intros b' Hb; auto. apply IH. eapply (bs_trans _ H); eauto.
    destruct x; simpl; [apply (bs_p _ H)|unfold move; apply (bs_p _ H)|apply (bs_v _ H)|apply HF|apply HN]. }
  apply G. now apply bs_refl.
Qed.
Lemma rigid_refl_like b b' : b_kind b' = b_kind b -> b_p b' = b_p b -> rigid_rel b b'.
Proof.
  intros Ek Ep H. unfold poly_wf, moved_rigidly, same_class, b_verts, b_rot in *. rewrite Ek, Ep.
  split; auto. split.
  - rewrite Rminus_diag_eq by auto. now rewrite map_rotate_0.
  - destruct (b_kind b); auto.
Qed.
Lemma bexec_rigid ops b : rigid_rel b (bexec ops b).
Proof. apply (bexec_rel _ rigid_steps); intros; apply rigid_refl_like; reflexivity. Qed.

(** *** moment of inertia *)
Definition inertia_num (vs : list pt) : R :=
  esum (fun a b => Rabs (det2 a b) * (v2dot a a + v2dot a b + v2dot b b)) vs.
Definition inertia_den (vs : list pt) : R := esum (fun a b => Rabs (det2 a b)) vs.
Lemma hull_inertia_eq vs m : hull_inertia vs m = 1 / 6 * m * inertia_num vs / inertia_den vs.
Proof.
  set (F := fun '((num, den) : R * R) (i : nat) =>
                 let v1 := vert vs i in
                 let v2' := next_vert vs i in
                 let nc := nabs (cross_2d v2' v1) in
                 (nadd num (nmul nc (nadd (nadd (v2dot v1 v1) (v2dot v1 v2')) (v2dot v2' v2'))), nadd den nc)).
  assert (G : forall l n d, fold_left F l (n, d) =
     (n + Rsum (map (fun i => (fun a b => Rabs (det2 a b) * (v2dot a a + v2dot a b + v2dot b b)) (vert vs i) (next_vert vs i)) l),
      d + Rsum (map (fun i => (fun a b => Rabs (det2 a b)) (vert vs i) (next_vert vs i)) l))).
  { induction l as [|i l IH]; intros n d.
    - simpl. apply f_equal2; ring.
    - cbn [fold_left].
      assert (E : F (n, d) i = (n + (fun a b => Rabs (det2 a b) * (v2dot a a + v2dot a b + v2dot b b)) (vert vs i) (next_vert vs i),
                               d + (fun a b => Rabs (det2 a b)) (vert vs i) (next_vert vs i))).
      { unfold F. cbv zeta. rnum.
        assert (Ec : Rabs (cross_2d (next_vert vs i) (vert vs i)) = Rabs (det2 (vert vs i) (next_vert vs i))).
        { rewrite <- Rabs_Ropp. f_equal. v2unfold. ring. }
        rewrite Ec. reflexivity. }
      rewrite E, IH. cbn [map]. rewrite !Rsum_cons. apply f_equal2; ring. }
  change (hull_inertia vs m) with (let '(num, den) := fold_left F (seq 0 (length vs)) (0, 0) in 1 / 6 * m * num / den).
  rewrite G, (esum_seq (fun a b => Rabs (det2 a b) * (v2dot a a + v2dot a b + v2dot b b))),
    (esum_seq (fun a b => Rabs (det2 a b))), !Rplus_0_l. reflexivity.
Qed.

Lemma hull_inertia_rotate th vs m : hull_inertia (map (rotate th) vs) m = hull_inertia vs m.
Proof.
  rewrite !hull_inertia_eq. unfold inertia_num, inertia_den. rewrite !esum_map.
  rewrite (esum_ext (fun a b => Rabs (det2 (rotate th a) (rotate th b))) (fun a b => Rabs (det2 a b))).
  - f_equal. f_equal. apply esum_ext. intros. now rewrite det2_rotate, !v2dot_rotate.
  - intros. now rewrite det2_rotate.
Qed.

(** the moment about the origin does not depend on the triangulation *)
Lemma moment_fan vs o : esum (tri_moment o) vs =
  1 / 12 * esum (fun a b => det2 a b * (v2dot a a + v2dot a b + v2dot b b)) vs.
Proof.
  rewrite <- esum_scale.
  set (g := fun a : pt => - (1 / 12) * (det2 o a * (v2dot o o + v2dot o a + v2dot a a))).
  assert (E : esum (tri_moment o) vs =
    esum (fun a b => 1 / 12 * (det2 a b * (v2dot a a + v2dot a b + v2dot b b)) + (g b - g a)) vs).
  { apply esum_ext; intros a b _. unfold g, tri_moment. v2unfold. field. }
  rewrite E, esum_plus, (esum_telescope g). ring.
Qed.

Lemma area_den vs : (forall a b, In (a, b) (edges vs) -> 0 <= det2 a b) -> inertia_den vs = 2 * area vs.
Proof.
  intros H. unfold inertia_den, area. replace (2 * (esum det2 vs / 2)) with (esum det2 vs) by field.
  apply esum_ext. intros a b Hab. apply Rabs_pos_eq. auto.
Qed.

(** for a polygon star-shaped about the origin the formula is mass/area times the second moment *)
Lemma hull_inertia_moment vs m J :
  (forall a b, In (a, b) (edges vs) -> 0 <= det2 a b) -> 0 < area vs -> is_moment vs J ->
  hull_inertia vs m = m / area vs * J.
Proof.
  intros Hpos HA HJ. rewrite hull_inertia_eq, (area_den _ Hpos). specialize (HJ (0, 0)).
  rewrite moment_fan in HJ. rewrite HJ. unfold inertia_num.
  assert (E : esum (fun a b => Rabs (det2 a b) * (v2dot a a + v2dot a b + v2dot b b)) vs
            = esum (fun a b => det2 a b * (v2dot a a + v2dot a b + v2dot b b)) vs).
  { apply esum_ext. intros a b Hab. now rewrite Rabs_pos_eq by auto. }
  rewrite E. field. lra.
Qed.
Lemma is_moment_exists vs : exists J, is_moment vs J.
Proof. eexists. intros o. rewrite moment_fan. reflexivity. Qed.

Lemma det2_q_pos a b : det2 a b <> 0 -> 0 < v2dot a a + v2dot a b + v2dot b b.
Proof.
  destruct a as [a1 a2], b as [b1 b2]. v2unfold. intros H.
  destruct (Req_dec a1 0) as [E1|E1]; [|nra]. destruct (Req_dec a2 0) as [E2|E2]; [|nra].
  subst. exfalso. apply H. ring.
Qed.
Lemma area_edge vs : area vs <> 0 -> exists e, In e (edges vs) /\ det2 (fst e) (snd e) <> 0.
Proof.
  intros H. destruct (Exists_dec (fun e => det2 (fst e) (snd e) <> 0) (edges vs)) as [Hd|Hd].
  - intros e. destruct (Req_EM_T (det2 (fst e) (snd e)) 0); [right|left]; auto.
  - apply Exists_exists in Hd. exact Hd.
  - exfalso. apply H. unfold area, esum.
    rewrite (Rsum_map_ext _ (fun _ => 0 * 0)).
    + rewrite Rsum_map_scale. lra.
    + intros e He. destruct (Req_dec (det2 (fst e) (snd e)) 0); [lra|].
      exfalso. apply Hd. apply Exists_exists. eauto.
Qed.
Lemma hull_inertia_pos vs m : area vs <> 0 -> 0 < m -> 0 < hull_inertia vs m.
Proof.
  intros HA Hm. rewrite hull_inertia_eq. destruct (area_edge vs HA) as (e & He & Hd).
  assert (0 < inertia_num vs).
  { apply Rsum_pos.
    - intros [a b] _. cbn [fst snd]. destruct (Req_dec (det2 a b) 0) as [E|E].
      + rewrite E, Rabs_R0. lra.
      + pose proof (det2_q_pos a b E). pose proof (Rabs_pos (det2 a b)). nra.
    - exists e. split; auto. pose proof (det2_q_pos _ _ Hd). pose proof (Rabs_pos_lt _ Hd). nra. }
  assert (0 < inertia_den vs).
  { apply Rsum_pos.
    - intros. apply Rabs_pos.
    - exists e. split; auto. apply Rabs_pos_lt; auto. }
  unfold Rdiv. apply Rmult_lt_0_compat; [|now apply Rinv_0_lt_compat]. nra.
Qed.

(** *** construction *)
Lemma to_v3_ok (l : list R) : (length l = 2 \/ length l = 3)%nat <-> exists v, to_v3 l = Ok v.
Proof.
  split.
  - intros [H|H]; destruct l as [|a [|b [|c [|d l]]]]; try discriminate; simpl; eauto.
  - intros [v Hv]. destruct l as [|a [|b [|c [|d l]]]]; try discriminate; simpl; auto.
Qed.

Lemma hull_init_inv id ref vs vel m rest fric eps b :
  hull_init id ref vs vel m rest fric eps = Ok b ->
  (3 <= length vs)%nat /\ 0 < area vs /\
  b_verts b = map (fun v => v2sub v (get_centroid vs)) vs /\
  b_p b = (0, v2add ref (get_centroid vs)) /\ b_mass b = m /\
  b_inertia b = hull_inertia (b_verts b) m /\ b_kind b = KHull (b_verts b) 0 /\ b_id b = id /\
  b_fric b = fric /\ b_rest b = rest /\ b_eps b = eps /\ to_v3 vel = Ok (b_v b).
Proof.
  unfold hull_init, hull_init_gen. intros H.
  destruct (Nat.ltb 2 (length vs) && is_clockwise vs) eqn:E; [|discriminate].
  apply andb_true_iff in E. destruct E as [E1 E2]. apply Nat.ltb_lt in E1. apply is_clockwise_area in E2.
  unfold body_init in H. binv H. binv H. inversion H; subst; clear H.
  simpl in E. inversion E; subst; clear E. cbn. repeat split; auto.
Qed.

Lemma hull_init_assert id ref vs vel m rest fric eps :
  hull_init id ref vs vel m rest fric eps = Err EAssert <-> ((length vs < 3)%nat \/ area vs <= 0).
Proof.
  unfold hull_init, hull_init_gen. destruct (Nat.ltb 2 (length vs)) eqn:E1.
  - apply Nat.ltb_lt in E1. destruct (is_clockwise vs) eqn:E2; cbn [andb].
    + apply is_clockwise_area in E2. split; [|intros [?|?]; [lia|lra]].
      intros H. exfalso. unfold body_init in H. destruct (to_v3 vel) as [v|er] eqn:Ev; cbn in H; [discriminate|].
      destruct vel as [|a [|c [|d [|f l]]]]; simpl in Ev; inversion Ev; subst; discriminate.
    + split; auto. intros _. right. destruct (Rle_dec (area vs) 0); auto.
      exfalso. assert (0 < area vs) by lra. apply is_clockwise_area in H. congruence.
  - apply Nat.ltb_ge in E1. split; auto. intros _. left. lia.
Qed.
Lemma hull_init_accepts id ref vs vel m rest fric eps :
  (3 <= length vs)%nat -> 0 < area vs -> (length vel = 2 \/ length vel = 3)%nat ->
  exists b, hull_init id ref vs vel m rest fric eps = Ok b.
Proof.
  intros H1 H2 H3. unfold hull_init, hull_init_gen. apply is_clockwise_area in H2. rewrite H2.
  apply Nat.ltb_lt in H1. rewrite H1. cbn [andb]. apply to_v3_ok in H3. destruct H3 as [v Hv].
  unfold body_init. cbn. rewrite Hv. cbn. eauto.
Qed.

(** corners of a w x h rectangle, in order *)
Definition corners (w h : R) : list pt :=
  [ (w / 2, h / 2); (- (w / 2), h / 2); (- (w / 2), - (h / 2)); (w / 2, - (h / 2)) ].
Lemma rect_verts_corners (d : pt) : rect_verts d = corners (fst d) (snd d).
Proof. unfold rect_verts, corners. v2unfold. repeat (apply f_equal2; [paireq; field|]). reflexivity. Qed.
Lemma corners_area w h : area (corners w h) = w * h.
Proof. unfold area, esum, edges, corners, det2. cbn. field. Qed.
Lemma corners_form w h : rect_form (corners w h).
Proof. exists (w / 2, h / 2), (- (w / 2), h / 2). unfold corners. v2unfold. now rewrite Ropp_involutive. Qed.
Lemma corners_centroid w h : is_centroid (corners w h) (0, 0).
Proof.
  intros o. unfold area, esum, edges, corners. cbn [map combine app fst snd Rsum fold_right].
  unfold tri2, det2. cbn [fst snd]. split; field.
Qed.
Lemma corners_inertia w h m : w * h <> 0 -> hull_inertia (corners w h) m = m * (w * w + h * h) / 12.
Proof.
  intros H. rewrite hull_inertia_eq. unfold inertia_num, inertia_den, esum, edges, corners.
  cbn [map combine app fst snd Rsum fold_right]. v2unfold.
  replace (w / 2 * (h / 2) - h / 2 * - (w / 2)) with (w * h / 2) by field.
  replace (- (w / 2) * - (h / 2) - h / 2 * - (w / 2)) with (w * h / 2) by field.
  replace (- (w / 2) * - (h / 2) - - (h / 2) * (w / 2)) with (w * h / 2) by field.
  replace (w / 2 * (h / 2) - - (h / 2) * (w / 2)) with (w * h / 2) by field.
  assert (Rabs (w * h / 2) <> 0) by (apply Rabs_no_R0; lra). field. lra.
Qed.

Lemma rect_init_inv id pos dims vel m rest fric eps b :
  rect_init id pos dims vel m rest fric eps = Ok b ->
  exists p, to_v3 pos = Ok p /\ 0 < fst dims * snd dims /\
  b_p b = p /\ b_mass b = m /\ b_inertia b = m * (fst dims * fst dims + snd dims * snd dims) / 12 /\
  b_verts b = map (rotate (b_rot b)) (corners (fst dims) (snd dims)) /\
  b_kind b = KRect dims (b_verts b) 0 /\ b_id b = id /\ b_fric b = fric /\ b_rest b = rest /\ b_eps b = eps /\
  to_v3 vel = Ok (b_v b).
Proof.
  unfold rect_init. intros H. bind_inv H as p Ep. bind_inv H as b1 E1.
  unfold hull_init_gen in E1. rewrite rect_verts_corners in E1. cbn [length corners Nat.ltb Nat.leb andb] in E1.
  destruct (is_clockwise _) eqn:Ec; [|discriminate].
  apply is_clockwise_area in Ec. rewrite corners_area in Ec.
  assert (Ecen : get_centroid (corners (fst dims) (snd dims)) = (0, 0)).
  { apply (centroid_unique (corners (fst dims) (snd dims))).
    - rewrite corners_area. lra.
    - apply get_centroid_spec. rewrite corners_area. lra.
    - apply corners_centroid. }
  rewrite Ecen in E1.
  assert (Ev : map (fun v : pt => v2sub v (0, 0)) (corners (fst dims) (snd dims)) = corners (fst dims) (snd dims)).
  { unfold corners. cbn [map]. v2unfold. repeat (apply f_equal2; [paireq; ring|]). reflexivity. }
  rewrite Ev in E1.
  assert (Eadd : v2add (snd p) (0, 0) = snd p).
  { destruct p as [r [x y]]. v2eq. }
  rewrite Eadd in E1. unfold body_init in E1. bind_inv E1 as p' Ep'. bind_inv E1 as vv Evv.
  inversion Ep'; subst p'; clear Ep'. inversion E1; subst b1; clear E1.
  exists p. split; auto. split; auto.
  assert (Hpos : (length pos = 2)%nat \/ (length pos = 3)%nat) by (apply to_v3_ok; eauto).
  destruct Hpos as [Hl|Hl]; rewrite Hl in H; cbn [Nat.eqb] in H; inversion H; subst b; clear H.
  - destruct pos as [|x [|y [|z l]]]; try discriminate. cbn in Ep. inversion Ep; subst; clear Ep. cbn [snd fst].
    cbn -[corners rotate map]. unfold b_rot. cbn [b_p fst]. rewrite map_rotate_0.
    repeat split; auto.
  - set (b0 := {| b_id := id; b_kind := _; b_p := _; b_v := _ |}).
    assert (W : poly_wf b0) by apply corners_form.
    destruct (set_p_verts b0 p W) as (H1 & H2 & H3).
    pose proof (bs_p _ same_attrs_steps b0 p) as (A1 & A2 & A3 & A4 & A5 & A6 & A7 & A8 & A9).
    assert (Hr : b_rot (set_p b0 p) = fst p) by (unfold b_rot; now rewrite set_p_p).
    rewrite set_p_p, set_p_v, H2, Hr.
    repeat split; auto.
    + f_equal. f_equal. unfold b0, b_rot. cbn [b_p fst]. rnum. lra.
    + rewrite <- H2. unfold same_class in H3. unfold b_verts.
      change (b_kind b0) with (KRect dims (corners (fst dims) (snd dims)) 0) in H3.
      unfold set_p. change (b_kind b0) with (KRect dims (corners (fst dims) (snd dims)) 0).
      destruct (neqb _ _); reflexivity.
Qed.

(** *** everything the constructors establish *)
Definition shape_ok (b : body R) : Prop :=
  b_inertia b = kind_inertia (b_kind b) (b_mass b) /\
  match b_kind b with
  | KCircle _ => True
  | KHull vs _ => (3 <= length vs)%nat /\ 0 < area vs /\ is_centroid vs (0, 0)
  | KRect d vs _ => 0 < fst d * snd d /\ vs = map (rotate (b_rot b)) (corners (fst d) (snd d))
  end.
Lemma shape_poly_wf b : shape_ok b -> poly_wf b.
Proof.
  intros [_ H]. unfold poly_wf. destruct (b_kind b); auto. destruct H as [_ ->].
  apply rect_form_rotate, corners_form.
Qed.
Lemma shape_ok_rigid b b' : rigid_rel b b' -> b_mass b' = b_mass b -> b_inertia b' = b_inertia b ->
  shape_ok b -> shape_ok b'.
Proof.
  intros Hr Em Ei Hs. destruct (Hr (shape_poly_wf _ Hs)) as (_ & Hm & Hc). destruct Hs as [Hi Hs].
  unfold shape_ok, moved_rigidly, same_class, b_verts in *. rewrite Em, Ei.
  destruct (b_kind b) as [r|vs l|d vs l], (b_kind b') as [r'|vs' l'|d' vs' l']; try tauto.
  - subst r'. auto.
  - split.
    + rewrite Hi, Hm. cbn [kind_inertia]. now rewrite hull_inertia_rotate.
    + rewrite Hm, map_length, area_rotate. destruct Hs as (H1 & H2 & H3). do 2 (split; [assumption|]).
      apply (is_centroid_rotate _ _ (b_rot b' - b_rot b)) in H3.
      replace (0, 0) with (rotate (b_rot b' - b_rot b) (0, 0)) by (unfold rotate; v2eq). exact H3.
  - subst d'. split; auto. destruct Hs as [H1 H2]. split; auto. rewrite Hm, H2, map_rotate_plus.
    f_equal. f_equal. ring.
Qed.
Lemma constructed_shape b : constructed b -> shape_ok b.
Proof.
  intros [H|[H|H]].
  - destruct H as (id & pos & rad & vel & m & rest & fric & eps & H).
    unfold circle_init, body_init in H. binv H. binv H. inversion H; subst. split; reflexivity.
  - destruct H as (id & ref & vs & vel & m & rest & fric & eps & H).
    apply hull_init_inv in H. destruct H as (H1 & H2 & H3 & _ & Hm & Hi & Hk & _).
    unfold shape_ok. rewrite Hk, Hm. split; [exact Hi|]. rewrite H3, map_length, area_translate. do 2 (split; [assumption|]).
    pose proof (is_centroid_translate vs (get_centroid vs) (get_centroid vs)) as Ht.
    assert (Hc : is_centroid vs (get_centroid vs)) by (apply get_centroid_spec; lra).
    specialize (Ht Hc). replace (0, 0) with (v2sub (get_centroid vs) (get_centroid vs)) by v2eq. exact Ht.
  - destruct H as (id & pos & dims & vel & m & rest & fric & eps & H).
    apply rect_init_inv in H. destruct H as (p & Ep & Hd & Hp & Hm & Hi & Hv & Hk & _).
    unfold shape_ok. rewrite Hk, Hm. split; [|split; auto]. rewrite Hi. cbn [kind_inertia]. reflexivity.
Qed.
Definition same_mass (b b' : body R) : Prop := b_mass b' = b_mass b /\ b_inertia b' = b_inertia b /\ b_eps b' = b_eps b /\ b_id b' = b_id b.
Lemma same_mass_steps : body_steps same_mass.
Proof.
  constructor.
  - unfold same_mass. intros a b c H1 H2. intuition congruence.
  - intros b v. destruct (bs_v _ same_attrs_steps b v) as (A1 & A2 & A3 & A4 & A5 & A6 & _). repeat split; auto.
  - intros b v. destruct (bs_p _ same_attrs_steps b v) as (A1 & A2 & A3 & A4 & A5 & A6 & _). repeat split; auto.
  - intros b b' E. destruct (bs_forget _ same_attrs_steps b b' E) as (A1 & A2 & A3 & A4 & A5 & A6 & _). repeat split; auto.
Qed.
Lemma bexec_mass ops b : same_mass b (bexec ops b).
Proof. apply (bexec_rel _ same_mass_steps); intros; repeat split. Qed.
Lemma available_shape b : available b -> shape_ok b.
Proof.
  intros (b0 & ops & H & ->). apply constructed_shape in H. apply (shape_ok_rigid b0); auto.
  - apply bexec_rigid.
  - apply (bexec_mass ops b0).
  - apply (bexec_mass ops b0).
Qed.
Definition shape_rel (b b' : body R) : Prop := rigid_rel b b' /\ same_mass b b'.
Lemma shape_steps : body_steps shape_rel.
Proof.
  constructor.
  - intros a b c [H1 H2] [H3 H4]. split; [eapply (bs_trans _ rigid_steps)|eapply (bs_trans _ same_mass_steps)]; eauto.
  - intros. split; [apply (bs_v _ rigid_steps)|apply (bs_v _ same_mass_steps)].
  - intros. split; [apply (bs_p _ rigid_steps)|apply (bs_p _ same_mass_steps)].
  - intros. split; [apply (bs_forget _ rigid_steps)|apply (bs_forget _ same_mass_steps)]; auto.
Qed.
