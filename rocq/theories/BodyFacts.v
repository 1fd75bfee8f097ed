(** Facts about bodies: polygons, centroid, orientation, rigid motion *)
From Coq Require Import List Arith ZArith Bool Reals Lra Lia Psatz.
From Verif Require Import Num Tensor Utils Bodies ResFacts RBase GeoSpec.
Import ListNotations.
Open Scope R_scope.

(** decide equalities between explicit plane vectors *)
Ltac v2unfold :=
  unfold tri2, rot_apply, rotation_matrix, rotate, v3add, v3scale, v3zero in *;
  unfold v2add, v2sub, v2scale, v2div, v2opp, v2dot, v2zero, cross_2d, left_orthogonal, det2 in *;
  rnum; cbn [fst snd] in *.
Ltac paireq := repeat match goal with |- (_, _) = (_, _) => apply f_equal2 end.
Ltac v2eq := v2unfold; paireq; try ring; try field.

(** *** cyclic sums *)
Lemma Rsum_cons a l : Rsum (a :: l) = a + Rsum l.
Proof. reflexivity. Qed.
Lemma Rsum_app l1 l2 : Rsum (l1 ++ l2) = Rsum l1 + Rsum l2.
Proof. induction l1; simpl; [ring|]. rewrite IHl1. ring. Qed.
Lemma Rsum_map_plus {A} (f g : A -> R) l : Rsum (map (fun a => f a + g a) l) = Rsum (map f l) + Rsum (map g l).
Proof. induction l; simpl; [ring|]. rewrite IHl. ring. Qed.
Lemma Rsum_map_scale {A} k (f : A -> R) l : Rsum (map (fun a => k * f a) l) = k * Rsum (map f l).
Proof. induction l; simpl; [ring|]. rewrite IHl. ring. Qed.
Lemma Rsum_map_ext {A} (f g : A -> R) l : (forall a, In a l -> f a = g a) -> Rsum (map f l) = Rsum (map g l).
Proof. intros H. f_equal. apply map_ext_in. exact H. Qed.
Lemma Rsum_nonneg {A} (f : A -> R) l : (forall a, In a l -> 0 <= f a) -> 0 <= Rsum (map f l).
Proof.
  induction l as [|a l IH]; simpl; intros H; [lra|].
  pose proof (H a (or_introl eq_refl)). assert (0 <= Rsum (map f l)) by auto. lra.
Qed.
Lemma Rsum_pos {A} (f : A -> R) l :
  (forall a, In a l -> 0 <= f a) -> (exists a, In a l /\ 0 < f a) -> 0 < Rsum (map f l).
Proof.
  induction l as [|a l IH]; simpl; intros H (x & Hx & Hp); [tauto|].
  pose proof (H a (or_introl eq_refl)).
  assert (0 <= Rsum (map f l)) by (apply Rsum_nonneg; auto).
  destruct Hx as [Hx|Hx].
  - subst. lra.
  - assert (0 < Rsum (map f l)) by (apply IH; eauto). lra.
Qed.

Lemma esum_ext f g vs : (forall a b, In (a, b) (edges vs) -> f a b = g a b) -> esum f vs = esum g vs.
Proof. intros H. apply Rsum_map_ext. intros [a b] Hi. apply H, Hi. Qed.
Lemma esum_plus f g vs : esum (fun a b => f a b + g a b) vs = esum f vs + esum g vs.
Proof. apply Rsum_map_plus. Qed.
Lemma esum_scale k f vs : esum (fun a b => k * f a b) vs = k * esum f vs.
Proof. apply Rsum_map_scale. Qed.

Lemma edges_map {A B} (h : A -> B) vs : edges (map h vs) = map (fun e => (h (fst e), h (snd e))) (edges vs).
Proof.
  destruct vs as [|a vs]; [reflexivity|]. unfold edges. cbn [map].
  assert (G : forall (l : list A) (x : A) l', combine (h x :: map h l) (map h l') =
                map (fun e => (h (fst e), h (snd e))) (combine (x :: l) l')).
  { induction l; intros x l'; destruct l'; simpl; try reflexivity.
    f_equal. apply (IHl a0 l'). }
  rewrite <- (G vs a (vs ++ [a])). rewrite map_app. reflexivity.
Qed.
Lemma esum_map (h : pt -> pt) f vs : esum f (map h vs) = esum (fun a b => f (h a) (h b)) vs.
Proof. unfold esum. rewrite edges_map, map_map. reflexivity. Qed.

Lemma esum_telescope (g : pt -> R) vs : esum (fun a b => g b - g a) vs = 0.
Proof.
  destruct vs as [|a vs]; [reflexivity|]. unfold esum, edges.
  assert (G : forall l (x y : pt), Rsum (map (fun e => g (snd e) - g (fst e)) (combine (x :: l) (l ++ [y]))) = g y - g x).
  { induction l; intros x y; simpl.
    - ring.
    - specialize (IHl a0 y). simpl in IHl. rewrite IHl. ring. }
  rewrite G. ring.
Qed.

Lemma edges_length {A} (vs : list A) : length (edges vs) = length vs.
Proof.
  destruct vs as [|a vs]; [reflexivity|]. unfold edges. rewrite combine_length, app_length. cbn [length]. lia.
Qed.
Lemma edges_nth (vs : list pt) i : (i < length vs)%nat ->
  nth i (edges vs) (v2zero, v2zero) = (vert vs i, next_vert vs i).
Proof.
  intros Hi. destruct vs as [|a vs]; [simpl in Hi; lia|]. unfold edges.
  rewrite combine_nth by (rewrite app_length; cbn [length]; lia). f_equal.
  unfold next_vert, vert. cbn [length] in *. destruct (Nat.eq_dec i (length vs)) as [E|E].
  - subst i. replace (length vs + 1)%nat with (S (length vs)) by lia. rewrite Nat.mod_same by lia.
    rewrite app_nth2 by lia. rewrite Nat.sub_diag. reflexivity.
  - rewrite Nat.mod_small by lia. rewrite Nat.add_1_r. simpl. rewrite app_nth1 by lia. reflexivity.
Qed.
Lemma edges_seq (vs : list pt) : map (fun i => (vert vs i, next_vert vs i)) (seq 0 (length vs)) = edges vs.
Proof.
  apply (nth_ext _ _ (v2zero, v2zero) (v2zero, v2zero)).
  - now rewrite map_length, seq_length, edges_length.
  - intros n Hn. rewrite map_length, seq_length in Hn. rewrite edges_nth by auto.
    rewrite (nth_indep _ _ (vert vs 0, next_vert vs 0)) by (rewrite map_length, seq_length; lia).
    rewrite (map_nth (fun i => (vert vs i, next_vert vs i))). rewrite seq_nth by lia. reflexivity.
Qed.
Lemma edges_In (vs : list pt) a b :
  In (a, b) (edges vs) <-> exists i, (i < length vs)%nat /\ a = vert vs i /\ b = next_vert vs i.
Proof.
  rewrite <- edges_seq, in_map_iff. split.
  - intros (i & E & H). apply in_seq in H. inversion E. exists i. repeat split; lia.
  - intros (i & H & E1 & E2). exists i. split; [congruence|]. apply in_seq. lia.
Qed.

(** a loop over the edges as a sum *)
Lemma fold_sum (f : pt -> pt -> R) vs l acc :
  fold_left (fun t i => t + f (vert vs i) (next_vert vs i)) l acc =
  acc + Rsum (map (fun i => f (vert vs i) (next_vert vs i)) l).
Proof. revert acc; induction l; intros acc; simpl; [ring|]. rewrite IHl. ring. Qed.
Lemma esum_seq (f : pt -> pt -> R) vs :
  Rsum (map (fun i => f (vert vs i) (next_vert vs i)) (seq 0 (length vs))) = esum f vs.
Proof.
  unfold esum. rewrite <- edges_seq, map_map. reflexivity.
Qed.

(** *** orientation check *)
Lemma is_clockwise_area vs : is_clockwise vs = true <-> 0 < area vs.
Proof.
  unfold is_clockwise. rnum.
  set (f := fun a b : pt => (fst b - fst a) * (snd b + snd a)).
  change (Rltb (fold_left (fun t i => t + f (vert vs i) (next_vert vs i)) (seq 0 (length vs)) 0) 0 = true <-> 0 < area vs).
  rewrite fold_sum, esum_seq, Rltb_true. unfold area.
  assert (E : esum f vs = - esum det2 vs).
  { assert (H : esum f vs + esum det2 vs = esum (fun a b => fst b * snd b - fst a * snd a) vs).
    { rewrite <- esum_plus. apply esum_ext. intros a b _. unfold f, det2. ring. }
    rewrite (esum_telescope (fun a => fst a * snd a)) in H. lra. }
  rewrite E. split; intros; lra.
Qed.

(** *** centroid *)
Lemma get_centroid_eq vs :
  get_centroid vs =
  (1 / 6 * esum (fun a b => - det2 a b * (fst a + fst b)) vs / (esum (fun a b => - det2 a b / 2) vs),
   1 / 6 * esum (fun a b => - det2 a b * (snd a + snd b)) vs / (esum (fun a b => - det2 a b / 2) vs)).
Proof.
  set (F := fun '((num, den) : v2 R * R) (i : nat) =>
                 let v1 := vert vs i in
                 let v2' := next_vert vs i in
                 let cross := cross_2d v2' v1 in
                 (v2add num (v2scale cross (v2add v1 v2')), nadd den (ndiv cross (nofZ 2)))).
  assert (G : forall l n0 n1 d,
    fold_left F l ((n0, n1), d)
    = ((n0 + Rsum (map (fun i => - det2 (vert vs i) (next_vert vs i) * (fst (vert vs i) + fst (next_vert vs i))) l),
        n1 + Rsum (map (fun i => - det2 (vert vs i) (next_vert vs i) * (snd (vert vs i) + snd (next_vert vs i))) l)),
       d + Rsum (map (fun i => - det2 (vert vs i) (next_vert vs i) / 2) l))).
  { induction l as [|i l IH]; intros n0 n1 d.
    - simpl. apply f_equal2; [apply f_equal2; ring|ring].
    - cbn [fold_left].
      assert (E : F (n0, n1, d) i = (n0 + - det2 (vert vs i) (next_vert vs i) * (fst (vert vs i) + fst (next_vert vs i)),
         n1 + - det2 (vert vs i) (next_vert vs i) * (snd (vert vs i) + snd (next_vert vs i)),
         d + - det2 (vert vs i) (next_vert vs i) / 2)).
      { unfold F. v2unfold. apply f_equal2; [apply f_equal2; ring|field]. }
      rewrite E, IH. clear IH E. cbn [map]. rewrite !Rsum_cons. apply f_equal2; [apply f_equal2; ring|field]. }
  change (get_centroid vs) with (let '(num, den) := fold_left F (seq 0 (length vs)) ((0, 0), 0) in
                                 v2div (v2scale (1 / 6) num) den).
  rewrite G.
  rewrite (esum_seq (fun a b => - det2 a b * (fst a + fst b))),
          (esum_seq (fun a b => - det2 a b * (snd a + snd b))), (esum_seq (fun a b => - det2 a b / 2)).
  v2unfold. rewrite !Rplus_0_l. reflexivity.
Qed.


Lemma centroid_fan_x vs o :
  esum (fun a b => tri2 o a b / 2 * ((fst o + fst a + fst b) / 3)) vs =
  1 / 6 * esum (fun a b => det2 a b * (fst a + fst b)) vs.
Proof.
  rewrite <- esum_scale.
  assert (E : esum (fun a b => tri2 o a b / 2 * ((fst o + fst a + fst b) / 3)) vs
    = esum (fun a b => 1 / 6 * (det2 a b * (fst a + fst b))
                       + (- (1/6) * det2 o b * (fst o + fst b) - - (1/6) * det2 o a * (fst o + fst a))) vs).
  { apply esum_ext. intros a b _. unfold tri2, det2. cbn [fst snd]. field. }
  rewrite E, esum_plus. rewrite (esum_telescope (fun a => - (1/6) * det2 o a * (fst o + fst a))). ring.
Qed.
Lemma centroid_fan_y vs o :
  esum (fun a b => tri2 o a b / 2 * ((snd o + snd a + snd b) / 3)) vs =
  1 / 6 * esum (fun a b => det2 a b * (snd a + snd b)) vs.
Proof.
  rewrite <- esum_scale.
  assert (E : esum (fun a b => tri2 o a b / 2 * ((snd o + snd a + snd b) / 3)) vs
    = esum (fun a b => 1 / 6 * (det2 a b * (snd a + snd b))
                       + (- (1/6) * det2 o b * (snd o + snd b) - - (1/6) * det2 o a * (snd o + snd a))) vs).
  { apply esum_ext. intros a b _. unfold tri2, det2. cbn [fst snd]. field. }
  rewrite E, esum_plus. rewrite (esum_telescope (fun a => - (1/6) * det2 o a * (snd o + snd a))). ring.
Qed.

Lemma esum_opp f vs : esum (fun a b => - f a b) vs = - esum f vs.
Proof. rewrite <- (Rmult_1_l (esum f vs)), Ropp_mult_distr_l. rewrite <- esum_scale. apply esum_ext; intros; ring. Qed.

Lemma get_centroid_spec vs : area vs <> 0 -> is_centroid vs (get_centroid vs).
Proof.
  intros HA o. rewrite get_centroid_eq. cbn [fst snd]. rewrite centroid_fan_x, centroid_fan_y.
  assert (E1 : esum (fun a b => - det2 a b / 2) vs = - area vs).
  { unfold area. replace (- (esum det2 vs / 2)) with ((- / 2) * esum det2 vs) by field.
    rewrite <- esum_scale. apply esum_ext; intros; field. }
  assert (E2 : forall f : pt -> pt -> R, esum (fun a b => - det2 a b * f a b) vs = - esum (fun a b => det2 a b * f a b) vs).
  { intros f. rewrite <- esum_opp. apply esum_ext; intros; ring. }
  rewrite E1, !E2. split; field; exact HA.
Qed.
Lemma centroid_unique vs c c' : area vs <> 0 -> is_centroid vs c -> is_centroid vs c' -> c = c'.
Proof.
  intros HA H H'. destruct (H (0,0)) as [H1 H2], (H' (0,0)) as [H1' H2']. destruct c, c'; cbn [fst snd] in *.
  rewrite <- H1' in H1. rewrite <- H2' in H2.
  apply Rmult_eq_reg_l in H1; [|exact HA]. apply Rmult_eq_reg_l in H2; [|exact HA]. congruence.
Qed.

(** *** rigid motions of polygons *)
Lemma area_translate vs (d : pt) : area (map (fun a => v2sub a d) vs) = area vs.
Proof.
  unfold area. f_equal. rewrite esum_map.
  assert (E : esum (fun a b => det2 (v2sub a d) (v2sub b d)) vs
    = esum (fun a b => det2 a b + (- det2 d b - - det2 d a)) vs).
  { apply esum_ext; intros a b _. v2unfold. ring. }
  rewrite E, esum_plus, (esum_telescope (fun a => - det2 d a)). ring.
Qed.
Lemma det2_rotate th a b : det2 (rotate th a) (rotate th b) = det2 a b.
Proof.
  unfold det2, rotate. cbn [fst snd].
  transitivity ((cos th * cos th + sin th * sin th) * det2 a b); [unfold det2; ring|]. unfold det2.
  pose proof (sin2_cos2 th) as H. unfold Rsqr in H. rewrite Rplus_comm in H. rewrite H. ring.
Qed.
Lemma area_rotate vs th : area (map (rotate th) vs) = area vs.
Proof. unfold area. f_equal. rewrite esum_map. apply esum_ext; intros. apply det2_rotate. Qed.
Lemma rot_apply_rotate th (a : pt) : rot_apply (rotation_matrix th) a = rotate th a.
Proof. v2eq. Qed.
Lemma rotate_plus t1 t2 a : rotate t1 (rotate t2 a) = rotate (t1 + t2) a.
Proof. unfold rotate. cbn [fst snd]. rewrite cos_plus, sin_plus. apply f_equal2; ring. Qed.
Lemma rotate_0 a : rotate 0 a = a.
Proof. unfold rotate. rewrite cos_0, sin_0. destruct a; cbn [fst snd]. apply f_equal2; ring. Qed.
Lemma rotate_opp th a : rotate th (v2opp a) = v2opp (rotate th a).
Proof. v2eq. Qed.
Lemma v2dot_rotate th a b : v2dot (rotate th a) (rotate th b) = v2dot a b.
Proof.
  v2unfold.
  transitivity ((cos th * cos th + sin th * sin th) * (fst a * fst b + snd a * snd b)); [ring|].
  pose proof (sin2_cos2 th) as H. unfold Rsqr in H. rewrite Rplus_comm in H. rewrite H. ring.
Qed.
Lemma rotate_sub th a b : rotate th (v2sub a b) = v2sub (rotate th a) (rotate th b).
Proof. v2eq. Qed.
Lemma dist_rotate th a b : dist (rotate th a) (rotate th b) = dist a b.
Proof.
  pose proof (v2dot_rotate th (v2sub a b) (v2sub a b)) as H. rewrite rotate_sub in H.
  unfold dist. f_equal. v2unfold. exact H.
Qed.

(** centroid of a moved polygon *)
Lemma is_centroid_translate vs c (d : pt) :
  is_centroid vs c -> is_centroid (map (fun a => v2sub a d) vs) (v2sub c d).
Proof.
  intros H o. rewrite area_translate, !esum_map.
  destruct (H (v2add o d)) as [H1 H2].
  assert (EA : forall o, area vs = esum (fun a b => tri2 o a b / 2) vs).
  { intros o'. unfold area.
    assert (E : esum (fun a b => tri2 o' a b / 2) vs =
                esum (fun a b => (/ 2) * det2 a b + (- / 2 * det2 o' b - - / 2 * det2 o' a)) vs).
    { apply esum_ext; intros a b _. v2unfold. field. }
    rewrite E, esum_plus, esum_scale, (esum_telescope (fun a => - / 2 * det2 o' a)). field. }
  specialize (EA (v2add o d)).
  split.
  - transitivity (area vs * fst c + - fst d * area vs); [v2unfold; ring|].
    rewrite H1. rewrite EA. rewrite <- esum_scale, <- esum_plus.
    apply esum_ext; intros a b _. v2unfold. field.
  - transitivity (area vs * snd c + - snd d * area vs); [v2unfold; ring|].
    rewrite H2. rewrite EA. rewrite <- esum_scale, <- esum_plus.
    apply esum_ext; intros a b _. v2unfold. field.
Qed.
Lemma is_centroid_rotate vs c th :
  is_centroid vs c -> is_centroid (map (rotate th) vs) (rotate th c).
Proof.
  intros H o. rewrite area_rotate, !esum_map.
  set (o' := rotate (- th) o). assert (Eo : o = rotate th o').
  { unfold o'. rewrite rotate_plus. replace (th + - th) with 0 by ring. now rewrite rotate_0. }
  destruct (H o') as [H1 H2].
  assert (Et : forall a b, tri2 (rotate th o') (rotate th a) (rotate th b) = tri2 o' a b).
  { intros a b. unfold tri2.
    change (det2 (v2sub (rotate th a) (rotate th o')) (v2sub (rotate th b) (rotate th o')) = det2 (v2sub a o') (v2sub b o')).
    rewrite <- !rotate_sub. apply det2_rotate. }
  rewrite Eo. split.
  - transitivity (cos th * (area vs * fst c) + - sin th * (area vs * snd c)); [unfold rotate; cbn [fst snd]; ring|].
    rewrite H1, H2, <- !esum_scale, <- esum_plus. apply esum_ext; intros a b _. rewrite Et.
    unfold rotate; cbn [fst snd]. field.
  - transitivity (sin th * (area vs * fst c) + cos th * (area vs * snd c)); [unfold rotate; cbn [fst snd]; ring|].
    rewrite H1, H2, <- !esum_scale, <- esum_plus. apply esum_ext; intros a b _. rewrite Et.
    unfold rotate; cbn [fst snd]. field.
Qed.

(** a convex polygon is star-shaped about its centroid *)
Lemma area_fan vs o : area vs = esum (fun a b => tri2 o a b / 2) vs.
Proof.
  unfold area.
  assert (E : esum (fun a b => tri2 o a b / 2) vs =
              esum (fun a b => (/ 2) * det2 a b + (- / 2 * det2 o b - - / 2 * det2 o a)) vs).
  { apply esum_ext; intros a b _. v2unfold. field. }
  rewrite E, esum_plus, esum_scale, (esum_telescope (fun a => - / 2 * det2 o a)). field.
Qed.
Lemma edges_In_l (vs : list pt) a b : In (a, b) (edges vs) -> In a vs /\ In b vs.
Proof.
  intros H. destruct vs as [|v vs]; [destruct H|]. unfold edges in H. split.
  - eapply in_combine_l; eauto.
  - apply in_combine_r in H. apply in_app_iff in H. destruct H as [H|[H|[]]]; [right; auto|left; auto].
Qed.
Lemma convex_star vs c : convex vs -> 0 < area vs -> is_centroid vs c ->
  forall p q, In (p, q) (edges vs) -> 0 <= tri2 p q c.
Proof.
  intros Hc HA Hcen p q Hpq.
  destruct vs as [|o rest] eqn:Evs; [unfold area, esum in HA; simpl in HA; lra|]. rewrite <- Evs in *.
  assert (Ho : In o vs) by (subst; left; auto).
  destruct (Hcen o) as [H1 H2].
  set (al := fst p * snd q - snd p * fst q). set (be := snd p - snd q). set (ga := fst q - fst p).
  assert (Ef : forall x, tri2 p q x = al + be * fst x + ga * snd x).
  { intros x. unfold al, be, ga. v2unfold. ring. }
  assert (E : area vs * tri2 p q c =
     esum (fun a b => tri2 o a b / 2 * ((tri2 p q o + tri2 p q a + tri2 p q b) / 3)) vs).
  { rewrite Ef.
    replace (area vs * (al + be * fst c + ga * snd c)) with
      (al * area vs + be * (area vs * fst c) + ga * (area vs * snd c)) by ring.
    rewrite H1, H2, (area_fan vs o), <- !esum_scale, <- !esum_plus.
    apply esum_ext. intros a b _. rewrite !Ef. field. }
  assert (N : 0 <= area vs * tri2 p q c).
  { rewrite E. unfold esum. apply Rsum_nonneg. intros [a b] Hab. cbn [fst snd].
    destruct (edges_In_l _ _ _ Hab) as [Ha Hb].
    assert (0 <= tri2 o a b).
    { replace (tri2 o a b) with (tri2 a b o) by (v2unfold; ring). apply Hc; auto. }
    pose proof (Hc p q Hpq o Ho). pose proof (Hc p q Hpq a Ha). pose proof (Hc p q Hpq b Hb).
    apply Rmult_le_pos; lra. }
  destruct (Rle_dec 0 (tri2 p q c)); auto. nra.
Qed.
Lemma convex_star0 vs : convex vs -> 0 < area vs -> is_centroid vs (0, 0) ->
  forall p q, In (p, q) (edges vs) -> 0 <= det2 p q.
Proof.
  intros. replace (det2 p q) with (tri2 p q (0, 0)) by (v2unfold; ring). eapply convex_star; eauto.
Qed.
