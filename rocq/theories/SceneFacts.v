(** The same scene in another description: vectors, bodies, constraints *)
From Coq Require Import List Arith ZArith Bool Reals Lia Lra Permutation.
From Verif Require Import Num Tensor Utils Bodies Forces Constraints Contacts World Spec GeoSpec BodySpec JointSpec ContactSpec EngineSpec SymSpec SceneSpec
     RBase ResFacts LinAlg Pdipm Lcp LcpSym BodyFacts LayoutFacts SysFacts PlaneFacts JointFacts JeFacts ListedFacts.
Import ListNotations.
Open Scope R_scope.

(** *** turning *)
Section Turn.
Variable th : view.
Notation rt := (place th).
Lemma cs1' x : cos x * cos x + sin x * sin x = 1.
Proof. pose proof (sin2_cos2 x) as H. unfold Rsqr in H. lra. Qed.
Lemma cs1 : cos (v_angle th) * cos (v_angle th) + sin (v_angle th) * sin (v_angle th) = 1.
Proof. apply cs1'. Qed.
Lemma hand_sq : hand th * hand th = 1.
Proof. unfold hand. destruct (v_mirror th); ring. Qed.
Lemma rt_add a b : rt (v2add a b) = v2add (rt a) (rt b).
Proof. unfold place, rotate, v2add. rnum. destruct (v_mirror th); cbn [fst snd]; apply f_equal2; ring. Qed.
Lemma rt_sub a b : rt (v2sub a b) = v2sub (rt a) (rt b).
Proof. unfold place, rotate, v2sub. rnum. destruct (v_mirror th); cbn [fst snd]; apply f_equal2; ring. Qed.
Lemma rt_scale k a : rt (v2scale k a) = v2scale k (rt a).
Proof. unfold place, rotate, v2scale. rnum. destruct (v_mirror th); cbn [fst snd]; apply f_equal2; ring. Qed.
Lemma rt_opp a : rt (v2opp a) = v2opp (rt a).
Proof. unfold place, rotate, v2opp. rnum. destruct (v_mirror th); cbn [fst snd]; apply f_equal2; ring. Qed.
Lemma rt_div a k : rt (v2div a k) = v2div (rt a) k.
Proof. unfold place, rotate, v2div. rnum. unfold Rdiv. destruct (v_mirror th); cbn [fst snd]; apply f_equal2; ring. Qed.
Lemma rt_zero : rt (0, 0) = (0, 0).
Proof. unfold place, rotate. destruct (v_mirror th); cbn [fst snd]; apply f_equal2; ring. Qed.
Lemma rt_component a b : component (rt a) (rt b) = component a b.
Proof.
  unfold component, place, rotate. pose proof cs1 as H. destruct a as [x y], b as [x' y']. set (c := cos _) in *. set (s := sin _) in *.
  destruct (v_mirror th); cbn [fst snd]; (transitivity ((c * c + s * s) * (x * x' + y * y')); [ring|]); rewrite H; ring.
Qed.
Lemma rt_tangent a : tangent (rt a) = v2scale (hand th) (rt (tangent a)).
Proof. unfold tangent, place, rotate, v2scale, hand. rnum. destruct (v_mirror th); cbn [fst snd]; apply f_equal2; ring. Qed.
Lemma rt_point_velocity u r : point_velocity (turn_vel th u) (rt r) = rt (point_velocity u r).
Proof. unfold point_velocity, turn_vel, place, rotate, hand. cbn [fst snd]. destruct (v_mirror th); cbn [fst snd]; apply f_equal2; ring. Qed.
(** the way back *)
Definition tb (a : v2 R) : v2 R := let b := rotate (- v_angle th) a in if v_mirror th then (fst b, - snd b) else b.
Lemma rt_inv' a : rt (tb a) = a.
Proof.
  assert (G : rotate (v_angle th) (rotate (- v_angle th) a) = a) by (rewrite rotate_plus, Rplus_opp_r; apply rotate_0).
  unfold place, tb. cbv zeta. set (b := rotate (- v_angle th) a) in *. destruct (v_mirror th); [|exact G]. cbn [fst snd]. rewrite Ropp_involutive, <- surjective_pairing. exact G.
Qed.
Lemma rt_rotate d a : rt (rotate d a) = rotate (hand th * d) (rt a).
Proof.
  unfold place, hand. destruct (v_mirror th); rewrite !rotate_plus; [|f_equal; ring]. rewrite (Rplus_comm (-1 * d)), <- rotate_plus. f_equal.
  replace (-1 * d) with (- d) by ring. unfold rotate. cbn [fst snd]. rewrite cos_neg, sin_neg. apply f_equal2; ring.
Qed.
Lemma rt_polar r t d a : polar_to_cart r t = rt a -> polar_to_cart r (t + hand th * d) = rt (rotate d a).
Proof. intros H. rewrite polar_rotate, H. symmetry. apply rt_rotate. Qed.
Lemma rt_dist a b : dist (rt a) (rt b) = dist a b.
Proof.
  unfold dist. f_equal. pose proof (rt_component (v2sub a b) (v2sub a b)) as H. rewrite rt_sub in H. unfold component, v2sub in H. rnum. cbn [fst snd] in H. exact H.
Qed.
Lemma turn_vel_add u v : turn_vel th (v3add u v) = v3add (turn_vel th u) (turn_vel th v).
Proof. unfold turn_vel, v3add. rnum. cbn [fst snd]. rewrite rt_add. apply f_equal2; [ring|reflexivity]. Qed.
Lemma turn_vel_scale k u : turn_vel th (v3scale k u) = v3scale k (turn_vel th u).
Proof. unfold turn_vel, v3scale. rnum. cbn [fst snd]. rewrite rt_scale. apply f_equal2; [ring|reflexivity]. Qed.
Lemma turn_pose_add p u : v3add (turn_pose th p) (turn_vel th u) = turn_pose th (v3add p u).
Proof. unfold turn_pose, turn_vel, v3add. cbn [fst snd]. rewrite rt_add. apply f_equal2; [rnum; ring|reflexivity]. Qed.
Lemma turn_momentum b u : body_momentum b (turn_vel th u) = turn_vel th (body_momentum b u).
Proof. unfold body_momentum, turn_vel. rnum. cbn [fst snd]. rewrite rt_scale. apply f_equal2; [ring|reflexivity]. Qed.

(** along the axes, when they stay where they are *)
Definition axis : R := if Rltb (cos (v_angle th)) 0 then -1 else 1.
Lemma axis_sq : axis * axis = 1.
Proof. unfold axis. destruct (Rltb _ _); ring. Qed.
Lemma rt_axis a : sin (v_angle th) = 0 -> rt a = (axis * fst a, hand th * axis * snd a).
Proof.
  intros H. pose proof cs1 as C. rewrite H in C. assert (E : cos (v_angle th) = axis).
  { unfold axis. destruct (Rltb_spec (cos (v_angle th)) 0); assert (D : (cos (v_angle th) - 1) * (cos (v_angle th) + 1) = 0) by lra; apply Rmult_integral in D; destruct D; lra. }
  unfold place, rotate, hand. rewrite H, E. destruct (v_mirror th); cbn [fst snd]; apply f_equal2; ring.
Qed.

(** blocks of three and two numbers *)
Definition tv (y : vec R) : vec R := v3list (turn_vel th (v3_at y 0)).
Definition tw (y : vec R) : vec R := v2l (rt (vget y 0, vget y 1)).
Definition tj (k : jkind) (y : vec R) : vec R :=
  match k with
  | JJoint => tw y
  | JFixed => tw (firstn 2 y) ++ vscale (hand th) (skipn 2 y)
  | JTotal => tv y
  | JRot => vscale (hand th) y
  | JX => vscale axis y
  | JY => vscale (hand th * axis) y
  end.
Definition jn (k : jkind) : nat := match k with JJoint => 2 | JFixed | JTotal => 3 | JY | JX | JRot => 1 end.
Lemma tw_iso : isometry 2 tw.
Proof.
  constructor.
  - reflexivity.
  - intros [|a [|b [|]]] [|a' [|b' [|]]] Hx Hy; try discriminate. pose proof (rt_add (a, b) (a', b')) as H. unfold tw. change (vadd [a; b] [a'; b']) with [a + a'; b + b']. change (vget [a + a'; b + b'] 0, vget [a + a'; b + b'] 1) with (v2add (a, b) (a', b')). rewrite H. reflexivity.
  - intros k [|a [|b [|]]] Hx; try discriminate. pose proof (rt_scale k (a, b)) as H. unfold tw. change (vget (vscale k [a; b]) 0, vget (vscale k [a; b]) 1) with (v2scale k (a, b)). rewrite H. reflexivity.
  - intros [|a [|b [|]]] [|a' [|b' [|]]] Hx Hy; try discriminate. pose proof (rt_component (a, b) (a', b')) as H. unfold component in H. unfold tw, v2l, dot, vsum, vmul. cbn in *. lra.
  - intros [|a [|b [|]]] Hy; try discriminate. exists (v2l (tb (a, b))). split; [reflexivity|]. unfold tw, v2l. cbn [vget nth].
    change (vget [fst (tb (a, b)); snd (tb (a, b))] 0) with (fst (tb (a, b))). change (vget [fst (tb (a, b)); snd (tb (a, b))] 1) with (snd (tb (a, b))).
    rewrite <- surjective_pairing, rt_inv'. reflexivity.
Qed.
Lemma tv_iso : isometry 3 tv.
Proof.
  constructor.
  - reflexivity.
  - intros [|c [|a [|b [|]]]] [|c' [|a' [|b' [|]]]] Hx Hy; try discriminate. pose proof (turn_vel_add (c, (a, b)) (c', (a', b'))) as H. unfold tv. change (v3_at (vadd [c; a; b] [c'; a'; b']) 0) with (v3add (c, (a, b)) (c', (a', b'))). rewrite H. reflexivity.
  - intros k [|c [|a [|b [|]]]] Hx; try discriminate. pose proof (turn_vel_scale k (c, (a, b))) as H. unfold tv. change (v3_at (vscale k [c; a; b]) 0) with (v3scale k (c, (a, b))). rewrite H. reflexivity.
  - intros [|c [|a [|b [|]]]] [|c' [|a' [|b' [|]]]] Hx Hy; try discriminate. pose proof (rt_component (a, b) (a', b')) as H. unfold component in H. unfold tv, v3list, turn_vel, v3_at, dot, vsum, vmul. cbn in *. pose proof hand_sq as Q.
    replace (hand th * c * (hand th * c')) with ((hand th * hand th) * (c * c')) by ring. rewrite Q. lra.
  - intros [|c [|a [|b [|]]]] Hy; try discriminate. pose proof (rt_inv' (a, b)) as E. destruct (tb (a, b)) as [u v]. exists (v3list (hand th * c, (u, v))). split; [reflexivity|]. unfold tv.
    change (v3_at (v3list (hand th * c, (u, v))) 0) with (hand th * c, (u, v)). unfold turn_vel. cbn [fst snd]. rewrite E, <- Rmult_assoc, hand_sq, Rmult_1_l. reflexivity.
Qed.
Lemma sign_iso n s : s * s = 1 -> isometry n (vscale s).
Proof.
  intros H. constructor.
  - intros x Hx. now rewrite vscale_length.
  - intros x y Hx Hy. apply vscale_vadd.
  - intros k x Hx. unfold vscale. rewrite !map_map. apply map_ext. intros a. rnum. ring.
  - intros x y Hx Hy. rewrite dot_vscale_l, dot_vscale_r. rewrite <- Rmult_assoc, H. ring.
  - intros y Hy. exists (vscale s y). split; [now rewrite vscale_length|]. unfold vscale. rewrite map_map. rewrite <- (map_id y) at 2. apply map_ext. intros a. rnum. rewrite <- Rmult_assoc, H. ring.
Qed.
Lemma tj_iso k : isometry (jn k) (tj k).
Proof.
  pose proof hand_sq as Q. destruct k; cbn [jn tj]; [apply tw_iso| |apply sign_iso|apply sign_iso|apply sign_iso, Q|apply tv_iso].
  2, 3: pose proof axis_sq as Q2; try (replace (hand th * axis * (hand th * axis)) with ((hand th * hand th) * (axis * axis)) by ring; rewrite Q); lra.
  destruct tw_iso as [F1 F2 F3 F4 F5]. constructor; unfold tj.
  - intros [|a [|b [|c [|]]]] Hx; try discriminate. reflexivity.
  - intros [|a [|b [|c [|]]]] [|a' [|b' [|c' [|]]]] Hx Hy; try discriminate. pose proof (F2 [a; b] [a'; b'] eq_refl eq_refl) as E.
    change (firstn 2 (vadd [a; b; c] [a'; b'; c'])) with (vadd [a; b] [a'; b']). change (skipn 2 (vadd [a; b; c] [a'; b'; c'])) with [c + c']. rewrite E. unfold tw, v2l. cbn. do 3 f_equal. ring.
  - intros k [|a [|b [|c [|]]]] Hx; try discriminate. pose proof (F3 k [a; b] eq_refl) as E. change (firstn 2 (vscale k [a; b; c])) with (vscale k [a; b]). rewrite E. unfold tw, v2l. cbn. do 3 f_equal. ring.
  - intros [|a [|b [|c [|]]]] [|a' [|b' [|c' [|]]]] Hx Hy; try discriminate. pose proof (rt_component (a, b) (a', b')) as H. unfold component in H. unfold tw, v2l, dot, vsum, vmul. cbn in *.
    replace (hand th * c * (hand th * c')) with ((hand th * hand th) * (c * c')) by ring. rewrite Q. lra.
  - intros [|a [|b [|c [|]]]] Hy; try discriminate. destruct (F5 [a; b] eq_refl) as (x & Lx & Ex). exists (x ++ [hand th * c]). rewrite app_length, Lx. split; [reflexivity|].
    destruct x as [|u [|v [|]]]; try discriminate. cbn [app firstn skipn]. rewrite Ex. cbn. rewrite <- Rmult_assoc, Q, Rmult_1_l. reflexivity.
Qed.
(** the velocity vector of all bodies, in the order [sg] *)
Definition fu (sg : list nat) (x : vec R) : vec R := cat3 (map (fun i => turn_vel th (v3_at x i)) sg).
Lemma fu_length sg x : length (fu sg x) = (3 * length sg)%nat.
Proof. unfold fu. now rewrite cat3_length, map_length. Qed.
Lemma fu_at sg x k i : nth_error sg k = Some i -> v3_at (fu sg x) k = turn_vel th (v3_at x i).
Proof.
  intros E. unfold fu. rewrite (v3_at_cat3 _ _ (turn_vel th (v3_at x i))) by (rewrite map_length; apply nth_error_Some; congruence).
  apply nth_error_nth. now rewrite nth_error_map, E.
Qed.
Lemma sg_listed n sg : ordering n sg -> listed eq sg (seq 0 n) sg.
Proof.
  intros H. split; [now rewrite seq_length|]. assert (G : forall i, In i sg -> (i < n)%nat) by (intros i; apply (ordering_in _ _ _ H)). clear H. induction sg as [|i sg IH]; constructor.
  - exists i. split; [|reflexivity]. assert (Hi : (i < n)%nat) by (apply G; cbn; auto). rewrite (nth_error_nth' _ 0%nat) by (rewrite seq_length; lia). rewrite seq_nth by lia. reflexivity.
  - apply IH. intros; apply G; cbn; auto.
Qed.
Lemma list_sum_const {A} (l : list A) k : list_sum (map (fun _ => k) l) = (k * length l)%nat.
Proof. induction l as [|a l IH]; [cbn; lia|]. cbn [map length]. change (list_sum (k :: map (fun _ => k) l)) with (k + list_sum (map (fun _ : A => k) l))%nat. rewrite IH. lia. Qed.
Lemma fu_iso n sg : ordering n sg -> isometry (3 * n) (fu sg).
Proof.
  intros H. set (D := diag (fun _ : nat => 3%nat) (fun _ => tv) (seq 0 n)).
  assert (ID : isometry (3 * n) D). { pose proof (diag_iso (fun _ : nat => 3%nat) (fun _ => tv) (seq 0 n) (fun _ _ => tv_iso)) as G. rewrite list_sum_const, seq_length in G. exact G. }
  assert (IR : isometry (3 * n) (reorder (expand (map (fun _ => 3%nat) (seq 0 n)) sg))).
  { apply reorder_iso. pose proof (expand_ordering (map (fun _ => 3%nat) (seq 0 n)) sg) as G. rewrite list_sum_const, map_length, seq_length in G. auto. }
  assert (E : forall x, length x = (3 * n)%nat -> fu sg x = reorder (expand (map (fun _ => 3%nat) (seq 0 n)) sg) (D x)).
  { intros x Hx. unfold fu, cat3. rewrite flat_map_concat_map, map_map, <- flat_map_concat_map.
    rewrite (listed_flat eq (fun i => v3list (turn_vel th (v3_at x i))) _ sg (seq 0 n) sg (sg_listed n sg H)) by (intros; congruence). f_equal. unfold D.
    assert (Ex : x = flat_map (fun i => v3list (v3_at x i)) (seq 0 n)). { rewrite <- (cat3_v3_at n x Hx) at 1. unfold cat3. now rewrite flat_map_concat_map, map_map, <- flat_map_concat_map. }
    transitivity (diag (fun _ : nat => 3%nat) (fun _ => tv) (map (fun i => i) (seq 0 n)) (flat_map (fun i => v3list (v3_at x i)) (seq 0 n))); [|rewrite map_id; f_equal; symmetry; exact Ex].
    rewrite diag_flat by reflexivity.
    rewrite !flat_map_concat_map. f_equal. }
  pose proof (iso_comp _ _ _ ID IR) as [F1 F2 F3 F4 F5]. constructor; intros.
  - rewrite E by auto. auto.
  - rewrite !E by (auto; vlen). auto.
  - rewrite !E by (auto; vlen). auto.
  - rewrite !E by auto. auto.
  - destruct (F5 y H0) as (x & Hx & <-). exists x. split; [exact Hx|]. now rewrite E.
Qed.
Lemma fu_ext n sg x y : ordering n sg -> length y = (3 * n)%nat -> (forall k i, nth_error sg k = Some i -> v3_at y k = turn_vel th (v3_at x i)) -> y = fu sg x.
Proof.
  intros H Hy G. pose proof (ord_len _ _ H) as L. rewrite <- (cat3_v3_at n y Hy). unfold fu. f_equal. apply (nth_ext _ _ (v3_at y 0) (v3_at y 0)); [now rewrite !map_length, seq_length|].
  intros k Hk. rewrite map_length, seq_length in Hk. rewrite (map_nth (v3_at y)), seq_nth by lia. cbn [Nat.add]. destruct (nth_error sg k) as [i|] eqn:E; [|apply nth_error_None in E; lia].
  rewrite (G k i E). symmetry. apply nth_error_nth. now rewrite nth_error_map, E.
Qed.
End Turn.
