(** Plane geometry: segments, hulls, nearest points *)
From Coq Require Import List Arith ZArith Bool Reals Lra Lia Psatz.
From Verif Require Import Num Tensor Utils Bodies Forces Constraints Contacts World Spec ResFacts RBase GeoSpec BodySpec ContactSpec
     BodyFacts GeomFacts.
Import ListNotations.
Open Scope R_scope.

Lemma sq0 (x : R) : 0 <= x * x.
Proof. nra. Qed.
Lemma sumsq (x y : R) : 0 <= x * x + y * y.
Proof. pose proof (sq0 x). pose proof (sq0 y). lra. Qed.
Lemma sumsq0 (x y : R) : x * x + y * y = 0 -> x = 0 /\ y = 0.
Proof. pose proof (sq0 x). pose proof (sq0 y). intros. split; nra. Qed.
Lemma dist_sq a b : dist a b * dist a b = (fst a - fst b) * (fst a - fst b) + (snd a - snd b) * (snd a - snd b).
Proof. unfold dist. apply sqrt_sqrt. apply sumsq. Qed.
Lemma dist_nonneg a b : 0 <= dist a b.
Proof. apply sqrt_pos. Qed.
Lemma dist_sym a b : dist a b = dist b a.
Proof. unfold dist. f_equal. ring. Qed.
Lemma dist_zero a b : dist a b = 0 <-> a = b.
Proof.
  split.
  - intros H. pose proof (dist_sq a b) as E. rewrite H in E. destruct a as [x y], b as [x' y']. cbn in E.
    rewrite Rmult_0_l in E. symmetry in E. apply sumsq0 in E. apply f_equal2; lra.
  - intros ->. unfold dist. replace (_ + _) with 0 by ring. apply sqrt_0.
Qed.
Lemma dist_pos a b : a <> b -> 0 < dist a b.
Proof. intros H. pose proof (dist_nonneg a b). destruct (Req_dec (dist a b) 0) as [E|E]; [apply dist_zero in E; tauto|lra]. Qed.
Lemma dist_lt_sq p q x : dist p q * dist p q < dist p x * dist p x -> dist p q < dist p x.
Proof. pose proof (dist_nonneg p q). pose proof (dist_nonneg p x). nra. Qed.
Lemma v2norm_dist (a : pt) : v2norm a = dist a (0, 0).
Proof. unfold v2norm, dist, v2dot. rnum. cbn [fst snd]. f_equal. ring. Qed.
Lemma v2norm_sub (a b : pt) : v2norm (v2sub a b) = dist a b.
Proof. unfold v2norm, dist, v2dot, v2sub. rnum. reflexivity. Qed.
Lemma v2norm_sq (a : pt) : v2norm a * v2norm a = v2dot a a.
Proof. unfold v2norm. rnum. apply sqrt_sqrt. unfold v2dot. rnum. nra. Qed.
Lemma v2norm_nonneg (a : pt) : 0 <= v2norm a.
Proof. apply sqrt_pos. Qed.
Lemma v2norm_pos (a : pt) : a <> (0, 0) -> 0 < v2norm a.
Proof. intros. rewrite v2norm_dist. now apply dist_pos. Qed.
Lemma unit_div (a : pt) : a <> (0, 0) -> unit_vec (v2div a (v2norm a)).
Proof.
  intros H. apply v2norm_pos in H. pose proof (v2norm_sq a) as E. unfold unit_vec, v2div. rnum. cbn [fst snd].
  unfold v2dot in E. rnum. replace (_ + _) with ((fst a * fst a + snd a * snd a) / (v2norm a * v2norm a)) by (field; lra).
  rewrite <- E. field. lra.
Qed.
Lemma unit_opp (n : pt) : unit_vec n -> unit_vec (v2opp n).
Proof. unfold unit_vec, v2opp. rnum. cbn [fst snd]. intros. nra. Qed.
Lemma v2sub_zero (a b : pt) : v2sub a b = (0, 0) -> a = b.
Proof. destruct a as [x y], b as [x' y']. unfold v2sub. rnum. cbn. intros H. inversion H. apply f_equal2; lra. Qed.
Lemma v2_eq_dec (a b : pt) : {a = b} + {a <> b}.
Proof.
  destruct a as [x y], b as [x' y']. destruct (Req_EM_T x x') as [->|H]; [|right; congruence].
  destruct (Req_EM_T y y') as [->|H]; [left; reflexivity|right; congruence].
Qed.

(** *** affine functions on hulls *)
Definition aff (k c d : R) (x : pt) : R := k + c * fst x + d * snd x.
Lemma wsum_lin ws vs c d : length ws = length vs ->
  c * wsum ws fst vs + d * wsum ws snd vs = wsum ws (fun v => c * fst v + d * snd v) vs.
Proof.
  revert vs; induction ws as [|w ws IH]; intros [|v vs] H; try discriminate; unfold wsum in *; cbn [combine map fst snd]; rewrite ?Rsum_cons.
  - cbn. ring.
  - rewrite <- IH by (cbn in H; lia). ring.
Qed.
Lemma wsum_le ws vs (f : pt -> R) k : length ws = length vs -> Forall (fun x => 0 <= x) ws ->
  (forall v, In v vs -> f v <= k) -> wsum ws f vs <= k * Rsum ws.
Proof.
  revert vs; induction ws as [|w ws IH]; intros [|v vs] H Hw Hk; try discriminate; unfold wsum in *; cbn [combine map fst snd]; rewrite ?Rsum_cons.
  - cbn. lra.
  - inversion Hw; subst. pose proof (IH vs ltac:(cbn in H; lia) ltac:(auto) ltac:(intros; apply Hk; right; auto)).
    pose proof (Hk v (or_introl eq_refl)). nra.
Qed.
Lemma in_hull_aff vs q k c d m : in_hull vs q -> (forall v, In v vs -> aff k c d v <= m) -> aff k c d q <= m.
Proof.
  intros (ws & Hl & Hw & Hs & Hx & Hy) H. unfold aff in *. rewrite Hx, Hy.
  pose proof (wsum_lin ws vs c d Hl). pose proof (wsum_le ws vs (fun v => c * fst v + d * snd v) (m - k) Hl Hw) as L.
  rewrite Hs in L. assert (wsum ws (fun v => c * fst v + d * snd v) vs <= (m - k) * 1); [|lra].
  apply L. intros v Hv. pose proof (H v Hv). lra.
Qed.
Lemma wsum_zeros (f : pt -> R) vs n : wsum (repeat 0 n) f vs = 0.
Proof. revert vs; induction n; intros vs; unfold wsum in *; destruct vs; cbn; auto. rewrite IHn. ring. Qed.
Lemma Rsum_repeat0 n : Rsum (repeat 0 n) = 0.
Proof. induction n; cbn [repeat]; [reflexivity|]. rewrite Rsum_cons, IHn. ring. Qed.
(** convex combinations of two hull points *)
Lemma in_hull_mix vs q1 q2 t : 0 <= t <= 1 -> in_hull vs q1 -> in_hull vs q2 -> in_hull vs (along q1 q2 t).
Proof.
  intros Ht (w1 & L1 & F1 & S1 & X1 & Y1) (w2 & L2 & F2 & S2 & X2 & Y2).
  assert (G : forall (f : pt -> R) vs w1 w2, length w1 = length vs -> length w2 = length vs ->
     wsum (map (fun ab => (1 - t) * fst ab + t * snd ab) (combine w1 w2)) f vs = (1 - t) * wsum w1 f vs + t * wsum w2 f vs).
  { intros f. induction vs0 as [|v vs0 IH]; intros [|a u1] [|b u2] H1 H2; try discriminate; unfold wsum in *; cbn [combine map fst snd]; rewrite ?Rsum_cons.
    - cbn. ring.
    - rewrite IH by (cbn in *; lia). ring. }
  assert (S : forall w1 w2 : list R, length w1 = length w2 -> Rsum (map (fun ab => (1 - t) * fst ab + t * snd ab) (combine w1 w2)) = (1 - t) * Rsum w1 + t * Rsum w2).
  { induction w0 as [|a w0 IH]; intros [|b u2] H; try discriminate; cbn [combine map fst snd]; rewrite ?Rsum_cons; [cbn; ring|].
    rewrite IH by (cbn in H; lia). ring. }
  exists (map (fun ab => (1 - t) * fst ab + t * snd ab) (combine w1 w2)). split; [rewrite map_length, combine_length; lia|]. split.
  - rewrite Forall_forall in *. intros x Hx. apply in_map_iff in Hx. destruct Hx as ([a b] & <- & Hab). cbn [fst snd].
    pose proof (F1 a (in_combine_l _ _ _ _ Hab)). pose proof (F2 b (in_combine_r _ _ _ _ Hab)). nra.
  - split; [rewrite S by lia; rewrite S1, S2; ring|]. rewrite !G by lia. unfold along. cbn [fst snd]. rewrite X1, Y1, X2, Y2. split; ring.
Qed.
Lemma in_hull_vertex vs v : In v vs -> in_hull vs v.
Proof.
  intros H. apply in_split in H. destruct H as (l1 & l2 & ->).
  exists (repeat 0 (length l1) ++ 1 :: repeat 0 (length l2)). split; [rewrite !app_length; cbn; rewrite !repeat_length; reflexivity|].
  split; [apply Forall_app; split; [|constructor; [lra|]]; apply Forall_forall; intros x Hx; apply repeat_spec in Hx; lra|].
  split; [rewrite Rsum_app, Rsum_cons, !Rsum_repeat0; ring|].
  assert (G : forall (f : pt -> R) l1, wsum (repeat 0 (length l1) ++ 1 :: repeat 0 (length l2)) f (l1 ++ v :: l2) = f v).
  { intros f. induction l0 as [|a l0 IH].
    - cbn [length repeat app]. unfold wsum. cbn [combine map fst snd]. rewrite Rsum_cons. fold (wsum (repeat 0 (length l2)) f l2). rewrite wsum_zeros. ring.
    - cbn [length repeat app]. unfold wsum in *. cbn [combine map fst snd]. rewrite Rsum_cons, IH. ring. }
  rewrite !G. split; reflexivity.
Qed.
Lemma along_0 a b : along a b 0 = a.
Proof. unfold along. destruct a, b; cbn. apply f_equal2; ring. Qed.
Lemma along_1 a b : along a b 1 = b.
Proof. unfold along. destruct a, b; cbn. apply f_equal2; ring. Qed.
Lemma on_segment_hull vs a b q : In a vs -> In b vs -> on_segment a b q -> in_hull vs q.
Proof. intros Ha Hb (t & Ht & ->). apply in_hull_mix; auto using in_hull_vertex. Qed.
Lemma in_hull_two a b q : in_hull [a; b] q <-> on_segment a b q.
Proof.
  split.
  - intros (ws & L & F & S & X & Y). destruct ws as [|u [|v [|]]]; try discriminate. inversion F as [|? ? Hu F']; subst. inversion F' as [|? ? Hv _]; subst.
    cbn in S. unfold wsum in X, Y. cbn in X, Y. exists v. split; [lra|]. unfold along. destruct q; cbn in *. apply f_equal2; nra.
  - intros H. eapply on_segment_hull; eauto; [left|right; left]; reflexivity.
Qed.

(** the optimality condition of the nearest point *)
Lemma nearest_cond vs p q : in_hull vs q ->
  (forall v, In v vs -> (fst p - fst q) * (fst v - fst q) + (snd p - snd q) * (snd v - snd q) <= 0) -> nearest vs p q.
Proof.
  intros Hq H. split; [exact Hq|]. intros x Hx.
  assert (L : aff (- ((fst p - fst q) * fst q + (snd p - snd q) * snd q)) (fst p - fst q) (snd p - snd q) x <= 0).
  { apply (in_hull_aff vs); auto. intros v Hv. pose proof (H v Hv). unfold aff. nra. }
  unfold aff in L. destruct (v2_eq_dec x q) as [E|E]; [left; auto|right].
  apply dist_lt_sq. rewrite !dist_sq. pose proof (dist_pos x q E) as D. pose proof (dist_sq x q) as D2. nra.
Qed.
Lemma nearest_unique vs p q q' : nearest vs p q -> nearest vs p q' -> q = q'.
Proof.
  intros [H1 H2] [H3 H4]. destruct (H2 q' H3) as [E|L]; [auto|]. destruct (H4 q H1) as [E|L']; [auto|lra].
Qed.
Lemma nearest_cond_inv vs p q : nearest vs p q ->
  forall v, In v vs -> (fst p - fst q) * (fst v - fst q) + (snd p - snd q) * (snd v - snd q) <= 0.
Proof.
  intros [Hq H] v Hv. destruct (Rle_lt_dec ((fst p - fst q) * (fst v - fst q) + (snd p - snd q) * (snd v - snd q)) 0) as [L|L]; [exact L|exfalso].
  set (g := (fst p - fst q) * (fst v - fst q) + (snd p - snd q) * (snd v - snd q)) in *.
  assert (Hne : v <> q) by (intros ->; unfold g in L; nra).
  pose proof (dist_pos v q Hne) as D. pose proof (dist_sq v q) as D2. set (n2 := dist v q * dist v q) in *.
  assert (N : 0 < n2) by (unfold n2; nra).
  set (t := Rmin 1 (g / n2)).
  assert (T1 : 0 < t <= 1). { unfold t. split; [apply Rmin_glb_lt; [lra|apply Rdiv_lt_0_compat; lra]|apply Rmin_l]. }
  assert (T2 : t * n2 <= g). { apply Rle_trans with (g / n2 * n2); [apply Rmult_le_compat_r; [lra|apply Rmin_r]|right; field; lra]. }
  destruct (H (along q v t)) as [E|Lt].
  - apply in_hull_mix; [lra|exact Hq|apply in_hull_vertex; auto].
  - destruct q as [qx qy], v as [vx vy]. unfold along in E. cbn in *. inversion E as [[E1 E2]].
    assert (t * (vx - qx) = 0) by lra. assert (t * (vy - qy) = 0) by lra. apply Hne.
    apply f_equal2; nra.
  - assert (dist p q * dist p q < dist p (along q v t) * dist p (along q v t)).
    { pose proof (dist_nonneg p q). nra. }
    rewrite !dist_sq in H0. unfold along in H0. cbn [fst snd] in H0.
    assert (0 < t * (t * n2 - 2 * g)) by (rewrite D2; unfold g; nra). nra.
Qed.
