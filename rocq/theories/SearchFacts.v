(** The loss of the mass-inference experiment and its derivative (proofs for C93) *)
From Coq Require Import List Arith ZArith Lia Bool Reals Lra.
From Verif Require Import Num Tensor Utils Bodies Forces Constraints Contacts World Infer Search GeoSpec InferSpec SearchSpec RBase ResFacts LinAlg InferRun.
Import ListNotations.
Open Scope R_scope.

(** *** the loss *)
Lemma vmap2_clip_l (f : R -> R -> R) : forall (y x : list R) n, (length y <= n)%nat -> vmap2 f (firstn n x) y = vmap2 f x y.
Proof.
  induction y as [|b y IH]; intros x n L; [destruct x, n; reflexivity|]. destruct n as [|n]; [cbn in L; lia|]. destruct x as [|a x]; [reflexivity|]. cbn [firstn vmap2]. rewrite IH by (cbn in L; lia). reflexivity.
Qed.
Lemma vmap2_clip_r (f : R -> R -> R) : forall (x y : list R) n, (length x <= n)%nat -> vmap2 f x (firstn n y) = vmap2 f x y.
Proof.
  induction x as [|a x IH]; intros y n L; [reflexivity|]. destruct n as [|n]; [cbn in L; lia|]. destruct y as [|b y]; [reflexivity|]. cbn [firstn vmap2]. rewrite IH by (cbn in L; lia). reflexivity.
Qed.
Lemma clip_sub (P G : list R) : vsub (firstn (length G) P) (firstn (length (firstn (length G) P)) G) = vsub P G.
Proof. unfold vsub. rewrite vmap2_clip_r by lia. now apply vmap2_clip_l. Qed.
Lemma squares_seq : forall P G : list R, vsum (map (fun a => a * a) (vsub P G)) = Rsum (map (fun j => (nth j P 0 - nth j G 0) ^ 2) (seq 0 (Nat.min (length P) (length G)))).
Proof.
  induction P as [|a P IH]; intros [|b G]; try reflexivity. cbn [length Nat.min seq map]. rewrite <- seq_shift, map_map. cbn [nth]. unfold Rsum in *. cbn [fold_right]. rewrite <- IH. unfold vsub, vsum. cbn [vmap2 map fold_right]. rnum. ring.
Qed.
Lemma products_seq : forall (P G J : list R) (c : R), dot (map (fun d => 2 * d / c) (vsub P G)) J =
  Rsum (map (fun j => 2 * (nth j P 0 - nth j G 0) * nth j J 0) (seq 0 (Nat.min (length P) (length G)))) / c.
Proof.
  induction P as [|a P IH]; intros G J c; [cbn; unfold Rdiv; rnum; ring|]. destruct G as [|b G]; [cbn; rnum; unfold Rdiv; ring|]. cbn [length Nat.min seq map]. rewrite <- seq_shift, map_map. cbn [nth].
  unfold Rsum in *. cbn [fold_right]. destruct J as [|j J].
  - cbn [nth]. rewrite dot_nil_r. set (q := fold_right Rplus 0 _). assert (q = 0) as ->; [|unfold Rdiv; ring]. unfold q. clear. generalize (seq 0 (Nat.min (length P) (length G))). intros l. induction l as [|x l IH]; [reflexivity|]. cbn [map fold_right]. rewrite IH. ring.
  - cbn [nth]. unfold vsub in *. cbn [vmap2 map]. rewrite dot_cons, IH. rnum. unfold Rdiv. ring.
Qed.
Lemma clip_len (P G : list R) : length (firstn (length G) P) = Nat.min (length P) (length G).
Proof. rewrite firstn_length. lia. Qed.
Lemma loss_mean p g : loss p g = mean_sq p g.
Proof.
  unfold loss, mean_sq, overlap. rewrite clip_sub, clip_len. change (ndiv ?a ?b) with (a / b) at 1. rewrite <- squares_seq. apply f_equal2; [reflexivity|]. rewrite INR_IZR_INZ. reflexivity.
Qed.
Lemma backward_slope jac p g : backward jac p g = slope jac p g.
Proof.
  unfold backward, slope, overlap. rewrite clip_sub. assert (D : forall (x j : list R) n, (length x <= n)%nat -> dot x (firstn n j) = dot x j) by (intros x j n L; unfold dot, vmul; now rewrite vmap2_clip_r).
  rewrite D by (rewrite map_length, vsub_length, clip_len; lia). rewrite clip_len, INR_IZR_INZ. exact (products_seq _ _ _ _).
Qed.
(** *** the derivative *)
Lemma slope_sum {A} (l : list A) (f : A -> R -> R) (d : A -> R) x : (forall a, In a l -> derivable_pt_lim (f a) x (d a)) ->
  derivable_pt_lim (fun y => Rsum (map (fun a => f a y) l)) x (Rsum (map d l)).
Proof.
  induction l as [|a l IH]; intros H; unfold Rsum in *; cbn [map fold_right].
  - exact (derivable_pt_lim_const 0 x).
  - apply (derivable_pt_lim_plus (f a)); [apply H; left; reflexivity|apply IH; intros b Hb; apply H; right; exact Hb].
Qed.
Lemma slope_near f g x a d : 0 < d -> (forall y, Rabs (y - x) < d -> f y = g y) -> derivable_pt_lim f x a -> derivable_pt_lim g x a.
Proof.
  intros Hd E H eps He. destruct (H eps He) as [[e Hpe] Q]. cbn [pos] in Q. exists (mkposreal (Rmin d e) (Rmin_pos _ _ Hd Hpe)). cbn [pos]. intros h Hh Hl.
  pose proof (Rmin_l d e). pose proof (Rmin_r d e). rewrite <- (E (x + h)), <- (E x); [apply Q; [exact Hh|lra]|rewrite Rminus_eq_0, Rabs_R0; exact Hd|replace (x + h - x) with h by ring; lra].
Qed.
Theorem mean_slope (film : R -> list (list R)) g m jac d : 0 < d -> (forall y, Rabs (y - m) < d -> length (concat (film y)) = length (concat (film m))) ->
  (forall j, (j < length (concat (film m)))%nat -> derivable_pt_lim (fun y => nth j (concat (film y)) 0) m (nth j jac 0)) ->
  derivable_pt_lim (fun y => loss (film y) g) m (backward jac (film m) g).
Proof.
  intros H0 HL HD. rewrite backward_slope. set (K := overlap (film m) g).
  assert (E : forall y, Rabs (y - m) < d -> loss (film y) g = / INR K * Rsum (map (fun j => (nth j (concat (film y)) 0 - nth j (concat g) 0) ^ 2) (seq 0 K))).
  { intros y Hy. rewrite loss_mean. unfold mean_sq. replace (overlap (film y) g) with K by (unfold K, overlap; now rewrite (HL y Hy)). unfold Rdiv. ring. }
  apply (slope_near (fun y => / INR K * Rsum (map (fun j => (nth j (concat (film y)) 0 - nth j (concat g) 0) ^ 2) (seq 0 K))) _ _ _ d H0); [intros y Hy; symmetry; now apply E|].
  unfold slope. fold K. replace (Rsum (map (fun j => 2 * (nth j (concat (film m)) 0 - nth j (concat g) 0) * nth j jac 0) (seq 0 K)) / INR K) with
    (/ INR K * Rsum (map (fun j => 2 * (nth j (concat (film m)) 0 - nth j (concat g) 0) * nth j jac 0) (seq 0 K))) by (unfold Rdiv; ring).
  apply (derivable_pt_lim_scal (fun y => Rsum (map (fun j => (nth j (concat (film y)) 0 - nth j (concat g) 0) ^ 2) (seq 0 K)))).
  apply (slope_sum (seq 0 K) (fun j y => (nth j (concat (film y)) 0 - nth j (concat g) 0) ^ 2)). intros j Hj. apply in_seq in Hj.
  assert (Hd : derivable_pt_lim (fun y => nth j (concat (film y)) 0 - nth j (concat g) 0) m (nth j jac 0)).
  { replace (nth j jac 0) with (nth j jac 0 - 0) by ring. apply (derivable_pt_lim_minus (fun y => nth j (concat (film y)) 0) (fun _ => nth j (concat g) 0)); [apply HD; unfold K, overlap in Hj; lia|apply derivable_pt_lim_const]. }
  replace (2 * (nth j (concat (film m)) 0 - nth j (concat g) 0) * nth j jac 0) with (nth j jac 0 * (nth j (concat (film m)) 0 - nth j (concat g) 0) + (nth j (concat (film m)) 0 - nth j (concat g) 0) * nth j jac 0) by ring.
  apply (derivable_pt_lim_ext (fun y => (nth j (concat (film y)) 0 - nth j (concat g) 0) * (nth j (concat (film y)) 0 - nth j (concat g) 0))); [intros y; ring|].
  apply (derivable_pt_lim_mult (fun y => nth j (concat (film y)) 0 - nth j (concat g) 0) (fun y => nth j (concat (film y)) 0 - nth j (concat g) 0)); exact Hd.
Qed.
Lemma slope_agree jac p g : clipped p g = clipped g p -> slope jac p g = 0 /\ mean_sq p g = 0.
Proof.
  intros E. assert (Z : forall j, (j < overlap p g)%nat -> nth j (concat p) 0 = nth j (concat g) 0).
  { intros j Hj. unfold overlap in Hj. apply (f_equal (fun l => nth j l 0)) in E. unfold clipped in E.
    assert (F : forall n (l : list R), (j < n)%nat -> nth j (firstn n l) 0 = nth j l 0). { clear. intros n l. revert j n. induction l as [|a l IH]; intros j [|n] H; try lia; [destruct j; reflexivity|]. destruct j as [|j]; [reflexivity|]. cbn [firstn nth]. apply IH. lia. }
    rewrite !F in E by lia. exact E. }
  unfold slope, mean_sq. assert (S0 : forall f : nat -> R, (forall j, (j < overlap p g)%nat -> f j = 0) -> Rsum (map f (seq 0 (overlap p g))) = 0).
  { intros f Hf. rewrite (map_ext_in f (fun _ => 0)) by (intros j Hj; apply in_seq in Hj; apply Hf; lia). clear. generalize (seq 0 (overlap p g)). intros l. unfold Rsum. induction l as [|x l IH]; [reflexivity|]. cbn [map fold_right]. rewrite IH. ring. }
  rewrite !S0; [unfold Rdiv; split; ring| |]; intros j Hj; rewrite (Z j Hj); ring.
Qed.

(** *** the optimiser *)
Lemma optim_moves p sq g p' sq' : 0 <= sq -> optim_step p sq g = (p', sq') -> 0 <= sq' /\ exists r, 0 < r /\ p' = p - r * g /\ Rabs (p' - p) <= 5.
Proof.
  intros Hs H. unfold optim_step, learning_rate in H. rnum. injection H as <- <-.
  set (q := sq * (99 / 100) + (1 - 99 / 100) * g * g). assert (Hq : (Rabs g / 10) ^ 2 <= q). { unfold q. pose proof (Rabs_pos g). replace ((Rabs g / 10) ^ 2) with (Rabs g * Rabs g / 100) by field. rewrite <- Rabs_mult, Rabs_pos_eq by nra. lra. }
  assert (H0 : 0 <= q) by (eapply Rle_trans; [apply pow2_ge_0|exact Hq]). split; [exact H0|].
  assert (Hd : Rabs g / 10 <= sqrt q). { rewrite <- (sqrt_pow2 (Rabs g / 10)) by (pose proof (Rabs_pos g); lra). now apply sqrt_le_1_alt. }
  set (D := sqrt q + 1 / 100000000). pose proof (sqrt_pos q) as Hp. assert (HD : 0 < D) by (unfold D; lra).
  exists (1 / 2 / D). split; [apply Rmult_lt_0_compat; [lra|now apply Rinv_0_lt_compat]|]. split; [unfold Rdiv; ring|].
  replace (p - 1 / 2 * g / D - p) with (- (1 / 2 / D * g)) by (field; lra). rewrite Rabs_Ropp.
  rewrite Rabs_mult, (Rabs_pos_eq (1 / 2 / D)) by (apply Rlt_le, Rmult_lt_0_compat; [lra|now apply Rinv_0_lt_compat]).
  apply (Rmult_le_reg_r D); [exact HD|]. replace (1 / 2 / D * Rabs g * D) with (1 / 2 * Rabs g) by (field; lra). unfold D. nra.
Qed.
Lemma optim_first p g : exists sq', optim_step p 0 g = (p - 5 * g / (Rabs g + 1 / 10000000), sq').
Proof.
  eexists. unfold optim_step, learning_rate. rnum. apply f_equal2; [|reflexivity].
  assert (E : sqrt (0 * (99 / 100) + (1 - 99 / 100) * g * g) = Rabs g / 10).
  { rewrite <- (sqrt_pow2 (Rabs g / 10)) by (pose proof (Rabs_pos g); lra). apply f_equal. replace ((Rabs g / 10) ^ 2) with (Rabs g * Rabs g / 100) by field. rewrite <- Rabs_mult, Rabs_pos_eq by nra. field. }
  rewrite E. pose proof (Rabs_pos g). field. lra.
Qed.
Lemma optim_none p sq : exists sq', optim_step p sq 0 = (p, sq').
Proof. eexists. unfold optim_step. rnum. apply f_equal2; [unfold Rdiv; ring|reflexivity]. Qed.
