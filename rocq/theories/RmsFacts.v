(** The steps of RMSprop (proofs for C92, C93) *)
From Coq Require Import List Arith ZArith Lia Bool Reals Lra.
From Verif Require Import Num GeoSpec RmsSpec.
Import ListNotations.
Open Scope R_scope.

Lemma Rsum_app l l' : Rsum (l ++ l') = Rsum l + Rsum l'.
Proof. unfold Rsum. induction l as [|a l IH]; cbn [app fold_right]; [ring|]. rewrite IH. ring. Qed.
Lemma Rsum_scale c l : Rsum (map (Rmult c) l) = c * Rsum l.
Proof. unfold Rsum. induction l as [|a l IH]; cbn [map fold_right]; [ring|]. rewrite IH. ring. Qed.
Lemma faded_0 g : faded g 0 = 1 / 100 * g 0%nat ^ 2.
Proof. unfold faded, Rsum. cbn. ring. Qed.
Lemma faded_S g k : faded g (S k) = 99 / 100 * faded g k + 1 / 100 * g (S k) ^ 2.
Proof.
  unfold faded. rewrite (seq_S (S k)), map_app, Rsum_app. apply f_equal2; [|cbn [map Nat.add]; unfold Rsum; cbn [fold_right]; rewrite Nat.sub_diag; cbn [pow]; ring].
  rewrite <- Rsum_scale, map_map. apply f_equal. apply map_ext_in. intros i Hi. apply in_seq in Hi. rewrite Nat.sub_succ_l by lia. cbn [pow]. ring.
Qed.
Lemma faded_above g k : (Rabs (g k) / 10) ^ 2 <= faded g k.
Proof.
  replace ((Rabs (g k) / 10) ^ 2) with (1 / 100 * g k ^ 2) by (rewrite <- (pow2_abs (g k)); field). destruct k as [|k]; [rewrite faded_0; lra|]. rewrite faded_S.
  assert (0 <= faded g k); [|lra]. clear. induction k as [|k IH]; [rewrite faded_0; pose proof (pow2_ge_0 (g 0%nat)); lra|]. rewrite faded_S. pose proof (pow2_ge_0 (g (S k))). lra.
Qed.
Lemma faded_ext g g' k : (forall j, (j <= k)%nat -> g j = g' j) -> faded g k = faded g' k.
Proof. intros H. unfold faded. apply f_equal. apply map_ext_in. intros i Hi. apply in_seq in Hi. rewrite H by lia. reflexivity. Qed.
Lemma stepped_ext lr g g' k a : (forall j, (j <= k)%nat -> g j = g' j) -> stepped lr g k a = stepped lr g' k a.
Proof. intros H. unfold stepped. rewrite (faded_ext g g' k H), (H k (Nat.le_refl k)). reflexivity. Qed.
Lemma stepped_near lr g k a : 0 <= lr -> Rabs (stepped lr g k a - a) <= 10 * lr.
Proof.
  intros Hl. unfold stepped. pose proof (faded_above g k) as Hq. set (q := faded g k) in *. assert (Hd : Rabs (g k) / 10 <= sqrt q). { rewrite <- (sqrt_pow2 (Rabs (g k) / 10)) by (pose proof (Rabs_pos (g k)); lra). now apply sqrt_le_1_alt. }
  set (D := sqrt q + 1 / 100000000). pose proof (sqrt_pos q) as Hp. assert (HD : 0 < D) by (unfold D; lra). replace (a - lr * g k / D - a) with (- (lr / D * g k)) by (field; lra). rewrite Rabs_Ropp, Rabs_mult.
  assert (0 <= lr / D) by (apply Rmult_le_pos; [exact Hl|left; now apply Rinv_0_lt_compat]). rewrite (Rabs_pos_eq (lr / D)) by assumption. apply (Rmult_le_reg_r D); [exact HD|]. replace (lr / D * Rabs (g k) * D) with (lr * Rabs (g k)) by (field; lra). unfold D. pose proof (Rabs_pos (g k)). nra.
Qed.
Lemma stepped_first lr g a : stepped lr g 0 a = a - 10 * lr * g 0%nat / (Rabs (g 0%nat) + 1 / 10000000).
Proof.
  unfold stepped. rewrite faded_0. assert (E : sqrt (1 / 100 * g 0%nat ^ 2) = Rabs (g 0%nat) / 10). { pose proof (Rabs_pos (g 0%nat)). rewrite <- (sqrt_pow2 (Rabs (g 0%nat) / 10)) by lra. apply f_equal. rewrite <- (pow2_abs (g 0%nat)). field. }
  rewrite E. pose proof (Rabs_pos (g 0%nat)). field. lra.
Qed.
Lemma stepped_down lr g k a : 0 < lr -> exists r, 0 < r /\ stepped lr g k a = a - r * g k.
Proof.
  intros Hl. exists (lr / (sqrt (faded g k) + 1 / 100000000)). pose proof (sqrt_pos (faded g k)). split; [apply Rmult_lt_0_compat; [exact Hl|apply Rinv_0_lt_compat; lra]|]. unfold stepped, Rdiv. ring.
Qed.
(** the average is kept from step to step *)
Lemma kept_average (s g : nat -> R) n : s 0%nat = 0 -> (forall j, (j < n)%nat -> s (S j) = s j * (99 / 100) + (1 - 99 / 100) * g j * g j) -> forall j, (j < n)%nat -> s (S j) = faded g j.
Proof.
  intros S0 H. induction j as [|j IH]; intros Hj; rewrite (H _ Hj).
  - rewrite S0, faded_0. field.
  - rewrite IH by lia. rewrite faded_S. field.
Qed.
