From Coq Require Import Arith ZArith Lia Reals Lra.
From Verif Require Import DiscSpec.
Open Scope R_scope.

Lemma INR_beyond x : 0 <= x -> exists n, x < INR n.
Proof. intros H. destruct (archimed x) as [A _]. exists (Z.to_nat (up x)). rewrite INR_IZR_INZ, Z2Nat.id; [lra|]. apply le_IZR. lra. Qed.
Lemma disc_moment_exists : disc_moment (fun r => PI / 2 * (r * r * (r * r))).
Proof.
  split; [ring|]. intros a b (Ha & Hb). pose proof PI_RGT_0 as P. assert (Q : 0 <= b * b - a * a) by nra.
  replace (PI / 2 * (b * b * (b * b)) - PI / 2 * (a * a * (a * a))) with ((a * a + b * b) / 2 * (PI * (b * b - a * a))) by field.
  assert (0 <= PI * (b * b - a * a)) by (apply Rmult_le_pos; lra). split; apply Rmult_le_compat_r; lra.
Qed.
Lemma disc_moment_value J : disc_moment J -> forall r, 0 <= r -> J r = PI / 2 * (r * r * (r * r)).
Proof.
  intros (J0 & H) r Hr. pose proof PI_RGT_0 as P. destruct disc_moment_exists as (_ & K).
  set (g := fun s => J s - PI / 2 * (s * s * (s * s))).
  assert (D : forall a b, 0 <= a <= b -> Rabs (g b - g a) <= PI * ((b * b - a * a) * (b * b - a * a))).
  { intros a b Hab. specialize (H a b Hab). specialize (K a b Hab). unfold g. apply Rabs_le. cbv beta in K. lra. }
  assert (St : forall n m, (m <= S n)%nat -> Rabs (g (sqrt (INR m / INR (S n)) * r)) <= INR m * (PI * (r * r / INR (S n) * (r * r / INR (S n))))).
  { intros n. assert (N : 0 < INR (S n)) by (apply lt_0_INR; lia). assert (Sq : forall m, 0 <= INR m / INR (S n)) by (intros; apply Rmult_le_pos; [apply pos_INR|left; now apply Rinv_0_lt_compat]).
    induction m as [|m IH]; intros Hm.
    - replace (INR 0 / INR (S n)) with 0 by (change (INR 0) with 0; unfold Rdiv; now rewrite Rmult_0_l). rewrite sqrt_0, Rmult_0_l. unfold g. rewrite J0. replace (0 - PI / 2 * (0 * 0 * (0 * 0))) with 0 by ring. rewrite Rabs_R0. change (INR 0) with 0. lra.
    - specialize (IH ltac:(lia)). set (x := sqrt (INR m / INR (S n)) * r) in *. set (y := sqrt (INR (S m) / INR (S n)) * r) in *.
      assert (Hxy : 0 <= x <= y).
      { unfold x, y. split; [apply Rmult_le_pos; [apply sqrt_pos|exact Hr]|]. apply Rmult_le_compat_r; [exact Hr|]. apply sqrt_le_1_alt. apply Rmult_le_compat_r; [left; now apply Rinv_0_lt_compat|]. rewrite S_INR. lra. }
      specialize (D x y Hxy).
      assert (E : y * y - x * x = r * r / INR (S n)).
      { unfold x, y. replace (sqrt (INR (S m) / INR (S n)) * r * (sqrt (INR (S m) / INR (S n)) * r)) with (sqrt (INR (S m) / INR (S n)) * sqrt (INR (S m) / INR (S n)) * (r * r)) by ring.
        replace (sqrt (INR m / INR (S n)) * r * (sqrt (INR m / INR (S n)) * r)) with (sqrt (INR m / INR (S n)) * sqrt (INR m / INR (S n)) * (r * r)) by ring.
        rewrite !sqrt_sqrt by apply Sq. rewrite (S_INR m). field. lra. }
      rewrite E in D. replace (g y) with (g x + (g y - g x)) by ring. eapply Rle_trans; [apply Rabs_triang|]. rewrite (S_INR m). lra. }
  assert (B : forall n, Rabs (g r) * INR (S n) <= PI * (r * r * (r * r))).
  { intros n. pose proof (St n (S n) (le_n _)) as Sn. assert (N : 0 < INR (S n)) by (apply lt_0_INR; lia). unfold Rdiv in Sn at 1. rewrite Rinv_r in Sn by lra. rewrite sqrt_1, Rmult_1_l in Sn.
    apply (Rmult_le_compat_r (INR (S n))) in Sn; [|lra]. eapply Rle_trans; [exact Sn|]. right. field. lra. }
  assert (Z : g r = 0).
  { destruct (Req_dec (g r) 0) as [E|E]; [exact E|]. exfalso. pose proof (Rabs_pos_lt _ E) as A. destruct (INR_beyond (PI * (r * r * (r * r)) / Rabs (g r))) as [n Hn].
    { apply Rmult_le_pos; [apply Rmult_le_pos; [lra|apply Rle_0_sqr]|left; now apply Rinv_0_lt_compat]. }
    specialize (B n). apply (Rmult_lt_compat_r (Rabs (g r))) in Hn; [|exact A]. replace (PI * (r * r * (r * r)) / Rabs (g r) * Rabs (g r)) with (PI * (r * r * (r * r))) in Hn by (field; lra).
    rewrite S_INR in B. nra. }
  unfold g in Z. lra.
Qed.
