(** The block LU factorisation of the KKT system and its solution *)
From Coq Require Import List Arith ZArith Bool Reals Lra Lia.
From Verif Require Import Num Tensor Lapack Pdipm RBase LinAlg SysFacts LapackSpec ResFacts PivFacts LuFacts KktSpec.
Import ListNotations.
Open Scope R_scope.

Lemma piv_from_surj n piv : forall s (x : vecR), piv_ok n s piv -> length x = n -> exists w, length w = n /\ piv_from 0 s piv w = x.
Proof.
  induction piv as [|p piv IH]; intros s x Hp Hx; [exists x; auto|]. apply piv_ok_cons in Hp. destruct Hp as (H1 & H2 & H3).
  destruct (IH (S s) x H3 Hx) as (w & Lw & E). exists (swap 0 w s (p - 1)). split; [now rewrite swap_length|]. rewrite piv_from_cons, swap_swap by lia. exact E.
Qed.
Lemma piv_unpack_P sz piv (x : vecR) : piv_ok sz 0 piv -> length x = sz -> apply_piv 0 piv (mv (unpack_P sz piv) x) = x.
Proof. intros Hp Hx. destruct (piv_from_surj sz piv 0 x Hp Hx) as (w & Lw & <-). rewrite <- apply_piv_from. now rewrite mv_unpack_P. Qed.

(** *** triangles *)
Lemma lower_inj n : forall D x y, wf n n D -> length x = n -> length y = n -> mv (square n (lower D)) x = mv (square n (lower D)) y -> x = y.
Proof.
  induction n as [|n IH]; intros D x y HD Hx Hy E.
  - destruct x, y; cbn in *; auto; lia.
  - destruct (wf_S_inv _ _ HD) as (u & r & rows & ->).
    destruct x as [|x0 x]; [discriminate|]. destruct y as [|y0 y]; [discriminate|]. injection Hx as Hx. injection Hy as Hy.
    rewrite !(lower_cons n u r rows HD) in E by auto. injection E as E0 E1. subst y0. f_equal.
    pose proof (wf_length _ _ _ (D_rows _ _ _ _ HD)).
    apply vadd_inj_l in E1; [|rewrite mv_length, vscale_length, map_length, square_length; lia|rewrite mv_length, vscale_length, map_length, square_length; lia].
    eapply IH; eauto. now apply (wf_tl n u r).
Qed.
Lemma upper_inj n D x y : wf n n D -> udiag n D -> length x = n -> length y = n -> mv (square n (upper D)) x = mv (square n (upper D)) y -> x = y.
Proof. intros W U Hx Hy E. apply (lu_mul_inj n D []); auto. unfold lu_mul. cbn [fst]. now rewrite E. Qed.
Lemma unpack_U_square n (D : matR) : length D = n -> unpack_U D = square n (upper D).
Proof. intros <-. reflexivity. Qed.
Lemma unpack_L_square n (D : matR) : length D = n -> unpack_L D = square n (lower D).
Proof.
  intros <-. unfold unpack_L, square, lower. apply map_ext. intros i. apply map_ext. intros j.
  destruct (Nat.eqb_spec i j), (Nat.leb_spec i j), (Nat.ltb_spec j i); auto; lia.
Qed.

(** *** solving *)
Section Solve.
Variable la : lapack R.
Hypothesis HL : lapack_ok la.
Lemma getrs_solves n A f b : wf n n A -> factors n A f -> length b = n -> length (la_getrs la f b) = n /\ mv A (la_getrs la f b) = b.
Proof.
  intros W HF Hb. destruct (getrs_ok la HL n f b (proj1 HF) Hb) as [L E]. split; auto. eapply factors_solve; eauto.
Qed.
Lemma getrs_unique n A f b x : wf n n A -> factors n A f -> length b = n -> length x = n -> mv A x = b -> la_getrs la f b = x.
Proof. intros W HF Hb Hx E. destruct (getrs_solves n A f b W HF Hb) as [L E']. eapply factors_inj; eauto. congruence. Qed.
Lemma wf_getrs_mat n k A f (B : matR) : wf n n A -> factors n A f -> wf n k B -> wf n k (getrs_mat la f n k B).
Proof. intros W HF WB. unfold getrs_mat. apply wf_mtr. rewrite map_length. vlen. Qed.
Lemma getrs_mat_mv n k A f (B : matR) z : wf n n A -> factors n A f -> wf n k B -> length z = k ->
  mv (getrs_mat la f n k B) z = la_getrs la f (mv B z).
Proof.
  intros W HF WB Hz. symmetry. assert (LM : forall x, length (mv A x) = n) by (intros; rewrite mv_length; apply W).
  apply (getrs_unique n A); auto; [rewrite mv_length; apply WB| |].
  - rewrite mv_length. apply (wf_length n k). eapply wf_getrs_mat; eauto.
  - unfold getrs_mat. change (mv (mtr n (map (la_getrs la f) (mtr k B))) z) with (vm n z (map (la_getrs la f) (mtr k B))).
    assert (FR : Forall (fun c => length c = n) (mtr k B)) by (apply (wf_mtr n k); apply WB).
    rewrite (vm_map_rows (n := n) (k := n) (mtr k B) (la_getrs la f) (mv A)).
    + rewrite (map_ext_in _ (fun c => c)), map_id; [now apply vm_mtr|]. intros c Hc. rewrite Forall_forall in FR. apply (getrs_solves n); auto.
    + intros u v Hu Hv. apply mv_vadd. lia.
    + intros a u _. apply mv_vscale.
    + rewrite mv_zeros. f_equal. apply W.
    + revert FR. apply Forall_impl. intros c Hc. now apply (getrs_solves n A).
    + revert FR. apply Forall_impl. intros c Hc. apply LM.
    + vlen.
Qed.
Lemma getrs_vadd n A f x y : wf n n A -> factors n A f -> length x = n -> length y = n ->
  la_getrs la f (vadd x y) = vadd (la_getrs la f x) (la_getrs la f y).
Proof.
  intros W HF Hx Hy. destruct (getrs_solves n A f x W HF Hx) as [L1 E1]. destruct (getrs_solves n A f y W HF Hy) as [L2 E2].
  apply (getrs_unique n A); auto; [vlen..|]. rewrite mv_vadd by lia. now rewrite E1, E2.
Qed.
End Solve.

(** *** packed block factorisations *)
Definition blocks (D11 D12 D21 D22 : matR) : matR := vcat (hcat D11 D12) (hcat D21 D22).
Lemma wf_blocks n m D11 D12 D21 D22 : wf n n D11 -> wf n m D12 -> wf m n D21 -> wf m m D22 -> wf (n + m) (n + m) (blocks D11 D12 D21 D22).
Proof. intros. apply wf_app; now apply wf_hcat. Qed.
Lemma nth_hcat n k1 k2 (A B : matR) i : wf n k1 A -> wf n k2 B -> (i < n)%nat -> nth i (hcat A B) [] = nth i A [] ++ nth i B [].
Proof.
  intros [LA _] [LB _]. revert n A B LA LB. induction i as [|i IH]; intros n [|a A] [|b B] LA LB Hi; cbn in *; try lia; auto.
  apply (IH (n - 1)%nat); lia.
Qed.
Section Blk.
Variables (n m : nat) (D11 D12 D21 D22 : matR).
Hypotheses (H11 : wf n n D11) (H12 : wf n m D12) (H21 : wf m n D21) (H22 : wf m m D22).
Let D := blocks D11 D12 D21 D22.
Lemma mget_11 i j : (i < n)%nat -> (j < n)%nat -> mget D i j = mget D11 i j.
Proof.
  intros Hi Hj. unfold mget, D, blocks, vcat. rewrite app_nth1 by (rewrite hcat_length; rewrite (wf_length _ _ _ H11), (wf_length _ _ _ H12); lia).
  rewrite (nth_hcat n n m) by auto. apply vget_app_l. now rewrite (wf_row n n).
Qed.
Lemma mget_12 i j : (i < n)%nat -> mget D i (n + j) = mget D12 i j.
Proof.
  intros Hi. unfold mget, D, blocks, vcat. rewrite app_nth1 by (rewrite hcat_length; rewrite (wf_length _ _ _ H11), (wf_length _ _ _ H12); lia).
  rewrite (nth_hcat n n m) by auto. pose proof (vget_app_r (nth i D11 []) (nth i D12 []) j) as E. rewrite (wf_row n n D11 i) in E by auto. exact E.
Qed.
Lemma hcat_top_len : length (hcat D11 D12) = n.
Proof. rewrite hcat_length, (wf_length _ _ _ H11), (wf_length _ _ _ H12). lia. Qed.
Lemma nth_bot i : (i < m)%nat -> nth (n + i) D [] = nth i D21 [] ++ nth i D22 [].
Proof. intros Hi. unfold D, blocks, vcat. rewrite app_nth2; rewrite hcat_top_len; [|lia]. replace (n + i - n)%nat with i by lia. now apply (nth_hcat m n m). Qed.
Lemma mget_21 i j : (i < m)%nat -> (j < n)%nat -> mget D (n + i) j = mget D21 i j.
Proof. intros Hi Hj. unfold mget. rewrite nth_bot by auto. apply vget_app_l. now rewrite (wf_row m n). Qed.
Lemma mget_22 i j : (i < m)%nat -> mget D (n + i) (n + j) = mget D22 i j.
Proof. intros Hi. unfold mget. rewrite nth_bot by auto. pose proof (vget_app_r (nth i D21 []) (nth i D22 []) j) as E. rewrite (wf_row m n D21 i) in E by auto. exact E. Qed.
Lemma square_split (f : nat -> nat -> R) :
  square (n + m) f = vcat (hcat (square n f) (map (fun i => map (fun j => f i (n + j)%nat) (seq 0 m)) (seq 0 n)))
                          (hcat (map (fun i => map (fun j => f (n + i)%nat j) (seq 0 n)) (seq 0 m)) (square m (fun i j => f (n + i)%nat (n + j)%nat))).
Proof.
  assert (HC : forall (g h : nat -> vecR) l, hcat (map g l) (map h l) = map (fun i => g i ++ h i) l).
  { clear. intros g h l. unfold hcat. induction l; cbn; auto. now f_equal. }
  assert (SQ : forall (A : Type) (g : nat -> A) s k, map g (seq s k) = map (fun i => g (s + i)%nat) (seq 0 k)).
  { clear. intros A g s k. revert s. induction k as [|k IH]; intros s; [reflexivity|]. cbn [seq map]. rewrite Nat.add_0_r. f_equal. rewrite IH. rewrite <- (seq_shift k 0), map_map. apply map_ext. intros i. f_equal. lia. }
  unfold square, vcat. rewrite !HC. rewrite seq_app, map_app. cbn [Nat.add]. f_equal.
  - apply map_ext. intros i. rewrite map_app. f_equal. apply SQ.
  - rewrite SQ. apply map_ext. intros i. rewrite map_app. f_equal. apply SQ.
Qed.
Lemma rect_id k l (B : matR) : wf k l B -> map (fun i => map (fun j => mget B i j) (seq 0 l)) (seq 0 k) = B.
Proof.
  intros W. apply (mat_ext k l); auto; [apply wf_map_seq; intros; now rewrite map_length, seq_length|]. intros i j Hi Hj. unfold mget at 1. rewrite nth_map_seq by auto. now rewrite vget_seq.
Qed.
Lemma upper_blocks y z : length y = n -> length z = m ->
  mv (square (n + m) (upper D)) (y ++ z) = vadd (mv (square n (upper D11)) y) (mv D12 z) ++ mv (square m (upper D22)) z.
Proof.
  intros Hy Hz. rewrite square_split. unfold vcat. rewrite mv_app. f_equal.
  - rewrite (mv_hcat n n m) by (auto using wf_square; apply wf_map_seq; intros; now rewrite map_length, seq_length). f_equal.
    + f_equal. apply square_ext. intros i j Hi Hj. unfold upper. now rewrite mget_11.
    + f_equal. rewrite <- (rect_id n m D12 H12) at 1. apply map_ext_in. intros i Hi. apply map_ext_in. intros j Hj. apply in_seq in Hi, Hj.
      unfold upper. destruct (Nat.leb_spec i (n + j)); [|lia]. apply mget_12. lia.
  - rewrite (mv_hcat m n m) by (auto using wf_square; apply wf_map_seq; intros; now rewrite map_length, seq_length).
    transitivity (vadd (vzeros m) (mv (square m (upper D22)) z)); [|apply vadd_zeros_l; now rewrite mv_length, square_length]. f_equal.
    + rewrite <- (mv_mzeros m n y). f_equal. apply (mat_ext m n); [apply wf_map_seq; intros; now rewrite map_length, seq_length|apply wf_mzeros|].
      intros i j Hi Hj. unfold mget. rewrite nth_map_seq by auto. rewrite vget_seq by auto. unfold upper. destruct (Nat.leb_spec (n + i) j); [lia|].
      unfold mzeros. rewrite (nth_indep _ [] (vzeros n)) by now rewrite repeat_length. now rewrite nth_repeat, vget_zeros.
    + f_equal. apply square_ext. intros i j Hi Hj. unfold upper. rewrite mget_22 by auto. destruct (Nat.leb_spec (n + i) (n + j)), (Nat.leb_spec i j); auto; lia.
Qed.
Lemma lower_blocks y z : length y = n -> length z = m ->
  mv (square (n + m) (lower D)) (y ++ z) = mv (square n (lower D11)) y ++ vadd (mv D21 y) (mv (square m (lower D22)) z).
Proof.
  intros Hy Hz. rewrite square_split. unfold vcat. rewrite mv_app. f_equal.
  - rewrite (mv_hcat n n m) by (auto using wf_square; apply wf_map_seq; intros; now rewrite map_length, seq_length).
    transitivity (vadd (mv (square n (lower D11)) y) (vzeros n)); [|apply vadd_zeros_r; now rewrite mv_length, square_length]. f_equal.
    + f_equal. apply square_ext. intros i j Hi Hj. unfold lower. now rewrite mget_11.
    + rewrite <- (mv_mzeros n m z). f_equal. apply (mat_ext n m); [apply wf_map_seq; intros; now rewrite map_length, seq_length|apply wf_mzeros|].
      intros i j Hi Hj. unfold mget. rewrite nth_map_seq by auto. rewrite vget_seq by auto. unfold lower. destruct (Nat.ltb_spec (n + j) i); [lia|]. destruct (Nat.eqb_spec i (n + j)); [lia|].
      unfold mzeros. rewrite (nth_indep _ [] (vzeros m)) by now rewrite repeat_length. now rewrite nth_repeat, vget_zeros.
  - rewrite (mv_hcat m n m) by (auto using wf_square; apply wf_map_seq; intros; now rewrite map_length, seq_length). f_equal.
    + f_equal. rewrite <- (rect_id m n D21 H21) at 1. apply map_ext_in. intros i Hi. apply map_ext_in. intros j Hj. apply in_seq in Hi, Hj.
      unfold lower. destruct (Nat.ltb_spec j (n + i)); [|lia]. apply mget_21; lia.
    + f_equal. apply square_ext. intros i j Hi Hj. unfold lower. rewrite mget_22 by auto.
      destruct (Nat.ltb_spec (n + j) (n + i)), (Nat.ltb_spec j i), (Nat.eqb_spec (n + i) (n + j)), (Nat.eqb_spec i j); auto; lia.
Qed.
Lemma packed_blocks p1 p2 : packed n (D11, p1) -> packed m (D22, p2) -> packed (n + m) (D, p1 ++ map (fun p => p + n)%nat p2).
Proof.
  intros (_ & L1 & F1 & U1) (_ & L2 & F2 & U2). cbn [fst snd] in *. split; [|split; [|split]]; cbn [fst snd].
  - now apply wf_blocks.
  - rewrite app_length, map_length. lia.
  - apply Forall_app. split; [revert F1; apply Forall_impl; intros; lia|]. apply Forall_map. revert F2. apply Forall_impl. intros. lia.
  - intros i Hi. destruct (Nat.lt_ge_cases i n).
    + rewrite mget_11 by auto. auto.
    + replace i with (n + (i - n))%nat by lia. rewrite mget_22 by lia. apply U2. lia.
Qed.
Lemma lu_mul_blocks p y z : length y = n -> length z = m ->
  let u := vadd (mv (square n (upper D11)) y) (mv D12 z) in
  lu_mul (n + m) (D, p) (y ++ z) = mv (square n (lower D11)) u ++ vadd (mv D21 u) (lu_mul m (D22, p) z).
Proof.
  intros Hy Hz. unfold lu_mul. cbn [fst]. rewrite upper_blocks by auto. rewrite lower_blocks; [reflexivity| |now rewrite mv_length, square_length].
  rewrite vadd_length, !mv_length, square_length, (wf_length _ _ _ H12). lia.
Qed.
End Blk.
