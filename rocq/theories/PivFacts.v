(** Row interchanges *)
From Coq Require Import List Arith ZArith Bool Reals Lra Lia Permutation.
From Verif Require Import Num Tensor Lapack RBase LinAlg LapackSpec.
Import ListNotations.
Open Scope R_scope.

Section Gen.
Context {A : Type}.
Lemma upd_length (l : list A) i a : length (upd l i a) = length l.
Proof. revert i; induction l; destruct i; simpl; auto. Qed.
Lemma nth_upd (l : list A) i a k d : (i < length l)%nat -> nth k (upd l i a) d = if Nat.eqb k i then a else nth k l d.
Proof. revert i k; induction l as [|b l IH]; intros i k H; [simpl in H; lia|]. destruct i, k; simpl; auto. apply IH. simpl in H; lia. Qed.
Lemma swap_length d (l : list A) k j : length (swap d l k j) = length l.
Proof. unfold swap. now rewrite !upd_length. Qed.
Lemma nth_swap d (l : list A) k j i : (k < length l)%nat -> (j < length l)%nat ->
  nth i (swap d l k j) d = if Nat.eqb i j then nth k l d else if Nat.eqb i k then nth j l d else nth i l d.
Proof. intros Hk Hj. unfold swap. rewrite nth_upd by now rewrite upd_length. destruct (Nat.eqb i j); auto. now rewrite nth_upd. Qed.
Lemma swap_swap d (l : list A) k j : (k < length l)%nat -> (j < length l)%nat -> swap d (swap d l k j) k j = l.
Proof.
  intros Hk Hj. apply (nth_ext _ _ d d); [now rewrite !swap_length|]. intros i Hi. rewrite !nth_swap by (rewrite ?swap_length; auto).
  rewrite !Nat.eqb_refl. destruct (Nat.eqb_spec i j), (Nat.eqb_spec i k), (Nat.eqb_spec k j); subst; auto; try congruence.
Qed.
Lemma swap_perm d (l : list A) k j : (k < length l)%nat -> (j < length l)%nat -> Permutation (swap d l k j) l.
Proof.
  intros Hk Hj. apply Permutation_sym. apply (proj2 (Permutation_nth l (swap d l k j) d)). cbv zeta. rewrite swap_length. split; [reflexivity|].
  exists (fun i => if Nat.eqb i j then k else if Nat.eqb i k then j else i). split; [|split].
  - intros i Hi. destruct (Nat.eqb_spec i j), (Nat.eqb_spec i k); lia.
  - intros i i' Hi Hi'. destruct (Nat.eqb_spec i j), (Nat.eqb_spec i k), (Nat.eqb_spec i' j), (Nat.eqb_spec i' k); lia.
  - intros i Hi. rewrite nth_swap by auto. destruct (Nat.eqb_spec i j), (Nat.eqb_spec i k); auto.
Qed.
Lemma swap_app_l d (u v : list A) k j : (k < length u)%nat -> (j < length u)%nat -> swap d (u ++ v) k j = swap d u k j ++ v.
Proof.
  intros Hk Hj. apply (nth_ext _ _ d d); [rewrite app_length, !swap_length, app_length; auto|].
  intros i Hi. rewrite swap_length, app_length in Hi. rewrite nth_swap by (rewrite app_length; lia).
  destruct (Nat.lt_ge_cases i (length u)).
  - rewrite !app_nth1 by (rewrite ?swap_length; lia). now rewrite nth_swap.
  - rewrite (app_nth1 u v d Hk), (app_nth1 u v d Hj). rewrite !(app_nth2 _ v) by (rewrite ?swap_length; lia). rewrite swap_length.
    destruct (Nat.eqb_spec i j), (Nat.eqb_spec i k); auto; lia.
Qed.
Lemma swap_app_r d (u v : list A) k j : swap d (u ++ v) (length u + k) (length u + j) = u ++ swap d v k j.
Proof. induction u; simpl; auto. unfold swap in *. simpl. now f_equal. Qed.

(** interchanges starting at position s *)
Definition piv_from (d : A) (s : nat) (piv : list nat) (l : list A) : list A :=
  fold_left (fun l kj => swap d l (fst kj) (snd kj - 1)) (combine (seq s (length piv)) piv) l.
Lemma apply_piv_from d piv l : apply_piv d piv l = piv_from d 0 piv l.
Proof. reflexivity. Qed.
Lemma piv_from_cons d s p piv l : piv_from d s (p :: piv) l = piv_from d (S s) piv (swap d l s (p - 1)).
Proof. reflexivity. Qed.
Lemma piv_from_length (d : A) piv : forall s (l : list A), length (piv_from d s piv l) = length l.
Proof. induction piv as [|p piv IH]; intros s l; [reflexivity|]. rewrite piv_from_cons, IH. apply swap_length. Qed.
Lemma apply_piv_length (d : A) piv (l : list A) : length (apply_piv d piv l) = length l.
Proof. apply piv_from_length. Qed.
Definition piv_ok (n s : nat) (piv : list nat) : Prop := (s + length piv <= n)%nat /\ Forall (fun p => (1 <= p <= n)%nat) piv.
Lemma piv_ok_cons n s p piv : piv_ok n s (p :: piv) -> (s < n)%nat /\ (1 <= p <= n)%nat /\ piv_ok n (S s) piv.
Proof. intros [H F]. inversion F; subst. simpl in H. repeat split; auto; lia. Qed.
Lemma piv_from_inj (d : A) n piv : forall s (x y : list A), piv_ok n s piv -> length x = n -> length y = n -> piv_from d s piv x = piv_from d s piv y -> x = y.
Proof.
  induction piv as [|p piv IH]; intros s x y Hp Hx Hy E; [exact E|]. apply piv_ok_cons in Hp. destruct Hp as (H1 & H2 & H3).
  rewrite !piv_from_cons in E. apply IH in E; auto; try now rewrite swap_length.
  apply (f_equal (fun l => swap d l s (p - 1))) in E. rewrite !swap_swap in E by lia. exact E.
Qed.
Lemma piv_from_perm (d : A) n piv : forall s (l : list A), piv_ok n s piv -> length l = n -> Permutation (piv_from d s piv l) l.
Proof.
  induction piv as [|p piv IH]; intros s l Hp Hl; [reflexivity|]. apply piv_ok_cons in Hp. destruct Hp as (H1 & H2 & H3).
  rewrite piv_from_cons. rewrite IH by (auto; now rewrite swap_length). apply swap_perm; lia.
Qed.
Lemma piv_from_app_l (d : A) n piv : forall s (u v : list A), piv_ok n s piv -> length u = n -> piv_from d s piv (u ++ v) = piv_from d s piv u ++ v.
Proof.
  induction piv as [|p piv IH]; intros s u v Hp Hu; [reflexivity|]. apply piv_ok_cons in Hp. destruct Hp as (H1 & H2 & H3).
  rewrite !piv_from_cons, swap_app_l by lia. apply IH; auto. now rewrite swap_length.
Qed.
Lemma piv_from_shift (d : A) n piv : forall s (u v : list A), Forall (fun p => 1 <= p)%nat piv -> length u = n ->
  piv_from d (n + s) (map (fun p => p + n)%nat piv) (u ++ v) = u ++ piv_from d s piv v.
Proof.
  induction piv as [|p piv IH]; intros s u v Hp Hu; [reflexivity|]. inversion Hp; subst. cbn [map]. rewrite !piv_from_cons.
  replace (p + length u - 1)%nat with (length u + (p - 1))%nat by lia. rewrite swap_app_r. rewrite <- (IH (S s)) by auto. f_equal. lia.
Qed.
Lemma piv_from_both d p1 p2 : forall s l, piv_from d s (p1 ++ p2) l = piv_from d (s + length p1) p2 (piv_from d s p1 l).
Proof.
  induction p1 as [|p p1 IH]; intros s l; [cbn; now rewrite Nat.add_0_r|]. cbn [app]. rewrite !piv_from_cons, IH. cbn [length]. f_equal. lia.
Qed.
Lemma apply_piv_app (d : A) n piv1 piv2 (u v : list A) : piv_ok n 0 piv1 -> length piv1 = n -> Forall (fun p => 1 <= p)%nat piv2 -> length u = n ->
  apply_piv d (piv1 ++ map (fun p => p + n)%nat piv2) (u ++ v) = apply_piv d piv1 u ++ apply_piv d piv2 v.
Proof.
  intros H1 HL H2 Hu. rewrite !apply_piv_from, piv_from_both. rewrite (piv_from_app_l d n) by auto. cbn [Nat.add]. rewrite HL.
  replace n with (n + 0)%nat at 1 by lia. apply piv_from_shift; auto. now rewrite piv_from_length.
Qed.
Lemma apply_piv_cons d p piv a (l : list A) : Forall (fun q => 1 <= q)%nat piv ->
  apply_piv d (S p :: map S piv) (a :: l) = match swap d (a :: l) 0 p with [] => [] | b :: r => b :: apply_piv d piv r end.
Proof.
  intros H. rewrite apply_piv_from, piv_from_cons. cbn [Nat.sub]. rewrite Nat.sub_0_r.
  assert (L : length (swap d (a :: l) 0 p) = S (length l)) by now rewrite swap_length.
  destruct (swap d (a :: l) 0 p) as [|b r]; [discriminate|]. rewrite apply_piv_from.
  pose proof (piv_from_shift d 1 piv 0 [b] r H eq_refl) as E. cbn [app Nat.add] in E. rewrite <- E. f_equal. apply map_ext. intros q. lia.
Qed.
(** identity pivots *)
Lemma swap_same d (l : list A) k : swap d l k k = l.
Proof. destruct (Nat.lt_ge_cases k (length l)).
  - apply (nth_ext _ _ d d); [now rewrite swap_length|]. intros i Hi. rewrite nth_swap by auto. destruct (Nat.eqb_spec i k); subst; auto.
  - unfold swap. assert (U : forall (l : list A) a k, (length l <= k)%nat -> upd l k a = l).
    { clear. induction l; intros b [|k] H; simpl in *; auto; try lia. f_equal. apply IHl. lia. }
    rewrite !U; auto. rewrite U; auto.
Qed.
Lemma piv_from_id d n : forall s (l : list A), piv_from d s (seq (S s) n) l = l.
Proof. induction n as [|n IH]; intros s l; [reflexivity|]. cbn [seq]. rewrite piv_from_cons. cbn [Nat.sub]. rewrite Nat.sub_0_r, swap_same. apply IH. Qed.
End Gen.

Lemma map_upd {A B} (f : A -> B) l i a : map f (upd l i a) = upd (map f l) i (f a).
Proof. revert i; induction l; destruct i; simpl; auto. now f_equal. Qed.
Lemma map_swap {A B} (f : A -> B) d l k j : map f (swap d l k j) = swap (f d) (map f l) k j.
Proof. unfold swap. now rewrite !map_upd, !map_nth. Qed.
Lemma map_piv_from {A B} (f : A -> B) d piv : forall s l, map f (piv_from d s piv l) = piv_from (f d) s piv (map f l).
Proof. induction piv as [|p piv IH]; intros s l; [reflexivity|]. now rewrite !piv_from_cons, IH, map_swap. Qed.
Lemma map_apply_piv {A B} (f : A -> B) d piv l : map f (apply_piv d piv l) = apply_piv (f d) piv (map f l).
Proof. apply map_piv_from. Qed.

(** *** on real vectors *)
Lemma swap_vmap2 (f : R -> R -> R) (x y : vecR) k j : length x = length y -> (k < length x)%nat -> (j < length x)%nat ->
  swap 0 (vmap2 f x y) k j = vmap2 f (swap 0 x k j) (swap 0 y k j).
Proof.
  intros L Hk Hj. apply vext; [rewrite swap_length, !vmap2_length, !swap_length; lia|]. intros i Hi. rewrite swap_length, vmap2_length in Hi.
  unfold vget. rewrite nth_swap by (rewrite vmap2_length; lia). change n0 with 0 in *.
  assert (G : forall a b i, (i < length a)%nat -> (i < length b)%nat -> nth i (vmap2 f a b) 0 = f (nth i a 0) (nth i b 0)).
  { intros a b i0. apply (vget_map2 f). }
  rewrite !G by (rewrite ?swap_length; lia). rewrite !nth_swap by lia. destruct (Nat.eqb_spec i j), (Nat.eqb_spec i k); auto.
Qed.
Lemma piv_from_vmap2 (f : R -> R -> R) n piv : forall s (x y : vecR), length x = n -> length y = n -> piv_ok n s piv ->
  piv_from 0 s piv (vmap2 f x y) = vmap2 f (piv_from 0 s piv x) (piv_from 0 s piv y).
Proof.
  induction piv as [|p piv IH]; intros s x y Hx Hy Hp; [reflexivity|]. apply piv_ok_cons in Hp. destruct Hp as (H1 & H2 & H3).
  rewrite !piv_from_cons, swap_vmap2 by lia. apply IH; auto; rewrite swap_length; auto.
Qed.
Lemma packed_piv n f : packed n f -> piv_ok n 0 (snd f).
Proof. intros (_ & L & F & _). split; [lia|auto]. Qed.
Lemma apply_piv_vadd n piv (x y : vecR) : piv_ok n 0 piv -> length x = n -> length y = n ->
  apply_piv 0 piv (vadd x y) = vadd (apply_piv 0 piv x) (apply_piv 0 piv y).
Proof. intros. now apply (piv_from_vmap2 _ n). Qed.
Lemma apply_piv_vscale piv k (x : vecR) : apply_piv 0 piv (vscale k x) = vscale k (apply_piv 0 piv x).
Proof. unfold vscale. rewrite map_apply_piv. change (nmul k 0) with (k * 0). now rewrite Rmult_0_r. Qed.
Lemma apply_piv_mv piv (A : matR) x : apply_piv 0 piv (mv A x) = mv (apply_piv [] piv A) x.
Proof. unfold mv. now rewrite map_apply_piv, dot_nil_l. Qed.
Lemma apply_piv_inj n piv (x y : vecR) : piv_ok n 0 piv -> length x = n -> length y = n -> apply_piv 0 piv x = apply_piv 0 piv y -> x = y.
Proof. intros. eapply piv_from_inj; eauto. Qed.
Lemma apply_piv_zeros n piv k : piv_ok n 0 piv -> apply_piv 0 piv (vzeros k : vecR) = vzeros k.
Proof. intros _. rewrite <- (vscale_zeros 0 k). rewrite apply_piv_vscale, vscale_0, apply_piv_length. vlen. now rewrite vscale_zeros. Qed.
Lemma vsum_perm (x y : vecR) : Permutation x y -> vsum x = vsum y.
Proof. induction 1; unfold vsum in *; cbn [fold_right] in *; rnum; lra. Qed.
Lemma apply_piv_dot n piv (x y : vecR) : piv_ok n 0 piv -> length x = n -> length y = n ->
  dot (apply_piv 0 piv x) (apply_piv 0 piv y) = dot x y.
Proof.
  intros Hp Hx Hy. unfold dot, vmul. rewrite !apply_piv_from, <- (piv_from_vmap2 _ n) by auto. apply vsum_perm. eapply piv_from_perm; eauto.
  rewrite vmap2_length. lia.
Qed.

(** *** unpack_P *)
Lemma final_order_piv sz piv : final_order sz piv = apply_piv 0%nat piv (seq 0 sz).
Proof. reflexivity. Qed.
Lemma final_order_perm sz piv : piv_ok sz 0 piv -> Permutation (final_order sz piv) (seq 0 sz).
Proof. intros H. eapply piv_from_perm; eauto. apply seq_length. Qed.
Definition permuted (sz : nat) (piv : list nat) : matR := map (fun i => nth i (meye sz) []) (final_order sz piv).
Lemma wf_permuted sz piv : piv_ok sz 0 piv -> wf sz sz (permuted sz piv).
Proof.
  intros Hp. unfold permuted. split; [rewrite map_length, final_order_piv, apply_piv_length; apply seq_length|].
  apply Forall_forall. intros r Hr. apply in_map_iff in Hr. destruct Hr as (i & <- & Hi).
  apply (Permutation_in _ (final_order_perm sz piv Hp)), in_seq in Hi. apply (wf_row sz sz); [apply wf_meye|lia].
Qed.
Lemma mv_permuted sz piv (x : vecR) : piv_ok sz 0 piv -> length x = sz -> mv (permuted sz piv) x = apply_piv 0 piv x.
Proof.
  intros Hp Hx. unfold permuted, mv. rewrite map_map.
  transitivity (map (fun i => nth i x 0) (final_order sz piv)).
  - apply map_ext_in. intros i Hi. apply (Permutation_in _ (final_order_perm sz piv Hp)), in_seq in Hi.
    change (nth i x 0) with (vget x i). rewrite <- (mv_meye sz x) at 2 by auto. rewrite vget_mv by vlen. reflexivity.
  - rewrite final_order_piv, map_apply_piv.
    assert (M : map (fun i => nth i x 0) (seq 0 sz) = x).
    { apply vext; [now rewrite map_length, seq_length|]. intros i Hi. rewrite map_length, seq_length in Hi. now rewrite vget_seq. }
    rewrite M. destruct x as [|a x]; [cbn in Hx; subst|].
    + destruct Hp as [Hp _]. destruct piv; [reflexivity|cbn in Hp; lia].
    + (* the default is never read *)
      rewrite !apply_piv_from. revert Hp Hx. generalize (a :: x). intros l. change (nth 0 l 0) with (vget l 0). generalize (vget l 0) as e.
      intros e Hp Hl. clear M. revert Hp l Hl. generalize 0%nat as s. induction piv as [|p piv IH]; intros s Hp l Hl; [reflexivity|]. apply piv_ok_cons in Hp. destruct Hp as (H1 & H2 & H3).
      rewrite !piv_from_cons. rewrite IH by (auto; now rewrite swap_length). f_equal. unfold swap. now rewrite !(nth_indep l e 0) by lia.
Qed.
Lemma unpack_P_permuted sz piv : unpack_P sz piv = mtr sz (permuted sz piv).
Proof. reflexivity. Qed.
Lemma wf_unpack_P sz piv : piv_ok sz 0 piv -> wf sz sz (unpack_P sz piv : matR).
Proof. intros H. rewrite unpack_P_permuted. apply wf_mtr. apply (wf_permuted sz piv H). Qed.
Lemma mv_unpack_PT sz piv (x : vecR) : piv_ok sz 0 piv -> length x = sz -> mv (mtr sz (unpack_P sz piv)) x = apply_piv 0 piv x.
Proof. intros Hp Hx. rewrite unpack_P_permuted, (mtr_mtr sz sz) by now apply wf_permuted. now apply mv_permuted. Qed.
Lemma mv_unpack_P sz piv (x : vecR) : piv_ok sz 0 piv -> length x = sz -> mv (unpack_P sz piv) (apply_piv 0 piv x) = x.
Proof.
  intros Hp Hx. rewrite unpack_P_permuted. change (mv (mtr sz (permuted sz piv)) (apply_piv 0 piv x)) with (vm sz (apply_piv 0 piv x) (permuted sz piv)).
  set (y := vm _ _ _). assert (Ly : length y = sz) by (unfold y; vlen).
  apply vsub_diag; [lia|]. rewrite (dot_self_zero (vsub y x)).
  - vlen. f_equal. lia.
  - assert (D : forall z, length z = sz -> dot (vsub y x) z = 0).
    { intros z Hz. rewrite dot_vsub_l by lia. unfold y. rewrite (dot_vm sz sz) by (auto using wf_permuted; rewrite apply_piv_length; auto).
      rewrite mv_permuted, (apply_piv_dot sz) by auto. lra. }
    apply D. vlen.
Qed.
