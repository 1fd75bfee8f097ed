(** Linear algebra on lists over the reals *)
From Coq Require Import List Arith ZArith Bool Reals Lra Lia.
From Verif Require Import Num Tensor RBase.
Import ListNotations.
Open Scope R_scope.

Notation vecR := (list R).
Notation matR := (list (list R)).

(** *** lengths *)
Lemma vmap2_length (f : R -> R -> R) x y : length (vmap2 f x y) = Nat.min (length x) (length y).
Proof. revert y; induction x; destruct y; simpl; auto. Qed.
Lemma map2_length {A B C} (f : A -> B -> C) x y : length (map2 f x y) = Nat.min (length x) (length y).
Proof. revert y; induction x; destruct y; simpl; auto. Qed.
Lemma vadd_length (x y : vecR) : length (vadd x y) = Nat.min (length x) (length y).
Proof. apply vmap2_length. Qed.
Lemma vsub_length (x y : vecR) : length (vsub x y) = Nat.min (length x) (length y).
Proof. apply vmap2_length. Qed.
Lemma vmul_length (x y : vecR) : length (vmul x y) = Nat.min (length x) (length y).
Proof. apply vmap2_length. Qed.
Lemma vdiv_length (x y : vecR) : length (vdiv x y) = Nat.min (length x) (length y).
Proof. apply vmap2_length. Qed.
Lemma vopp_length (x : vecR) : length (vopp x) = length x.
Proof. apply map_length. Qed.
Lemma vscale_length k (x : vecR) : length (vscale k x) = length x.
Proof. apply map_length. Qed.
Lemma vzeros_length n : length (vzeros n : vecR) = n.
Proof. apply repeat_length. Qed.
Lemma vones_length n : length (vones n : vecR) = n.
Proof. apply repeat_length. Qed.
Lemma mv_length (A : matR) x : length (mv A x) = length A.
Proof. apply map_length. Qed.
Lemma mtr_length n (A : matR) : length (mtr n A) = n.
Proof. unfold mtr. now rewrite map_length, seq_length. Qed.
Lemma vm_length n x (A : matR) : length (vm n x A) = n.
Proof. unfold vm. now rewrite mv_length, mtr_length. Qed.
Lemma mm_length n (A B : matR) : length (mm n A B) = length A.
Proof. apply map_length. Qed.
Lemma madd_length (A B : matR) : length (madd A B) = Nat.min (length A) (length B).
Proof. apply map2_length. Qed.
Lemma msub_length (A B : matR) : length (msub A B) = Nat.min (length A) (length B).
Proof. apply map2_length. Qed.
Lemma mopp_length (A : matR) : length (mopp A) = length A.
Proof. apply map_length. Qed.
Lemma hcat_length (A B : matR) : length (hcat A B) = Nat.min (length A) (length B).
Proof. apply map2_length. Qed.
Lemma mdiag_length (d : vecR) : length (mdiag d) = length d.
Proof. unfold mdiag. now rewrite map_length, seq_length. Qed.
Lemma mzeros_length m n : length (mzeros m n : matR) = m.
Proof. apply repeat_length. Qed.
Lemma meye_length n : length (meye n : matR) = n.
Proof. unfold meye. now rewrite mdiag_length, vones_length. Qed.

#[export] Hint Rewrite @map_length @seq_length @app_length @repeat_length @firstn_length @skipn_length
  @vmap2_length @map2_length @vadd_length @vsub_length @vmul_length @vdiv_length @vopp_length
  @vscale_length @vzeros_length @vones_length @mv_length @mtr_length @vm_length @mm_length
  @madd_length @msub_length @mopp_length @hcat_length @mdiag_length @mzeros_length @meye_length : vlen.
Ltac vlen := unfold vec, mat in *; autorewrite with vlen in *; simpl length in *; unfold vec, mat in *; try lia; try congruence.

(** *** components *)
Lemma vext (x y : vecR) :
  length x = length y -> (forall i, (i < length x)%nat -> vget x i = vget y i) -> x = y.
Proof. intros H1 H2. apply (nth_ext _ _ 0 0); auto. Qed.
Lemma vget_out (x : vecR) i : (length x <= i)%nat -> vget x i = 0.
Proof. apply nth_overflow. Qed.
Lemma vget_map2 (f : R -> R -> R) x y i :
  (i < length x)%nat -> (i < length y)%nat -> vget (vmap2 f x y) i = f (vget x i) (vget y i).
Proof.
  unfold vget. revert y i; induction x as [|a x IH]; intros y i Hx Hy; [simpl in Hx; lia|].
  destruct y as [|b y]; [simpl in Hy; lia|]. destruct i; simpl; auto.
  apply IH; simpl in *; lia.
Qed.
Lemma vget_vadd x y i : (i < length x)%nat -> (i < length y)%nat -> vget (vadd x y) i = vget x i + vget y i.
Proof. apply vget_map2. Qed.
Lemma vget_vsub x y i : (i < length x)%nat -> (i < length y)%nat -> vget (vsub x y) i = vget x i - vget y i.
Proof. apply vget_map2. Qed.
Lemma vget_vmul x y i : (i < length x)%nat -> (i < length y)%nat -> vget (vmul x y) i = vget x i * vget y i.
Proof. apply vget_map2. Qed.
Lemma vget_vdiv x y i : (i < length x)%nat -> (i < length y)%nat -> vget (vdiv x y) i = vget x i / vget y i.
Proof. apply vget_map2. Qed.
Lemma vget_map (f : R -> R) x i : (i < length x)%nat -> vget (map f x) i = f (vget x i).
Proof.
  intros H. unfold vget. rnum. rewrite (nth_indep (map f x) 0 (f 0)) by (rewrite map_length; auto).
  apply map_nth.
Qed.
Lemma vget_vopp (x : vecR) i : vget (vopp x) i = - vget x i.
Proof.
  destruct (Nat.lt_ge_cases i (length x)) as [H|H].
  - unfold vopp. now rewrite vget_map.
  - rewrite !vget_out; vlen. lra.
Qed.
Lemma vget_vscale k (x : vecR) i : vget (vscale k x) i = k * vget x i.
Proof.
  destruct (Nat.lt_ge_cases i (length x)) as [H|H].
  - unfold vscale. now rewrite vget_map.
  - rewrite !vget_out; vlen. lra.
Qed.
Lemma vget_zeros n i : vget (vzeros n) i = 0.
Proof.
  unfold vget, vzeros. rnum. destruct (Nat.lt_ge_cases i n).
  - apply nth_repeat.
  - apply nth_overflow. rewrite repeat_length. lia.
Qed.
Lemma vget_repeat (a : R) n i : (i < n)%nat -> vget (repeat a n) i = a.
Proof. intros. unfold vget. rewrite (nth_indep _ _ a) by (now rewrite repeat_length). apply nth_repeat. Qed.
Lemma vget_ones n i : (i < n)%nat -> vget (vones n) i = 1.
Proof. apply vget_repeat. Qed.
Lemma vget_app_l (x y : vecR) i : (i < length x)%nat -> vget (x ++ y) i = vget x i.
Proof. intros. unfold vget. now apply app_nth1. Qed.
Lemma vget_app_r (x y : vecR) i : vget (x ++ y) (length x + i) = vget y i.
Proof. unfold vget. rewrite app_nth2 by lia. f_equal. lia. Qed.
Lemma vget_app (x y : vecR) i :
  vget (x ++ y) i = if Nat.ltb i (length x) then vget x i else vget y (i - length x).
Proof.
  destruct (Nat.ltb_spec i (length x)).
  - now apply vget_app_l.
  - unfold vget. now rewrite app_nth2 by lia.
Qed.
Lemma vget_seq (f : nat -> R) n i : (i < n)%nat -> vget (map f (seq 0 n)) i = f i.
Proof.
  intros H. unfold vget. rewrite (nth_indep _ _ (f 0%nat)) by (rewrite map_length, seq_length; auto).
  rewrite map_nth, seq_nth by auto. reflexivity.
Qed.
Lemma nth_map_seq {A} (f : nat -> A) n i d : (i < n)%nat -> nth i (map f (seq 0 n)) d = f i.
Proof.
  intros H. rewrite (nth_indep _ _ (f 0%nat)) by (rewrite map_length, seq_length; auto).
  rewrite map_nth, seq_nth by auto. reflexivity.
Qed.
Lemma vget_mv (A : matR) x i : (i < length A)%nat -> vget (mv A x) i = dot (nth i A []) x.
Proof.
  intros H. unfold mv, vget. rewrite (nth_indep _ _ (dot [] x)) by (rewrite map_length; auto).
  apply (map_nth (fun r => dot r x)).
Qed.

(** *** vectors *)
Ltac vec_eq :=
  apply vext; [vlen | let i := fresh "i" in let Hi := fresh "Hi" in intros i Hi; vlen];
  repeat first [rewrite vget_vadd by vlen | rewrite vget_vsub by vlen | rewrite vget_vmul by vlen
               | rewrite vget_vdiv by vlen | rewrite vget_vopp | rewrite vget_vscale | rewrite vget_zeros].

Lemma vadd_comm (x y : vecR) : vadd x y = vadd y x.
Proof.
  revert y; induction x as [|a x IH]; intros [|b y]; auto.
  unfold vadd in *. simpl. f_equal; [rnum; ring|]. apply IH.
Qed.
Lemma vadd_assoc (x y z : vecR) : vadd (vadd x y) z = vadd x (vadd y z).
Proof.
  revert y z; induction x as [|a x IH]; intros [|b y] [|c z]; simpl; auto.
  unfold vadd in *. simpl. f_equal; [rnum; ring|]. apply IH.
Qed.
Lemma vadd_zeros_r (x : vecR) n : length x = n -> vadd x (vzeros n) = x.
Proof. intros. vec_eq. ring. Qed.
Lemma vadd_zeros_l (x : vecR) n : length x = n -> vadd (vzeros n) x = x.
Proof. intros. vec_eq. ring. Qed.
Lemma vsub_zeros_r (x : vecR) n : length x = n -> vsub x (vzeros n) = x.
Proof. intros. vec_eq. ring. Qed.
Lemma vscale_vadd k (x y : vecR) : vscale k (vadd x y) = vadd (vscale k x) (vscale k y).
Proof. revert y; induction x; destruct y; simpl; auto. unfold vscale, vadd in *. simpl. f_equal; [rnum; ring|]. apply IHx. Qed.
Lemma vscale_plus k1 k2 (x : vecR) : vscale (k1 + k2) x = vadd (vscale k1 x) (vscale k2 x).
Proof. induction x; simpl; auto. unfold vscale, vadd in *. simpl. f_equal; [rnum; ring|]. apply IHx. Qed.
Lemma vscale_mult k1 k2 (x : vecR) : vscale k1 (vscale k2 x) = vscale (k1 * k2) x.
Proof. unfold vscale. rewrite map_map. apply map_ext. intros; rnum; ring. Qed.
Lemma vscale_1 (x : vecR) : vscale 1 x = x.
Proof. unfold vscale. rewrite <- (map_id x) at 2. apply map_ext. intros; rnum; ring. Qed.
Lemma vscale_0 (x : vecR) : vscale 0 x = vzeros (length x).
Proof. induction x; simpl; auto. unfold vscale, vzeros in *. simpl. f_equal; [rnum; ring|]. apply IHx. Qed.
Lemma vopp_scale (x : vecR) : vopp x = vscale (-1) x.
Proof. unfold vopp, vscale. apply map_ext. intros; rnum; ring. Qed.
Lemma vopp_vopp (x : vecR) : vopp (vopp x) = x.
Proof. unfold vopp. rewrite map_map. rewrite <- (map_id x) at 2. apply map_ext. intros; rnum; ring. Qed.
Lemma vsub_vadd (x y : vecR) : vsub x y = vadd x (vopp y).
Proof. revert y; induction x; destruct y; simpl; auto. unfold vsub, vadd, vopp in *. simpl. f_equal. apply IHx. Qed.
Lemma vopp_vadd (x y : vecR) : vopp (vadd x y) = vadd (vopp x) (vopp y).
Proof. rewrite !vopp_scale. apply vscale_vadd. Qed.
Lemma vopp_zeros n : vopp (vzeros n) = (vzeros n : vecR).
Proof. vec_eq. ring. Qed.
Lemma vscale_zeros k n : vscale k (vzeros n) = (vzeros n : vecR).
Proof. vec_eq. ring. Qed.
Lemma vadd_app (x1 x2 y1 y2 : vecR) : length x1 = length y1 ->
  vadd (x1 ++ x2) (y1 ++ y2) = vadd x1 y1 ++ vadd x2 y2.
Proof. revert y1; induction x1; destruct y1; simpl; intros; try discriminate; auto. unfold vadd in *. simpl. f_equal. apply IHx1. lia. Qed.
Lemma vscale_app k (x y : vecR) : vscale k (x ++ y) = vscale k x ++ vscale k y.
Proof. apply map_app. Qed.
Lemma vopp_app (x y : vecR) : vopp (x ++ y) = vopp x ++ vopp y.
Proof. apply map_app. Qed.
Lemma vsub_diag (x y : vecR) : length x = length y -> vsub x y = vzeros (length x) -> x = y.
Proof.
  intros H1 H2. apply vext; auto. intros i Hi.
  assert (E : vget (vsub x y) i = 0) by (rewrite H2; apply vget_zeros).
  rewrite vget_vsub in E by lia. lra.
Qed.
Lemma vadd_inj_l (x y z : vecR) : length y = length x -> length z = length x ->
  vadd x y = vadd x z -> y = z.
Proof.
  intros H1 H2 H. apply vext; [lia|]. intros i Hi.
  assert (E : vget (vadd x y) i = vget (vadd x z) i) by now rewrite H.
  rewrite !vget_vadd in E by lia. lra.
Qed.

(** *** dot *)
Lemma dot_nil_l (x : vecR) : dot [] x = 0.
Proof. reflexivity. Qed.
Lemma dot_nil_r (x : vecR) : dot x [] = 0.
Proof. destruct x; reflexivity. Qed.
Lemma dot_cons a (x : vecR) b y : dot (a :: x) (b :: y) = a * b + dot x y.
Proof. reflexivity. Qed.
Lemma dot_comm (x y : vecR) : dot x y = dot y x.
Proof. revert y; induction x; destruct y; auto. rewrite !dot_cons, IHx. ring. Qed.
Lemma dot_vadd_r (x y z : vecR) : length y = length z -> dot x (vadd y z) = dot x y + dot x z.
Proof.
  revert y z; induction x as [|a x IH]; intros y z H; [rewrite !dot_nil_l; ring|].
  destruct y as [|b y], z as [|c z]; try discriminate.
  - rewrite !dot_nil_r. ring.
  - unfold vadd in *. simpl vmap2. rewrite !dot_cons, IH by (simpl in H; lia). rnum. ring.
Qed.
Lemma dot_vadd_l (x y z : vecR) : length x = length y -> dot (vadd x y) z = dot x z + dot y z.
Proof. intros. rewrite !(dot_comm _ z). now apply dot_vadd_r. Qed.
Lemma dot_vscale_r k (x y : vecR) : dot x (vscale k y) = k * dot x y.
Proof.
  revert y; induction x as [|a x IH]; intros y; [rewrite !dot_nil_l; ring|].
  destruct y as [|b y].
  - change (vscale k []) with (@nil R). rewrite !dot_nil_r. ring.
  - change (vscale k (b :: y)) with (k * b :: vscale k y). rewrite !dot_cons, IH. ring.
Qed.
Lemma dot_vscale_l k (x y : vecR) : dot (vscale k x) y = k * dot x y.
Proof. rewrite !(dot_comm _ y). apply dot_vscale_r. Qed.
Lemma dot_vopp_r (x y : vecR) : dot x (vopp y) = - dot x y.
Proof. rewrite vopp_scale, dot_vscale_r. ring. Qed.
Lemma dot_vopp_l (x y : vecR) : dot (vopp x) y = - dot x y.
Proof. rewrite vopp_scale, dot_vscale_l. ring. Qed.
Lemma dot_vsub_r (x y z : vecR) : length y = length z -> dot x (vsub y z) = dot x y - dot x z.
Proof. intros. rewrite vsub_vadd, dot_vadd_r, dot_vopp_r by vlen. ring. Qed.
Lemma dot_vsub_l (x y z : vecR) : length x = length y -> dot (vsub x y) z = dot x z - dot y z.
Proof. intros. rewrite vsub_vadd, dot_vadd_l, dot_vopp_l by vlen. ring. Qed.
Lemma dot_zeros_r (x : vecR) n : dot x (vzeros n) = 0.
Proof.
  revert n; induction x as [|a x IH]; intros n; [now rewrite dot_nil_l|]. destruct n as [|n].
  - change (vzeros 0) with (@nil R). now rewrite dot_nil_r.
  - change (vzeros (S n)) with (0 :: vzeros n : vecR). rewrite dot_cons, IH. ring.
Qed.
Lemma dot_zeros_l (x : vecR) n : dot (vzeros n) x = 0.
Proof. rewrite dot_comm. apply dot_zeros_r. Qed.
Lemma dot_app (x1 x2 y1 y2 : vecR) : length x1 = length y1 ->
  dot (x1 ++ x2) (y1 ++ y2) = dot x1 y1 + dot x2 y2.
Proof.
  revert y1; induction x1 as [|a x1 IH]; intros [|b y1] H; try discriminate.
  - simpl. rewrite dot_nil_l. ring.
  - simpl app. rewrite !dot_cons, IH by (simpl in H; lia). ring.
Qed.
Lemma dot_self_nonneg (x : vecR) : 0 <= dot x x.
Proof. induction x; [rewrite dot_nil_l; lra|]. rewrite dot_cons. nra. Qed.
Lemma dot_self_zero (x : vecR) : dot x x = 0 -> x = vzeros (length x).
Proof.
  induction x as [|a x IH]; [reflexivity|]. rewrite dot_cons. intros H.
  pose proof (dot_self_nonneg x). change (vzeros (length (a :: x))) with (0 :: vzeros (length x) : vecR).
  apply f_equal2; [nra|]. apply IH. nra.
Qed.

(** *** matrices *)
Definition wf (m n : nat) (A : matR) : Prop := length A = m /\ Forall (fun r => length r = n) A.
Lemma wf_length m n A : wf m n A -> length A = m.
Proof. intros [H _]; auto. Qed.
Lemma wf_row m n A i : wf m n A -> (i < m)%nat -> length (nth i A []) = n.
Proof. intros [H1 H2] Hi. rewrite Forall_forall in H2. apply H2, nth_In. lia. Qed.
Lemma wf_cons m n r A : wf (S m) n (r :: A) <-> length r = n /\ wf m n A.
Proof.
  unfold wf. split.
  - intros [H1 H2]. inversion H2; subst. simpl in H1. repeat split; auto.
  - intros [H1 [H2 H3]]. split; [simpl; lia|]. constructor; auto.
Qed.
Lemma wf_nil n : wf 0 n [].
Proof. split; auto. Qed.
Lemma wf_app m1 m2 n A B : wf m1 n A -> wf m2 n B -> wf (m1 + m2) n (A ++ B).
Proof. intros [H1 H2] [H3 H4]. split; [vlen|]. apply Forall_app; auto. Qed.
Lemma wf_map_seq m n (f : nat -> vecR) : (forall i, (i < m)%nat -> length (f i) = n) -> wf m n (map f (seq 0 m)).
Proof.
  intros H. split; [vlen|]. apply Forall_forall. intros r Hr. apply in_map_iff in Hr.
  destruct Hr as (i & <- & Hi). apply H. apply in_seq in Hi. lia.
Qed.
Lemma wf_mtr m n (A : matR) : length A = m -> wf n m (mtr n A).
Proof. intros. apply wf_map_seq. intros. vlen. Qed.
Lemma wf_mm m n (A B : matR) : length A = m -> wf m n (mm n A B).
Proof.
  intros. split; [vlen|]. apply Forall_forall. intros r Hr. apply in_map_iff in Hr.
  destruct Hr as (x & <- & _). vlen.
Qed.
Lemma wf_mdiag (d : vecR) : wf (length d) (length d) (mdiag d).
Proof. apply wf_map_seq. intros. vlen. Qed.
Lemma wf_meye n : wf n n (meye n).
Proof. pose proof (wf_mdiag (vones n)) as H. now rewrite vones_length in H. Qed.
Lemma wf_mzeros m n : wf m n (mzeros m n).
Proof. split; [vlen|]. apply Forall_forall. intros r Hr. apply repeat_spec in Hr. subst. vlen. Qed.
Lemma wf_map2 {A} m n (f : vecR -> A -> vecR) M (l : list A) :
  wf m n M -> length l = m -> (forall r a, length r = n -> length (f r a) = n) -> wf m n (map2 f M l).
Proof.
  revert m l; induction M as [|r M IH]; intros m l [H1 H2] Hl Hf; destruct l as [|a l]; simpl in *; subst; try discriminate.
  - split; auto.
  - inversion H2; subst. apply wf_cons. split; [apply Hf; auto|]. apply IH; auto. split; auto.
Qed.
Lemma wf_madd m n A B : wf m n A -> wf m n B -> wf m n (madd A B).
Proof.
  unfold madd. revert m B; induction A as [|r A IH]; intros m [|s B] HA HB.
  - exact HA.
  - destruct HA as [HA _], HB as [HB _]. simpl in *. lia.
  - destruct HA as [HA _], HB as [HB _]. simpl in *. lia.
  - destruct m; [destruct HA; discriminate|]. apply wf_cons in HA, HB. simpl. apply wf_cons. split; [vlen|]. apply IH; tauto.
Qed.
Lemma wf_msub m n A B : wf m n A -> wf m n B -> wf m n (msub A B).
Proof.
  unfold msub. revert m B; induction A as [|r A IH]; intros m [|s B] HA HB.
  - exact HA.
  - destruct HA as [HA _], HB as [HB _]. simpl in *. lia.
  - destruct HA as [HA _], HB as [HB _]. simpl in *. lia.
  - destruct m; [destruct HA; discriminate|]. apply wf_cons in HA, HB. simpl. apply wf_cons. split; [vlen|]. apply IH; tauto.
Qed.
Lemma wf_mopp m n A : wf m n A -> wf m n (mopp A).
Proof.
  intros [H1 H2]. split; [vlen|]. unfold mopp. rewrite Forall_map. eapply Forall_impl; [|exact H2].
  intros; vlen.
Qed.
Lemma wf_hcat m n1 n2 A B : wf m n1 A -> wf m n2 B -> wf m (n1 + n2) (hcat A B).
Proof.
  unfold hcat. revert m B; induction A as [|r A IH]; intros m [|s B] HA HB.
  - destruct HA as [HA _]. simpl in HA. subst. split; auto. simpl. constructor.
  - destruct HA as [HA _], HB as [HB _]. simpl in *. lia.
  - destruct HA as [HA _], HB as [HB _]. simpl in *. lia.
  - destruct m; [destruct HA; discriminate|]. apply wf_cons in HA, HB. simpl. apply wf_cons. split; [vlen|]. apply IH; tauto.
Qed.
Lemma wf_outer (x y : vecR) : wf (length x) (length y) (outer x y).
Proof.
  split; [unfold outer; vlen|]. unfold outer. rewrite Forall_map. apply Forall_forall. intros; vlen.
Qed.

(** matrix-vector product *)
Lemma mv_cons r (A : matR) x : mv (r :: A) x = dot r x :: mv A x.
Proof. reflexivity. Qed.
Lemma mv_app (A B : matR) x : mv (A ++ B) x = mv A x ++ mv B x.
Proof. apply map_app. Qed.
Lemma mv_vadd (A : matR) x y : length x = length y -> mv A (vadd x y) = vadd (mv A x) (mv A y).
Proof. intros H. induction A; [reflexivity|]. rewrite !mv_cons, IHA, dot_vadd_r by auto. reflexivity. Qed.
Lemma mv_vscale (A : matR) k x : mv A (vscale k x) = vscale k (mv A x).
Proof. induction A; [reflexivity|]. rewrite !mv_cons, IHA, dot_vscale_r. reflexivity. Qed.
Lemma mv_vopp (A : matR) x : mv A (vopp x) = vopp (mv A x).
Proof. rewrite !vopp_scale. apply mv_vscale. Qed.
Lemma mv_vsub (A : matR) x y : length x = length y -> mv A (vsub x y) = vsub (mv A x) (mv A y).
Proof. intros. rewrite !vsub_vadd, mv_vadd, mv_vopp by vlen. reflexivity. Qed.
Lemma mv_zeros (A : matR) n : mv A (vzeros n) = vzeros (length A).
Proof. induction A; [reflexivity|]. rewrite mv_cons, IHA, dot_zeros_r. reflexivity. Qed.
Lemma mv_mzeros m n x : mv (mzeros m n) x = vzeros m.
Proof. induction m; [reflexivity|]. change (mzeros (S m) n) with (vzeros n :: mzeros m n : matR). rewrite mv_cons, IHm, dot_zeros_l. reflexivity. Qed.
Lemma mv_madd m n (A B : matR) x : wf m n A -> wf m n B -> mv (madd A B) x = vadd (mv A x) (mv B x).
Proof.
  revert m B; induction A as [|r A IH]; intros m [|s B] HA HB; try reflexivity.
  destruct m; [destruct HA; discriminate|]. apply wf_cons in HA, HB. unfold madd in *. simpl map2.
  rewrite !mv_cons, (IH m) by tauto. rewrite dot_vadd_l by (destruct HA, HB; congruence). reflexivity.
Qed.
Lemma mv_mopp (A : matR) x : mv (mopp A) x = vopp (mv A x).
Proof. induction A; [reflexivity|]. simpl mopp. rewrite !mv_cons, IHA, dot_vopp_l. reflexivity. Qed.
Lemma mv_msub m n (A B : matR) x : wf m n A -> wf m n B -> mv (msub A B) x = vsub (mv A x) (mv B x).
Proof.
  revert m B; induction A as [|r A IH]; intros m [|s B] HA HB; try reflexivity.
  destruct m; [destruct HA; discriminate|]. apply wf_cons in HA, HB. unfold msub in *. simpl map2.
  rewrite !mv_cons, (IH m) by tauto. rewrite dot_vsub_l by (destruct HA, HB; congruence). reflexivity.
Qed.
Lemma mv_hcat m n1 n2 (A B : matR) x y : wf m n1 A -> wf m n2 B -> length x = n1 ->
  mv (hcat A B) (x ++ y) = vadd (mv A x) (mv B y).
Proof.
  revert m B; induction A as [|r A IH]; intros m [|s B] HA HB Hx; try reflexivity.
  destruct m; [destruct HA; discriminate|]. apply wf_cons in HA, HB. unfold hcat in *. simpl map2.
  rewrite !mv_cons, (IH m) by tauto. rewrite dot_app by (destruct HA; congruence). reflexivity.
Qed.
Lemma mv_ext m n (A B : matR) : wf m n A -> wf m n B ->
  (forall x, length x = n -> mv A x = mv B x) -> A = B.
Proof.
  intros HA HB H. apply (nth_ext _ _ [] []).
  - destruct HA, HB; congruence.
  - intros i Hi. rewrite (wf_length _ _ _ HA) in Hi.
    assert (L1 := wf_row _ _ _ i HA Hi). assert (L2 := wf_row _ _ _ i HB Hi).
    assert (D : forall x, length x = n -> dot (nth i A []) x = dot (nth i B []) x).
    { intros x Hx. specialize (H x Hx). apply (f_equal (fun v => vget v i)) in H.
      rewrite !vget_mv in H; auto; destruct HA, HB; lia. }
    assert (Z : dot (vsub (nth i A []) (nth i B [])) (vsub (nth i A []) (nth i B [])) = 0).
    { rewrite dot_vsub_l by congruence. rewrite D by vlen. ring. }
    apply dot_self_zero in Z. apply vsub_diag; [congruence|]. rewrite Z. f_equal. vlen.
Qed.

(** transposition *)
Lemma mtr_nth n (A : matR) j : (j < n)%nat -> nth j (mtr n A) [] = map (fun r => vget r j) A.
Proof. intros. unfold mtr. now rewrite nth_map_seq. Qed.
Lemma mget_mtr n (A : matR) i j : (j < n)%nat -> (i < length A)%nat -> mget (mtr n A) j i = mget A i j.
Proof.
  intros Hj Hi. unfold mget. rewrite mtr_nth by auto. unfold vget at 1. rnum.
  rewrite (nth_indep _ _ (vget [] j)) by vlen. now rewrite (map_nth (fun r => vget r j)).
Qed.
Lemma mat_ext m n (A B : matR) : wf m n A -> wf m n B ->
  (forall i j, (i < m)%nat -> (j < n)%nat -> mget A i j = mget B i j) -> A = B.
Proof.
  intros HA HB H. apply (nth_ext _ _ [] []).
  - destruct HA, HB; congruence.
  - intros i Hi. rewrite (wf_length _ _ _ HA) in Hi. apply vext.
    + rewrite (wf_row _ _ _ i HA Hi), (wf_row _ _ _ i HB Hi). reflexivity.
    + intros j Hj. rewrite (wf_row _ _ _ i HA Hi) in Hj. apply H; auto.
Qed.
Lemma mtr_mtr m n (A : matR) : wf m n A -> mtr m (mtr n A) = A.
Proof.
  intros HA. assert (LA := wf_length _ _ _ HA). apply (mat_ext m n); auto.
  - apply wf_mtr. vlen.
  - intros i j Hi Hj. rewrite mget_mtr by vlen. rewrite mget_mtr by vlen. reflexivity.
Qed.

(** vector-matrix product *)
Lemma vm_nil n (A : matR) : vm n [] A = vzeros n.
Proof.
  unfold vm. apply vext; [vlen|]. intros i Hi. vlen. rewrite vget_mv by vlen. rewrite dot_nil_r, vget_zeros. reflexivity.
Qed.
Lemma vm_nil_r n x : vm n x [] = vzeros n.
Proof.
  unfold vm. apply vext; [vlen|]. intros i Hi. vlen. rewrite vget_mv by vlen. rewrite mtr_nth by lia. simpl map.
  rewrite dot_nil_l, vget_zeros. reflexivity.
Qed.
Lemma vm_cons n a x r (A : matR) : length r = n -> vm n (a :: x) (r :: A) = vadd (vscale a r) (vm n x A).
Proof.
  intros Hr. apply vext; [vlen|]. intros i Hi. vlen. rewrite vget_vadd by vlen. rewrite vget_vscale.
  unfold vm. rewrite !vget_mv by vlen. rewrite !mtr_nth by lia. simpl map. rewrite dot_cons. ring.
Qed.
Lemma dot_vm m n (A : matR) x y : wf m n A -> length y = m -> length x = n -> dot (vm n y A) x = dot y (mv A x).
Proof.
  revert m y; induction A as [|r A IH]; intros m y HA Hy Hx.
  - rewrite vm_nil_r, dot_zeros_l. simpl. now rewrite dot_nil_r.
  - destruct m; [destruct HA; discriminate|]. apply wf_cons in HA. destruct y as [|a y]; [discriminate|].
    rewrite vm_cons by tauto. rewrite mv_cons, dot_cons, dot_vadd_l, dot_vscale_l, (IH m) by (simpl in Hy; vlen; tauto).
    reflexivity.
Qed.
Lemma vm_vadd n (A : matR) x y : length x = length y -> vm n (vadd x y) A = vadd (vm n x A) (vm n y A).
Proof. intros. unfold vm. now rewrite mv_vadd. Qed.
Lemma vm_vscale n (A : matR) k x : vm n (vscale k x) A = vscale k (vm n x A).
Proof. unfold vm. apply mv_vscale. Qed.
Lemma vm_vopp n (A : matR) x : vm n (vopp x) A = vopp (vm n x A).
Proof. unfold vm. apply mv_vopp. Qed.
Lemma vm_zeros n k (A : matR) : vm n (vzeros k) A = vzeros n.
Proof. unfold vm. rewrite mv_zeros. f_equal. vlen. Qed.
Lemma vm_app m1 m2 n (A B : matR) x y : wf m1 n A -> wf m2 n B -> length x = m1 -> length y = m2 ->
  vm n (x ++ y) (A ++ B) = vadd (vm n x A) (vm n y B).
Proof.
  revert m1 x; induction A as [|r A IH]; intros m1 x HA HB Hx Hy.
  - destruct HA as [HA _]. simpl in HA. subst m1. destruct x; [|discriminate]. simpl app.
    rewrite vm_nil, vadd_zeros_l by vlen. reflexivity.
  - destruct m1; [destruct HA; discriminate|]. apply wf_cons in HA. destruct x as [|a x]; [discriminate|]. simpl app.
    rewrite !vm_cons by tauto. rewrite (IH m1) by (simpl in Hx; auto; tauto). now rewrite vadd_assoc.
Qed.
Lemma vm_mtr m n (A : matR) x : wf m n A -> vm m x (mtr n A) = mv A x.
Proof. intros. unfold vm. now rewrite (mtr_mtr m n). Qed.

(** products *)
Lemma mv_mm m k n (A B : matR) x : wf m k A -> wf k n B -> length x = n -> mv (mm n A B) x = mv A (mv B x).
Proof.
  intros [_ HA] HB Hx. unfold mm, mv at 1 2. rewrite map_map. apply map_ext_in. intros r Hr.
  rewrite Forall_forall in HA. apply (dot_vm k); auto.
Qed.
Lemma vm_mm m k n (A B : matR) x : wf m k A -> wf k n B -> length x = m -> vm n x (mm n A B) = vm n (vm k x A) B.
Proof.
  intros HA HB Hx. revert m x HA Hx; induction A as [|r A IH]; intros m x HA Hx.
  - simpl. rewrite !vm_nil_r, vm_zeros. reflexivity.
  - destruct m; [destruct HA; discriminate|]. apply wf_cons in HA. destruct x as [|a x]; [discriminate|].
    simpl mm. rewrite vm_cons by vlen. rewrite vm_cons by tauto. rewrite (IH m) by (simpl in Hx; auto; tauto).
    rewrite vm_vadd by (vlen; destruct HA; lia). now rewrite vm_vscale.
Qed.

(** diagonal matrices *)
Lemma mget_mdiag (d : vecR) i j : (i < length d)%nat -> (j < length d)%nat ->
  mget (mdiag d) i j = if Nat.eqb i j then vget d i else 0.
Proof.
  intros Hi Hj. unfold mget, mdiag. rewrite nth_map_seq by auto. now rewrite vget_seq.
Qed.
Lemma dot_single (x : vecR) i a n : length x = n -> (i < n)%nat ->
  dot (map (fun j => if Nat.eqb i j then a else 0) (seq 0 n)) x = a * vget x i.
Proof.
  intros Hx Hi.
  assert (G : forall k (x : vecR) s, length x = k -> 
     dot (map (fun j => if Nat.eqb i j then a else 0) (seq s k)) x =
     if andb (Nat.leb s i) (Nat.ltb i (s + k)) then a * vget x (i - s) else 0).
  { induction k as [|k IH]; intros y s Hy.
    - simpl. rewrite dot_nil_l. destruct (Nat.leb_spec s i), (Nat.ltb_spec i (s + 0)); simpl; try reflexivity. lia.
    - destruct y as [|b y]; [discriminate|]. simpl seq. simpl map. rewrite dot_cons, IH by (simpl in Hy; lia).
      destruct (Nat.eqb_spec i s) as [E|E].
      + subst s. rewrite Nat.sub_diag. 
        destruct (Nat.leb_spec (S i) i); [lia|]. destruct (Nat.leb_spec i i); [|lia].
        destruct (Nat.ltb_spec i (i + S k)); [|lia]. cbn [andb]. unfold vget. simpl. ring.
      + destruct (Nat.leb_spec (S s) i), (Nat.leb_spec s i); try lia; cbn [andb].
        * destruct (Nat.ltb_spec i (S s + k)), (Nat.ltb_spec i (s + S k)); try lia.
          -- replace (i - s)%nat with (S (i - S s)) by lia. unfold vget. simpl. ring.
          -- ring.
        * ring. }
  rewrite G by auto. simpl. destruct (Nat.ltb_spec i n); [|lia]. now rewrite Nat.sub_0_r.
Qed.
Lemma mv_mdiag (d x : vecR) : length x = length d -> mv (mdiag d) x = vmul d x.
Proof.
  intros H. apply vext; [vlen|]. intros i Hi. vlen. rewrite vget_mv by vlen. unfold mdiag.
  rewrite nth_map_seq by lia. rewrite (dot_single x i (vget d i)) by lia. rewrite vget_vmul by lia. reflexivity.
Qed.
Lemma mv_meye n x : length x = n -> mv (meye n) x = x.
Proof.
  intros H. unfold meye. rewrite mv_mdiag by vlen. apply vext; [vlen|]. intros i Hi. vlen.
  rewrite vget_vmul by vlen. rewrite vget_ones by lia. ring.
Qed.
Lemma mtr_mdiag (d : vecR) : mtr (length d) (mdiag d) = mdiag d.
Proof.
  apply (mat_ext (length d) (length d)).
  - apply wf_mtr. vlen.
  - apply wf_mdiag.
  - intros i j Hi Hj. rewrite mget_mtr by vlen. rewrite !mget_mdiag by auto.
    destruct (Nat.eqb_spec i j), (Nat.eqb_spec j i); try congruence.
Qed.

(** symmetric matrices *)
Definition symm (n : nat) (A : matR) : Prop := wf n n A /\ mtr n A = A.
Lemma symm_dot n A x y : symm n A -> length x = n -> length y = n -> dot (mv A x) y = dot x (mv A y).
Proof.
  intros [HA HT] Hx Hy. rewrite <- HT at 1. change (mv (mtr n A) x) with (vm n x A).
  apply (dot_vm n n); auto.
Qed.
Lemma symm_vm n A x : symm n A -> vm n x A = mv A x.
Proof. intros [HA HT]. unfold vm. now rewrite HT. Qed.

(** a linear map is determined on combinations of the rows *)
Lemma vm_map_rows {n k} (cols : matR) (f : vecR -> vecR) (g : vecR -> vecR) (z : vecR) :
  (forall x y, length x = n -> length y = n -> g (vadd x y) = vadd (g x) (g y)) ->
  (forall a x, length x = n -> g (vscale a x) = vscale a (g x)) ->
  (g (vzeros n) = vzeros k) ->
  Forall (fun c => length (f c) = n) cols -> Forall (fun c => length (g (f c)) = k) cols ->
  length z = length cols ->
  g (vm n z (map f cols)) = vm k z (map (fun c => g (f c)) cols).
Proof.
  intros Hadd Hsc Hz. revert z; induction cols as [|c cols IH]; intros z H1 H2 Hl.
  - destruct z; [|discriminate]. simpl. rewrite !vm_nil. exact Hz.
  - destruct z as [|a z]; [discriminate|]. inversion H1; inversion H2; subst. simpl map.
    rewrite !vm_cons by auto. rewrite Hadd, Hsc, IH by (vlen; auto). reflexivity.
Qed.

(** outer product *)
Lemma mv_outer (x y z : vecR) : mv (outer x y) z = vscale (dot y z) x.
Proof.
  unfold outer, mv. rewrite map_map. unfold vscale. apply map_ext. intros a. fold (vscale a y).
  rewrite dot_vscale_l. rnum. ring.
Qed.
