(** Lists in another order, block by block *)
From Coq Require Import List Arith ZArith Bool Reals Lia Lra Permutation.
From Verif Require Import Num Tensor RBase ResFacts LinAlg Pdipm Lcp SymSpec LcpSym SceneSpec.
Import ListNotations.
Open Scope R_scope.

(** [l'] lists the things related to those of [l], in the order [P] *)
Definition listed {A B} (r : A -> B -> Prop) (P : list nat) (l : list A) (l' : list B) : Prop :=
  ordering (length l) P /\ Forall2 (fun i b => exists a, nth_error l i = Some a /\ r a b) P l'.

Lemma F2_len {A B} (r : A -> B -> Prop) l l' : Forall2 r l l' -> length l = length l'.
Proof. induction 1; cbn; congruence. Qed.
Lemma F2_nth {A B} (r : A -> B -> Prop) l l' k a : Forall2 r l l' -> nth_error l k = Some a -> exists b, nth_error l' k = Some b /\ r a b.
Proof. intros H. revert k. induction H; intros [|k] E; cbn in *; try discriminate; [injection E as <-; eauto|auto]. Qed.
Lemma F2_nth_r {A B} (r : A -> B -> Prop) l l' k b : Forall2 r l l' -> nth_error l' k = Some b -> exists a, nth_error l k = Some a /\ r a b.
Proof. intros H. revert k. induction H; intros [|k] E; cbn in *; try discriminate; [injection E as <-; eauto|auto]. Qed.
Lemma F2_in_r {A B} (r : A -> B -> Prop) l l' b : Forall2 r l l' -> In b l' -> exists a, In a l /\ r a b.
Proof. induction 1; intros []; [subst; eexists; cbn; eauto|]. destruct IHForall2 as (a & ? & ?); auto. eexists; cbn; eauto. Qed.
Lemma F2_in_l {A B} (r : A -> B -> Prop) l l' a : Forall2 r l l' -> In a l -> exists b, In b l' /\ r a b.
Proof. induction 1; intros []; [subst; eexists; cbn; eauto|]. destruct IHForall2 as (b & ? & ?); auto. eexists; cbn; eauto. Qed.

Lemma ordering_in n P i : ordering n P -> In i P <-> (i < n)%nat.
Proof.
  intros H. split; intros Hi.
  - apply (Permutation_in _ H) in Hi. apply in_seq in Hi. lia.
  - apply (Permutation_in _ (Permutation_sym H)). apply in_seq. lia.
Qed.
Lemma ordering_NoDup n P : ordering n P -> NoDup P.
Proof. intros H. apply (Permutation_NoDup (Permutation_sym H)). apply seq_NoDup. Qed.
Lemma ordering_id n : ordering n (seq 0 n).
Proof. unfold ordering. auto. Qed.

Section Listed.
Context {A B : Type} (r : A -> B -> Prop).
Lemma listed_len P l l' : listed r P l l' -> length P = length l /\ length l' = length l.
Proof. intros [HP H]. pose proof (ord_len _ _ HP). pose proof (F2_len _ _ _ H). lia. Qed.
Lemma listed_r P l l' k b : listed r P l l' -> nth_error l' k = Some b -> exists i a, nth_error P k = Some i /\ nth_error l i = Some a /\ r a b.
Proof. intros [_ H] E. destruct (F2_nth_r _ _ _ _ _ H E) as (i & Ei & a & Ea & Hr). eauto. Qed.
Lemma listed_l P l l' i a : listed r P l l' -> nth_error l i = Some a -> exists k b, nth_error P k = Some i /\ nth_error l' k = Some b /\ r a b.
Proof.
  intros [HP H] E. assert (Hi : In i P). { apply (ordering_in _ _ _ HP). apply nth_error_Some. congruence. }
  apply In_nth_error in Hi. destruct Hi as [k Ek]. destruct (F2_nth _ _ _ _ _ H Ek) as (b & Eb & a' & Ea & Hr). exists k, b. split; [exact Ek|]. split; [exact Eb|congruence].
Qed.
Lemma listed_k P l l' k i : listed r P l l' -> nth_error P k = Some i -> exists a b, nth_error l i = Some a /\ nth_error l' k = Some b /\ r a b.
Proof. intros [HP H] E. destruct (F2_nth _ _ _ _ _ H E) as (b & Eb & a & Ea & Hr). eauto 6. Qed.
Lemma listed_none P l l' k : listed r P l l' -> nth_error l' k = None <-> nth_error P k = None.
Proof. intros H. destruct (listed_len _ _ _ H) as [L1 L2]. rewrite !nth_error_None. lia. Qed.
Lemma listed_id l l' : Forall2 r l l' -> listed r (seq 0 (length l)) l l'.
Proof.
  intros H. split; [apply ordering_id|]. assert (G : forall pre, Forall2 (fun i b => exists a, nth_error (pre ++ l) i = Some a /\ r a b) (seq (length pre) (length l)) l').
  { induction H as [|a b l l' Hr H IH]; intros pre; cbn [length seq]; constructor.
    - exists a. split; [|exact Hr]. rewrite nth_error_app2 by lia. now rewrite Nat.sub_diag.
    - specialize (IH (pre ++ [a])). rewrite app_length in IH. cbn [length] in IH. rewrite Nat.add_1_r in IH. rewrite <- app_assoc in IH. exact IH. }
  exact (G []).
Qed.
End Listed.
Lemma F2_impl_in {A B} (r r2 : A -> B -> Prop) l l' : (forall a b, In a l -> In b l' -> r a b -> r2 a b) -> Forall2 r l l' -> Forall2 r2 l l'.
Proof.
  intros Hi H. induction H as [|a b l l' Hr H IH]; [constructor|]. constructor; [apply Hi; cbn; auto|]. apply IH. intros x y Hx Hy. apply Hi; cbn; auto.
Qed.
Lemma listed_impl {A B} (r r2 : A -> B -> Prop) P l l' : (forall a b, In a l -> In b l' -> r a b -> r2 a b) -> listed r P l l' -> listed r2 P l l'.
Proof.
  intros Hi [HP H]. split; [exact HP|]. revert H. apply F2_impl_in. intros i b _ Hb (a & Ea & Hr). exists a. split; [exact Ea|]. apply Hi; auto. exact (nth_error_In _ _ Ea).
Qed.
Lemma listed_map {A B C D} (r : A -> B -> Prop) (r2 : C -> D -> Prop) (f : A -> C) (g : B -> D) P l l' :
  listed r P l l' -> (forall a b, In a l -> In b l' -> r a b -> r2 (f a) (g b)) -> listed r2 P (map f l) (map g l').
Proof.
  intros [HP H] Hi. split; [now rewrite map_length|]. clear HP. induction H as [|i b P l' (a & Ea & Hr) H IH]; [constructor|]. cbn [map]. constructor.
  - exists (f a). rewrite nth_error_map, Ea. split; [reflexivity|]. apply Hi; cbn; auto. exact (nth_error_In _ _ Ea).
  - apply IH. intros x y Hx Hy. apply Hi; cbn; auto.
Qed.
Lemma listed_mapi {A B C D} (r : A -> B -> Prop) (r2 : C -> D -> Prop) (f : nat -> A -> C) (g : nat -> B -> D) P l l' :
  listed r P l l' -> (forall i k a b, nth_error P k = Some i -> nth_error l i = Some a -> nth_error l' k = Some b -> r a b -> r2 (f i a) (g k b)) ->
  listed r2 P (World.mapi f l) (World.mapi g l').
Proof.
  intros Hl Hi. pose proof (listed_len _ _ _ _ Hl) as [L1 L2]. destruct Hl as [HP H]. split; [now rewrite LayoutFacts.mapi_length'|].
  assert (G : forall k0 P1 l1, (forall k, nth_error P1 k = nth_error P (k0 + k)) -> (forall k, nth_error l1 k = nth_error l' (k0 + k)) ->
     Forall2 (fun i b => exists a, nth_error l i = Some a /\ r a b) P1 l1 -> Forall2 (fun i b => exists a, nth_error (World.mapi f l) i = Some a /\ r2 a b) P1 (World.mapi_from k0 g l1)).
  { clear H. intros k0 P1 l1 E1 E2 H. revert k0 E1 E2. induction H as [|i b P1 l1 (a & Ea & Hr) H IH]; intros k0 E1 E2; cbn [World.mapi_from]; constructor.
    - exists (f i a). rewrite LayoutFacts.mapi_nth, Ea. split; [reflexivity|]. apply Hi; auto; [specialize (E1 0%nat)|specialize (E2 0%nat)]; rewrite Nat.add_0_r in *; cbn in *; congruence.
    - apply IH; intros k; [specialize (E1 (S k))|specialize (E2 (S k))]; cbn in *; rewrite <- plus_n_Sm in *; auto. }
  apply (G 0%nat); auto.
Qed.
Lemma listed_combine {A B C D} (r : A -> B -> Prop) (r2 : C -> D -> Prop) P l l' m m' : listed r P l l' -> listed r2 P m m' ->
  listed (fun a b => r (fst a) (fst b) /\ r2 (snd a) (snd b)) P (combine l m) (combine l' m').
Proof.
  intros H1 H2. pose proof (listed_len _ _ _ _ H1) as [L1 L2]. pose proof (listed_len _ _ _ _ H2) as [L3 L4]. destruct H1 as [HP H1]. destruct H2 as [_ H2].
  assert (N : forall i a c, nth_error l i = Some a -> nth_error m i = Some c -> nth_error (combine l m) i = Some (a, c)).
  { clear. revert m. induction l as [|x l IH]; intros [|y m] [|i] a c E1 E2; cbn in *; try discriminate; auto. now injection E1 as ->; injection E2 as ->. }
  split; [rewrite combine_length, <- L3, <- L1, Nat.min_id, L1; exact HP|]. clear L1 L2 L3 L4 HP. revert m' H2.
  induction H1 as [|i b P l' (a & Ea & Hr) H1 IH]; intros m' H2; inversion H2; subst; [constructor|]. destruct H3 as (c & Ec & Hr2). cbn [combine]. constructor; [|auto].
  exists (a, c). split; [auto|]. auto.
Qed.
Lemma mapM_err {A B} (f : A -> res B) l : (exists a e, In a l /\ f a = Err e) -> exists e, mapM f l = Err e.
Proof.
  induction l as [|x l IH]; intros (a & e & Hin & E); [destruct Hin|]. cbn [mapM]. destruct (f x) as [y|ex] eqn:Ex; cbn [bind]; [|eauto].
  destruct Hin as [->|Hin]; [congruence|]. destruct IH as [e2 ->]; eauto. cbn. eauto.
Qed.
Lemma mapM_err_inv {A B} (f : A -> res B) l e : mapM f l = Err e -> exists a e2, In a l /\ f a = Err e2.
Proof.
  induction l as [|x l IH]; cbn [mapM]; [discriminate|]. destruct (f x) as [y|ex] eqn:Ex; cbn [bind]; [|intros _; exists x, ex; cbn; auto].
  destruct (mapM f l) as [ys|e2]; cbn [bind]; [discriminate|]. intros E. injection E as <-. destruct IH as (a & e3 & H1 & H2); [reflexivity|]. exists a, e3. cbn. auto.
Qed.
Lemma listed_mapM {A B C D} (r : A -> B -> Prop) (r2 : C -> D -> Prop) (f : A -> res C) (g : B -> res D) P l l' :
  listed r P l l' -> (forall a b, In a l -> In b l' -> r a b -> alike r2 (f a) (g b)) -> alike (listed r2 P) (mapM f l) (mapM g l').
Proof.
  intros Hl Hi. destruct (mapM f l) as [m|e] eqn:E1.
  - destruct (mapM g l') as [m'|e'] eqn:E2.
    + cbn [alike]. apply mapM_Forall2 in E1. apply mapM_Forall2 in E2. destruct Hl as [HP H]. split; [now rewrite <- (F2_len _ _ _ E1)|].
      clear HP. revert m' E2. induction H as [|i b P l' (a & Ea & Hr) H IH]; intros m' E2; inversion E2; subst; constructor; [|apply IH; auto; intros; apply Hi; cbn; auto].
      destruct (F2_nth _ _ _ _ _ E1 Ea) as (c & Ec & Ef). exists c. split; [exact Ec|]. specialize (Hi a b (nth_error_In _ _ Ea) (or_introl eq_refl) Hr). rewrite Ef, H2 in Hi. exact Hi.
    + apply mapM_err_inv in E2. destruct E2 as (b & e2 & Hin & Eb). apply In_nth_error in Hin. destruct Hin as [k Ek].
      destruct (listed_r _ _ _ _ _ _ Hl Ek) as (i & a & _ & Ea & Hr). specialize (Hi a b (nth_error_In _ _ Ea) (nth_error_In _ _ Ek) Hr). rewrite Eb in Hi.
      destruct (f a) as [c|e3] eqn:Ef; [destruct Hi|]. destruct (mapM_err f l) as [e4 E4]; [exists a, e3; split; [exact (nth_error_In _ _ Ea)|exact Ef]|]. congruence.
  - apply mapM_err_inv in E1. destruct E1 as (a & e2 & Hin & Ef). apply In_nth_error in Hin. destruct Hin as [i Ei].
    destruct (listed_l _ _ _ _ _ _ Hl Ei) as (k & b & _ & Eb & Hr). specialize (Hi a b (nth_error_In _ _ Ei) (nth_error_In _ _ Eb) Hr). rewrite Ef in Hi.
    destruct (g b) as [d|e3] eqn:Eg; [destruct Hi|]. destruct (mapM_err g l') as [e4 ->]; [exists b, e3; split; [exact (nth_error_In _ _ Eb)|exact Eg]|]. exact I.
Qed.
(** permutations and orderings *)
Lemma nth_map_seq {A} (l : list A) (P : list nat) : Forall (fun i => (i < length l)%nat) P ->
  Forall2 (fun i b => nth_error l i = Some b) P (flat_map (fun i => match nth_error l i with Some b => [b] | None => [] end) P).
Proof.
  induction 1 as [|i P Hi H IH]; [constructor|]. cbn [flat_map]. destruct (nth_error l i) as [b|] eqn:E; [|apply nth_error_None in E; lia]. cbn [app]. constructor; auto.
Qed.
Lemma pick_all {A} (pre l : list A) : flat_map (fun i => match nth_error (pre ++ l) i with Some b => [b] | None => [] end) (seq (length pre) (length l)) = l.
Proof.
  revert pre. induction l as [|a l IH]; intros pre; [reflexivity|]. cbn [length seq flat_map]. rewrite nth_error_app2, Nat.sub_diag by lia. cbn [nth_error app]. f_equal.
  specialize (IH (pre ++ [a])). rewrite app_length in IH. cbn [length] in IH. rewrite Nat.add_1_r, <- app_assoc in IH. exact IH.
Qed.
Lemma map_nth_seq (P : list nat) : map (fun i => nth i P 0%nat) (seq 0 (length P)) = P.
Proof.
  apply (nth_ext _ _ 0%nat 0%nat); [now rewrite map_length, seq_length|]. intros k Hk. rewrite map_length, seq_length in Hk.
  rewrite (nth_indep _ 0%nat ((fun i => nth i P 0%nat) 0%nat)) by (rewrite map_length, seq_length; lia). rewrite (map_nth (fun i => nth i P 0%nat)), seq_nth by lia. reflexivity.
Qed.
Lemma F2_map_l {A B C} (r : B -> C -> Prop) (f : A -> B) l m : Forall2 (fun a c => r (f a) c) l m -> Forall2 r (map f l) m.
Proof. induction 1; cbn [map]; constructor; auto. Qed.
Lemma perm_ordering {A} (l l2 : list A) : Permutation l l2 -> exists P, ordering (length l) P /\ Forall2 (fun i b => nth_error l i = Some b) P l2.
Proof.
  induction 1 as [|x l l2 H IH|x y l|l l2 l3 H1 IH1 H2 IH2].
  - exists []. split; [apply ordering_id|constructor].
  - destruct IH as (P & HP & HF). exists (0%nat :: map S P). split.
    + unfold ordering. cbn [length seq]. rewrite <- seq_shift. apply perm_skip, Permutation_map, HP.
    + constructor; [reflexivity|]. clear - HF. induction HF; cbn [map]; constructor; auto.
  - exists (1 :: 0 :: seq 2 (length l))%nat. split; [unfold ordering; cbn [length seq]; apply perm_swap|]. constructor; [reflexivity|]. constructor; [reflexivity|].
    destruct (listed_id eq l l) as [_ G]; [clear; induction l; constructor; auto|]. revert G. replace (seq 2 (length l)) with (map S (map S (seq 0 (length l)))) by now rewrite !seq_shift.
    intros G. apply F2_map_l, F2_map_l. revert G. apply F2_impl_in. intros i b _ _ (a & Ea & ->). exact Ea.
  - destruct IH1 as (P1 & HP1 & HF1). destruct IH2 as (P2 & HP2 & HF2). exists (map (fun i => nth i P1 0%nat) P2).
    pose proof (Permutation_length H1) as L1. pose proof (ord_len _ _ HP1) as L2. split.
    + unfold ordering. transitivity (map (fun i => nth i P1 0%nat) (seq 0 (length P1))); [|rewrite map_nth_seq; exact HP1]. apply Permutation_map. rewrite L2, L1. exact HP2.
    + clear - HF1 HF2. induction HF2 as [|i b P2 l3 E HF2 IHF]; cbn [map]; constructor; [|apply IHF].
      destruct (F2_nth_r _ _ _ _ _ HF1 E) as (k & Ek & Eb). rewrite (nth_error_nth _ _ 0%nat Ek). exact Eb.
Qed.
Lemma listed_perm {A B} (r : A -> B -> Prop) l l' : up_to_order r l l' -> exists P, listed r P l l'.
Proof.
  intros (l2 & HP & HF). destruct (perm_ordering _ _ HP) as (P & HO & HQ). exists P. split; [exact HO|]. clear HP HO. revert l' HF.
  induction HQ as [|i a P l2 E HQ IH]; intros l' HF; inversion HF; subst; constructor; eauto.
Qed.
Lemma perm_listed {A B} (r : A -> B -> Prop) P l l' : listed r P l l' -> up_to_order r l l'.
Proof.
  intros [HP HF]. set (pick := fun i => match nth_error l i with Some b => [b] | None => [] end). exists (flat_map pick P). split.
  - transitivity (flat_map pick (seq 0 (length l))); [|apply Permutation_flat_map, Permutation_sym, HP]. assert (E : flat_map pick (seq 0 (length l)) = l) by exact (pick_all [] l). rewrite E. reflexivity.
  - clear HP. induction HF as [|i b P l' (a & Ea & Hr) HF IH]; [constructor|]. cbn [flat_map]. unfold pick at 1. rewrite Ea. cbn [app]. constructor; auto.
Qed.

(** *** flat lists of blocks *)
Definition offset (ns : list nat) (i : nat) : nat := list_sum (firstn i ns).
Definition expand (ns : list nat) (P : list nat) : list nat := flat_map (fun i => seq (offset ns i) (nth i ns 0%nat)) P.
Lemma list_sum_app' l m : list_sum (l ++ m) = (list_sum l + list_sum m)%nat.
Proof. apply list_sum_app. Qed.
Lemma expand_all (pre ns : list nat) : flat_map (fun i => seq (offset (pre ++ ns) i) (nth i (pre ++ ns) 0%nat)) (seq (length pre) (length ns)) = seq (list_sum pre) (list_sum ns).
Proof.
  revert pre. induction ns as [|n ns IH]; intros pre; [reflexivity|]. cbn [length seq flat_map list_sum fold_right]. rewrite seq_app. f_equal.
  - rewrite app_nth2, Nat.sub_diag by lia. cbn [nth]. f_equal. unfold offset. rewrite firstn_app, Nat.sub_diag, firstn_all. cbn [firstn]. now rewrite app_nil_r.
  - specialize (IH (pre ++ [n])). rewrite <- app_assoc in IH. rewrite app_length in IH. cbn [length app] in IH. rewrite Nat.add_1_r in IH. rewrite IH. f_equal. rewrite list_sum_app'. cbn. lia.
Qed.
Lemma expand_ordering ns P : ordering (length ns) P -> ordering (list_sum ns) (expand ns P).
Proof.
  intros H. unfold ordering, expand. pose proof (expand_all [] ns) as E. cbn [app length] in E. change (list_sum []) with 0%nat in E. rewrite <- E. now apply Permutation_flat_map.
Qed.
(** block [i] of a flat list *)
Lemma block_of {A} (f : A -> list R) (pre l : list A) a i : nth_error l i = Some a ->
  map (vget (flat_map f l)) (seq (offset (map (fun a => length (f a)) l) i) (length (f a))) = f a.
Proof.
  intros E. apply nth_error_split in E. destruct E as (l1 & l2 & -> & L). rewrite flat_map_app. cbn [flat_map].
  assert (O : offset (map (fun a => length (f a)) (l1 ++ a :: l2)) i = length (flat_map f l1)).
  { unfold offset. rewrite map_app, firstn_app, map_length, L, Nat.sub_diag. cbn [firstn]. rewrite app_nil_r. rewrite firstn_all2 by (rewrite map_length; lia).
    clear. induction l1 as [|x l1 IH]; [reflexivity|]. cbn [map flat_map]. rewrite app_length, <- IH. reflexivity. }
  rewrite O. apply (nth_ext _ _ 0 0); [now rewrite map_length, seq_length|]. intros k Hk. rewrite map_length, seq_length in Hk.
  set (v := vget (flat_map f l1 ++ f a ++ flat_map f l2)). rewrite (nth_indep _ 0 (v 0%nat)) by (rewrite map_length, seq_length; lia). rewrite map_nth, seq_nth by lia.
  unfold v, vget. rewrite app_nth2_plus, app_nth1 by lia. reflexivity.
Qed.
Lemma listed_flat {A B} (r : A -> B -> Prop) (f : A -> list R) (g : B -> list R) P l l' : listed r P l l' -> (forall a b, In a l -> In b l' -> r a b -> g b = f a) ->
  flat_map g l' = reorder (expand (map (fun a => length (f a)) l) P) (flat_map f l).
Proof.
  intros [_ HF] Hi. induction HF as [|i b P l' (a & Ea & Hr) HF IH]; [reflexivity|]. unfold expand in *. cbn [flat_map]. unfold reorder in *. rewrite map_app. f_equal.
  - rewrite (nth_error_nth (map (fun a => length (f a)) l) i 0%nat (x := length (f a))) by (rewrite nth_error_map, Ea; reflexivity).
    rewrite (block_of f [] l a i Ea). apply Hi; cbn; auto. exact (nth_error_In _ _ Ea).
  - apply IH. intros x y Hx Hy. apply Hi; cbn; auto.
Qed.
Lemma listed_vec {A B} (r : A -> B -> Prop) (f : A -> R) (g : B -> R) P l l' : listed r P l l' -> (forall a b, In a l -> In b l' -> r a b -> g b = f a) ->
  map g l' = reorder P (map f l).
Proof.
  intros [_ HF] Hi. induction HF as [|i b P l' (a & Ea & Hr) HF IH]; [reflexivity|]. unfold reorder in *. cbn [map]. f_equal.
  - assert (Ev : vget (map f l) i = f a) by (apply nth_error_nth; rewrite nth_error_map, Ea; reflexivity). rewrite Ev. apply Hi; cbn; auto. exact (nth_error_In _ _ Ea).
  - apply IH. intros x y Hx Hy. apply Hi; cbn; auto.
Qed.
Lemma iso_comp n f g : isometry n f -> isometry n g -> isometry n (fun x => g (f x)).
Proof.
  intros [F1 F2 F3 F4 F5] [G1 G2 G3 G4 G5]. constructor; intros.
  - auto.
  - rewrite F2 by auto. apply G2; auto.
  - rewrite F3 by auto. apply G3; auto.
  - rewrite G4 by auto. auto.
  - destruct (G5 y H) as (z & Hz & <-). destruct (F5 z Hz) as (x & Hx & <-). eauto.
Qed.
(** maps block by block, in place *)
Fixpoint diag {K} (size : K -> nat) (g : K -> vec R -> vec R) (ks : list K) (x : vec R) : vec R :=
  match ks with [] => [] | k :: ks' => g k (firstn (size k) x) ++ diag size g ks' (skipn (size k) x) end.
Lemma firstn_vadd n (l m : vec R) : firstn n (vadd l m) = vadd (firstn n l) (firstn n m).
Proof. revert l m. induction n; intros [|a l] [|b m]; try reflexivity. cbn. f_equal. apply IHn. Qed.
Lemma skipn_vadd n (l m : vec R) : skipn n (vadd l m) = vadd (skipn n l) (skipn n m).
Proof. revert l m. induction n; intros [|a l] [|b m]; try reflexivity; cbn; [now destruct (skipn n l)|apply IHn]. Qed.
Lemma diag_iso {K} (size : K -> nat) g (ks : list K) : (forall k, In k ks -> isometry (size k) (g k)) -> isometry (list_sum (map size ks)) (diag size g ks).
Proof.
  induction ks as [|k ks IH]; intros H.
  - constructor; cbn; try reflexivity.
    + intros [|a x] [|b y] Hx Hy; try discriminate. reflexivity.
    + intros [|b y] Hy; [|discriminate]. exists []. auto.
  - assert (Hk : isometry (size k) (g k)) by (apply H; cbn; auto). assert (Hks : isometry (list_sum (map size ks)) (diag size g ks)) by (apply IH; intros; apply H; cbn; auto). clear IH H.
    destruct Hk as [F1 F2 F3 F4 F5]. destruct Hks as [G1 G2 G3 G4 G5]. cbn [map list_sum fold_right diag]. change (fold_right Nat.add 0%nat (map size ks)) with (list_sum (map size ks)).
    assert (LF : forall x : vec R, length x = (size k + list_sum (map size ks))%nat -> length (firstn (size k) x) = size k) by (intros; rewrite firstn_length; lia).
    assert (LS : forall x : vec R, length x = (size k + list_sum (map size ks))%nat -> length (skipn (size k) x) = list_sum (map size ks)) by (intros; rewrite skipn_length; lia).
    constructor; intros.
    + rewrite app_length, F1, G1; auto.
    + rewrite firstn_vadd, skipn_vadd, F2, G2 by auto. symmetry. apply vadd_app. rewrite !F1; auto.
    + unfold vscale at 1 2. rewrite firstn_map, skipn_map. fold (vscale k0 (firstn (size k) x)). fold (vscale k0 (skipn (size k) x)). rewrite F3, G3 by auto. symmetry. apply vscale_app.
    + rewrite dot_app by (rewrite !F1; auto). rewrite F4, G4 by auto. rewrite <- dot_app by (rewrite !LF; auto). now rewrite !firstn_skipn.
    + destruct (F5 (firstn (size k) y)) as (x1 & L1 & E1); [auto|]. destruct (G5 (skipn (size k) y)) as (x2 & L2 & E2); [auto|]. exists (x1 ++ x2). split; [rewrite app_length; lia|].
      rewrite firstn_app, skipn_app, L1, Nat.sub_diag. cbn [firstn skipn]. rewrite app_nil_r, firstn_all2, skipn_all2 by lia. cbn [app]. rewrite E1, E2. apply firstn_skipn.
Qed.
Lemma diag_flat {K A} (size : K -> nat) g (kd : A -> K) (f : A -> list R) l : (forall a, In a l -> length (f a) = size (kd a)) ->
  diag size g (map kd l) (flat_map f l) = flat_map (fun a => g (kd a) (f a)) l.
Proof.
  induction l as [|a l IH]; intros H; [reflexivity|]. cbn [map diag flat_map]. assert (L : length (f a) = size (kd a)) by (apply H; cbn; auto).
  rewrite firstn_app, skipn_app, <- L, Nat.sub_diag, firstn_all, skipn_all. cbn [firstn skipn app]. rewrite app_nil_r, IH; [reflexivity|]. intros; apply H; cbn; auto.
Qed.
