(** Lemmas about the error monad, lists and list updates *)
From Coq Require Import List Arith Lia Bool.
From Verif Require Import Num Tensor.
Import ListNotations.

Lemma bind_Ok {A B} (x : res A) (f : A -> res B) b :
  bind x f = Ok b -> exists a, x = Ok a /\ f a = Ok b.
Proof. destruct x; simpl; intros H; [eauto|discriminate]. Qed.

(** invert one [do]: names the intermediate value and its equation *)
Tactic Notation "bind_inv" hyp(H) "as" ident(a) ident(E) :=
  apply bind_Ok in H; destruct H as [a [E H]].
Ltac binv H :=
  match type of H with
  | bind _ _ = Ok _ =>
      let a := fresh "a" in let E := fresh "E" in
      apply bind_Ok in H; destruct H as [a [E H]]
  end.

Lemma mapM_Ok_length {A B} (f : A -> res B) l r : mapM f l = Ok r -> length r = length l.
Proof.
  revert r; induction l as [|a l IH]; simpl; intros r H.
  - inversion H; reflexivity.
  - binv H. binv H. inversion H; subst. simpl. f_equal. eauto.
Qed.

Lemma mapM_Ok_nth {A B} (f : A -> res B) l r :
  mapM f l = Ok r ->
  forall i a, nth_error l i = Some a -> exists b, nth_error r i = Some b /\ f a = Ok b.
Proof.
  revert r; induction l as [|a l IH]; simpl; intros r H i x Hi.
  - destruct i; discriminate.
  - binv H. binv H. inversion H; subst. destruct i; simpl in *.
    + inversion Hi; subst. eauto.
    + eauto.
Qed.

Lemma mapM_Forall2 {A B} (f : A -> res B) l r :
  mapM f l = Ok r <-> Forall2 (fun a b => f a = Ok b) l r.
Proof.
  split.
  - revert r; induction l as [|a l IH]; simpl; intros r H.
    + inversion H; constructor.
    + binv H. binv H. inversion H; subst. constructor; auto.
  - intros H; induction H; simpl; [reflexivity|]. rewrite H, IHForall2. reflexivity.
Qed.

Lemma mapM_ext {A B} (f g : A -> res B) l :
  (forall a, In a l -> f a = g a) -> mapM f l = mapM g l.
Proof.
  induction l as [|a l IH]; simpl; intros H; [reflexivity|].
  rewrite (H a) by auto. rewrite IH by auto. reflexivity.
Qed.

Lemma mapM_map {A B C} (f : B -> res C) (g : A -> B) l :
  mapM f (map g l) = mapM (fun a => f (g a)) l.
Proof. induction l as [|a l IH]; simpl; [reflexivity|]. now rewrite IH. Qed.

Lemma mapM_total {A B} (f : A -> res B) (g : A -> B) l :
  (forall a, In a l -> f a = Ok (g a)) -> mapM f l = Ok (map g l).
Proof.
  induction l as [|a l IH]; simpl; intros H; [reflexivity|].
  rewrite (H a) by auto. rewrite IH by auto. reflexivity.
Qed.

Lemma mapM_exists {A B} (f : A -> res B) l :
  (forall a, In a l -> exists b, f a = Ok b) -> exists r, mapM f l = Ok r.
Proof.
  induction l as [|a l IH]; simpl; intros H; [eauto|].
  destruct (H a) as [b E]; auto. destruct IH as [r Er]; auto.
  rewrite E, Er. simpl. eauto.
Qed.

(** ** upd *)
Lemma upd_length {A} (l : list A) i a : length (upd l i a) = length l.
Proof. revert i; induction l; destruct i; simpl; auto. Qed.

Lemma nth_error_upd {A} (l : list A) i j a :
  nth_error (upd l i a) j =
  if Nat.eqb i j then (if Nat.ltb i (length l) then Some a else None) else nth_error l j.
Proof.
  revert i j; induction l as [|b l IH]; intros i j; simpl.
  - destruct (Nat.eqb i j); destruct j; reflexivity.
  - destruct i, j; simpl; try reflexivity. rewrite IH. reflexivity.
Qed.

Lemma nth_upd {A} (l : list A) i j a d :
  nth j (upd l i a) d =
  if Nat.eqb i j then (if Nat.ltb i (length l) then a else d) else nth j l d.
Proof.
  revert i j; induction l as [|b l IH]; intros i j; simpl.
  - destruct (Nat.eqb i j); destruct j; reflexivity.
  - destruct i, j; simpl; try reflexivity. rewrite IH. reflexivity.
Qed.

Lemma upd_map {A B} (f : A -> B) l i a : map f (upd l i a) = upd (map f l) i (f a).
Proof. revert i; induction l; destruct i; simpl; congruence. Qed.

Lemma upd_same {A} (l : list A) i a : nth_error l i = Some a -> upd l i a = l.
Proof.
  revert i; induction l; destruct i; simpl; intros H; try congruence.
  f_equal; auto.
Qed.

Lemma map_upd_same {A B} (f : A -> B) l i a a' :
  nth_error l i = Some a -> f a' = f a -> map f (upd l i a') = map f l.
Proof.
  intros H E. rewrite upd_map, E. apply upd_same. now rewrite nth_error_map, H.
Qed.

Lemma Forall2_map_eq {A B} (f g : A -> B) (l l' : list A) :
  Forall2 (fun a b => f a = g b) l l' -> map f l = map g l'.
Proof. induction 1; simpl; congruence. Qed.
