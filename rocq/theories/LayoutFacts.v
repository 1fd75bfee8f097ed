(** The flat velocity/position vectors and the bodies, for every arithmetic *)
From Coq Require Import List Arith ZArith Lia Bool.
From Verif Require Import Num Tensor Utils Bodies Forces Constraints Contacts World
     ResFacts Spec WorldFacts HandlerFacts.
Import ListNotations.
Open Scope nat_scope.

Section LayoutFacts.
Context {T : Type} {N : Num T}.
Implicit Types (w : world T) (o : oracle T) (hd : handler T) (e : engine T)
         (bs bodies : list (body T)) (x v : vec T).

Lemma cat3_length (l : list (v3 T)) : length (cat3 l) = 3 * length l.
Proof. induction l as [|[a [b c]] l IH]; simpl in *; lia. Qed.

Lemma v3_at_cons3 a b c x i : v3_at (a :: b :: c :: x) (S i) = v3_at x i.
Proof.
  unfold v3_at, vget. replace (3 * S i) with (S (S (S (3 * i)))) by lia. reflexivity.
Qed.

Lemma v3_at_cat3 (l : list (v3 T)) i d : i < length l -> v3_at (cat3 l) i = nth i l d.
Proof.
  revert i; induction l as [|[a [b c]] l IH]; intros i Hi; [simpl in Hi; lia|].
  destruct i as [|i]; [reflexivity|].
  change (cat3 ((a, (b, c)) :: l)) with (a :: b :: c :: cat3 l).
  rewrite v3_at_cons3. simpl. apply IH. simpl in Hi; lia.
Qed.

Lemma cat3_v3_at n x : length x = 3 * n -> cat3 (map (v3_at x) (seq 0 n)) = x.
Proof.
  revert x; induction n as [|n IH]; intros x Hx.
  - destruct x; [reflexivity|simpl in Hx; lia].
  - destruct x as [|a [|b [|c x]]]; try (simpl in Hx; lia).
    simpl seq. rewrite <- seq_shift. simpl map. rewrite map_map.
    change (cat3 (v3_at (a :: b :: c :: x) 0 ::
              map (fun i => v3_at (a :: b :: c :: x) (S i)) (seq 0 n)))
      with (a :: b :: c :: cat3 (map (fun i => v3_at (a :: b :: c :: x) (S i)) (seq 0 n))).
    do 3 f_equal. transitivity (cat3 (map (v3_at x) (seq 0 n))); [|apply IH; simpl in Hx; lia].
    f_equal. apply map_ext. intros i. apply v3_at_cons3.
Qed.

Lemma mapi_from_length' {A B} (f : nat -> A -> B) l i : length (mapi_from i f l) = length l.
Proof. revert i; induction l; simpl; intros; auto. Qed.
Lemma mapi_length' {A B} (f : nat -> A -> B) l : length (mapi f l) = length l.
Proof. apply mapi_from_length'. Qed.

Lemma mapi_from_nth {A B} (f : nat -> A -> B) l i k :
  nth_error (mapi_from i f l) k = option_map (f (i + k)) (nth_error l k).
Proof.
  revert i k; induction l as [|a l IH]; intros i k; destruct k; simpl; auto.
  - now rewrite Nat.add_0_r.
  - rewrite IH. now replace (S i + k) with (i + S k) by lia.
Qed.
Lemma mapi_nth {A B} (f : nat -> A -> B) l k :
  nth_error (mapi f l) k = option_map (f k) (nth_error l k).
Proof. apply mapi_from_nth. Qed.

Lemma nth_error_ext {A} (l l' : list A) :
  (forall i, nth_error l i = nth_error l' i) -> l = l'.
Proof.
  revert l'; induction l as [|a l IH]; intros [|b l'] H; auto.
  - specialize (H 0); discriminate.
  - specialize (H 0); discriminate.
  - pose proof (H 0) as H0. simpl in H0. inversion H0; subst. f_equal. apply IH.
    intros i. apply (H (S i)).
Qed.

Lemma mapi_seq {A B} (f : nat -> A -> B) (g : nat -> B) l :
  (forall i a, f i a = g i) -> mapi f l = map g (seq 0 (length l)).
Proof.
  intros H. unfold mapi. generalize 0. induction l as [|a l IH]; intros i; simpl; auto.
  rewrite H, IH. reflexivity.
Qed.

(** what the world's flat velocity says and what the bodies say agree *)
Definition aligned w : Prop := w_v w = cat3 (map b_v (w_bodies w)).

Lemma set_v_aligned w v w' : set_v w v = Ok w' -> aligned w'.
Proof.
  intros H. apply set_v_inv in H. destruct H as [Hl ->]. unfold aligned. simpl.
  assert (E : map b_v (mapi (fun i b => with_v b (v3_at v i)) (w_bodies w))
              = map (v3_at v) (seq 0 (length (w_bodies w)))).
  { apply nth_error_ext. intros i. rewrite nth_error_map, mapi_nth, nth_error_map.
    destruct (nth_error (w_bodies w) i) eqn:Ei; simpl.
    - assert (i < length (w_bodies w)) by (eapply nth_error_lt; eauto).
      rewrite (nth_error_nth' _ 0) by now rewrite seq_length. simpl. now rewrite seq_nth.
    - apply nth_error_None in Ei.
      assert (Q : nth_error (seq 0 (length (w_bodies w))) i = None)
        by (apply nth_error_None; now rewrite seq_length).
      now rewrite Q. }
  rewrite E, cat3_v3_at; auto.
Qed.

Lemma set_v_reads w v w' i b :
  set_v w v = Ok w' -> nth_error (w_bodies w) i = Some b ->
  nth_error (w_bodies w') i = Some (with_v b (v3_at v i)).
Proof.
  intros H Hi. apply set_v_inv in H. destruct H as [Hl ->]. simpl. now rewrite mapi_nth, Hi.
Qed.

Lemma with_v_same (b : body T) : with_v b (b_v b) = b.
Proof. destruct b; reflexivity. Qed.

Lemma set_v_noop w : aligned w -> set_v w (w_v w) = Ok w.
Proof.
  unfold aligned. intros Ha. unfold set_v. rewrite Ha at 1. rewrite cat3_length, map_length, Nat.eqb_refl.
  assert (E : mapi (fun i b => with_v b (v3_at (w_v w) i)) (w_bodies w) = w_bodies w).
  { apply nth_error_ext. intros i. rewrite mapi_nth.
    destruct (nth_error (w_bodies w) i) as [b|] eqn:Ei; simpl; auto. f_equal.
    rewrite Ha, (v3_at_cat3 _ _ (b_v b)).
    - rewrite map_nth. assert (Q : nth i (w_bodies w) b = b) by now apply nth_error_nth.
      rewrite Q. apply with_v_same.
    - rewrite map_length. eapply nth_error_lt; eauto. }
  rewrite E. destruct w; reflexivity.
Qed.

Lemma aligned_forget w w' :
  map forget (w_bodies w') = map forget (w_bodies w) -> w_v w' = w_v w -> aligned w -> aligned w'.
Proof.
  unfold aligned. intros H Hv Ha. rewrite (map_forget b_v forget_v _ _ H). congruence.
Qed.

Lemma set_p_v (b : body T) p : b_v (set_p b p) = b_v b.
Proof. unfold set_p. destruct (b_kind b); try reflexivity; destruct (neqb _ _); reflexivity. Qed.
Lemma set_p_p (b : body T) p : b_p (set_p b p) = p.
Proof. unfold set_p. destruct (b_kind b); try reflexivity; destruct (neqb _ _); reflexivity. Qed.

Lemma aligned_exec fuel o hd e ops w w' :
  handler_frame hd -> aligned w -> exec fuel o hd e ops w = Ok w' -> aligned w'.
Proof.
  intros Hf Hi H. eapply (exec_invariant fuel o hd e aligned); eauto.
  2:{ intros a v a' _ Hs. eapply set_v_aligned; eauto. }
  intros a dt a' Ha Hs. eapply (step_dt_pieces aligned); try exact Hs; auto.
  - intros b v b' _ Hv. eapply set_v_aligned; eauto.
  - intros b d b' Hb Hm. apply move_all_inv in Hm. destruct Hm as [js ->]. unfold aligned in *. simpl.
    rewrite Hb, map_map. f_equal. apply map_ext. intros c. symmetry. apply set_p_v.
  - intros b sp sr b' Hb Hm. apply rewind_inv in Hm. destruct Hm as [js ->]. unfold aligned in *. simpl.
    rewrite Hb. f_equal. symmetry. apply mapi_map. intros. apply set_p_v.
  - intros b b' Hb Hc. eapply aligned_forget; [eapply find_contacts_frame; eauto| |exact Hb].
    apply find_contacts_inv in Hc. destruct Hc as (?&?&?& ->). reflexivity.
Qed.

Lemma world_init_aligned o hd heap bodies cons dt eps tol fd ps st w :
  handler_frame hd -> world_init o hd heap bodies cons dt eps tol fd ps st = Ok w -> aligned w.
Proof.
  intros Hf H0. unfold world_init in H0. destruct bodies as [|b0 bs0] eqn:Eb; [discriminate|].
  bind_inv H0 as js Ej. bind_inv H0 as w1 E1. bind_inv H0 as w2 E2.
  destruct (st && _); [discriminate|]. inversion H0; subst w2; clear H0.
  eapply aligned_forget; [eapply find_contacts_frame; eauto| |eapply set_v_aligned; eauto].
  apply find_contacts_inv in E2. destruct E2 as (?&?&?& ->). reflexivity.
Qed.

Lemma world_set_p_reads w p i b :
  nth_error (w_bodies w) i = Some b ->
  nth_error (w_bodies (world_set_p w p)) i = Some (set_p b (v3_at p i)).
Proof. intros H. unfold world_set_p. simpl. now rewrite mapi_nth, H. Qed.

Lemma apply_forces_layout w t fs :
  world_apply_forces w t = Ok fs ->
  length fs = 3 * length (w_bodies w) /\
  forall i b, nth_error (w_bodies w) i = Some b ->
              body_apply_forces (w_heap w) b t = Ok (v3_at fs i).
Proof.
  unfold world_apply_forces. intros H. bind_inv H as l El. inversion H; subst.
  pose proof (mapM_Ok_length _ _ _ El) as Hl. split.
  - rewrite cat3_length. lia.
  - intros i b Hi. destruct (mapM_Ok_nth _ _ _ El i b Hi) as (f & Hf & E).
    rewrite E. f_equal. rewrite (v3_at_cat3 _ _ f) by (eapply nth_error_lt; eauto).
    symmetry. now apply nth_error_nth.
Qed.

Lemma aligned_reads w i b :
  aligned w -> nth_error (w_bodies w) i = Some b -> b_v b = v3_at (w_v w) i.
Proof.
  unfold aligned. intros Ha Hi.
  rewrite Ha, (v3_at_cat3 _ _ (b_v b)) by (rewrite map_length; eapply nth_error_lt; eauto).
  rewrite map_nth. f_equal. symmetry. now apply nth_error_nth.
Qed.

Lemma set_v_spec w v w' :
  set_v w v = Ok w' ->
  w_v w' = v /\ length (w_bodies w') = length (w_bodies w) /\ w_contacts w' = w_contacts w /\
  w_t w' = w_t w /\ w_joints w' = w_joints w /\
  forall i b, nth_error (w_bodies w) i = Some b ->
    nth_error (w_bodies w') i = Some (with_v b (v3_at v i)).
Proof.
  intros H. pose proof (set_v_reads w v w') as Hr. apply set_v_inv in H as H'.
  destruct H' as [_ E]. repeat split; try (subst w'; reflexivity).
  - subst w'. simpl. apply mapi_length'.
  - intros i b. now apply Hr.
Qed.

Lemma world_set_p_spec w p :
  length (w_bodies (world_set_p w p)) = length (w_bodies w) /\
  forall i b, nth_error (w_bodies w) i = Some b ->
    exists b', nth_error (w_bodies (world_set_p w p)) i = Some b' /\
      b' = set_p b (v3_at p i) /\ b_p b' = v3_at p i /\ b_v b' = b_v b.
Proof.
  split; [apply mapi_length'|]. intros i b Hi. exists (set_p b (v3_at p i)).
  split; [now apply world_set_p_reads|]. split; [reflexivity|]. split; [apply set_p_p|apply set_p_v].
Qed.

End LayoutFacts.
