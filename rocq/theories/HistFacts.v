(** Relations between the bodies before and after a history of calls *)
From Coq Require Import List Arith Bool Lia.
From Verif Require Import Num Tensor Bodies Constraints Contacts World Spec ResFacts WorldFacts
     HandlerFacts LayoutFacts.
Import ListNotations.

Section Hist.
Context {T : Type} {N : Num T}.
Implicit Types (w : world T) (o : oracle T) (hd : handler T) (e : engine T) (b : body T).

(** what can happen to one body while the world runs *)
Record body_steps (RB : body T -> body T -> Prop) : Prop := mkSteps {
  bs_trans : forall a b c, RB a b -> RB b c -> RB a c;
  bs_v : forall b v, RB b (with_v b v);
  bs_p : forall b p, RB b (set_p b p);
  bs_forget : forall b b', forget b = forget b' -> RB b b' }.

Lemma bs_refl RB (H : body_steps RB) b : RB b b.
Proof. apply (bs_forget _ H). reflexivity. Qed.

Lemma Forall2_refl' RB (H : body_steps RB) l : Forall2 RB l l.
Proof. induction l; constructor; auto. now apply bs_refl. Qed.
Lemma Forall2_trans' RB (H : body_steps RB) l1 l2 l3 :
  Forall2 RB l1 l2 -> Forall2 RB l2 l3 -> Forall2 RB l1 l3.
Proof.
  intros H1; revert l3; induction H1; intros l3 H3; inversion H3; subst; constructor.
  - eapply bs_trans; eauto.
  - auto.
Qed.
Lemma Forall2_forget' RB (H : body_steps RB) l1 l2 :
  map forget l2 = map forget l1 -> Forall2 RB l1 l2.
Proof.
  revert l2; induction l1 as [|a l1 IH]; intros [|b l2] E; simpl in E; try discriminate; constructor.
  - apply (bs_forget _ H). congruence.
  - apply IH. congruence.
Qed.
Lemma Forall2_mapi (RB : body T -> body T -> Prop) f l :
  (forall i b, RB b (f i b)) -> Forall2 RB l (mapi f l).
Proof.
  intros H. unfold mapi. generalize 0. induction l; intros n; simpl; constructor; auto.
Qed.
Lemma Forall2_map_r (RB : body T -> body T -> Prop) f l :
  (forall b, RB b (f b)) -> Forall2 RB l (map f l).
Proof. intros H. induction l; simpl; constructor; auto. Qed.

Lemma step_dt_bodies RB (H : body_steps RB) fuel o hd e w0 w dt w' :
  handler_frame hd -> Forall2 RB (w_bodies w0) (w_bodies w) ->
  step_dt fuel o hd e w dt = Ok w' -> Forall2 RB (w_bodies w0) (w_bodies w').
Proof.
  intros Hf Hw Hs.
  eapply (step_dt_pieces (fun a => Forall2 RB (w_bodies w0) (w_bodies a))); try exact Hs; auto.
  - intros a v a' Ha Hv. apply set_v_inv in Hv. destruct Hv as [_ ->]. simpl.
    eapply Forall2_trans'; eauto. apply Forall2_mapi. intros. apply (bs_v _ H).
  - intros a d a' Ha Hm. apply move_all_inv in Hm. destruct Hm as [js ->]. simpl.
    eapply Forall2_trans'; eauto. apply Forall2_map_r. intros. apply (bs_p _ H).
  - intros a sp sr a' Ha Hm. apply rewind_inv in Hm. destruct Hm as [js ->]. simpl.
    eapply Forall2_trans'; eauto. apply Forall2_mapi. intros. apply (bs_p _ H).
  - intros a a' Ha Hc. eapply Forall2_trans'; eauto. apply Forall2_forget'; auto.
    eapply find_contacts_frame; eauto.
Qed.

Lemma set_v_bodies RB (H : body_steps RB) w v w' :
  set_v w v = Ok w' -> Forall2 RB (w_bodies w) (w_bodies w').
Proof.
  intros Hv. apply set_v_inv in Hv. destruct Hv as [_ ->]. simpl.
  apply Forall2_mapi. intros. apply (bs_v _ H).
Qed.

Lemma exec_bodies RB (H : body_steps RB) fuel o hd e ops w w' :
  handler_frame hd -> exec fuel o hd e ops w = Ok w' -> Forall2 RB (w_bodies w) (w_bodies w').
Proof.
  intros Hf He.
  eapply (exec_invariant fuel o hd e (fun a => Forall2 RB (w_bodies w) (w_bodies a))); try exact He.
  - intros a dt a' Ha Hs. eapply step_dt_bodies; eauto.
  - intros a v a' Ha Hv. eapply Forall2_trans'; eauto. eapply set_v_bodies; eauto.
  - now apply Forall2_refl'.
Qed.

Lemma world_init_bodies RB (H : body_steps RB) o hd heap bodies cons dt eps tol fd ps st w :
  handler_frame hd -> world_init o hd heap bodies cons dt eps tol fd ps st = Ok w ->
  Forall2 RB bodies (w_bodies w).
Proof.
  intros Hf H0. unfold world_init in H0. destruct bodies as [|b0 bs0] eqn:Eb; [discriminate|].
  bind_inv H0 as js Ej. bind_inv H0 as w1 E1. bind_inv H0 as w2 E2.
  destruct (st && _); [discriminate|]. inversion H0; subst w2; clear H0.
  eapply Forall2_trans'; [exact H| |].
  - exact (set_v_bodies _ H _ _ _ E1).
  - apply Forall2_forget'; auto. eapply find_contacts_frame; eauto.
Qed.

(** the attributes that never change *)
Definition same_attrs b b' : Prop :=
  b_id b' = b_id b /\ b_mass b' = b_mass b /\ b_inertia b' = b_inertia b /\ b_fric b' = b_fric b /\
  b_rest b' = b_rest b /\ b_eps b' = b_eps b /\ b_forces b' = b_forces b /\
  g_shape (b_geom b') = g_shape (b_geom b) /\ g_no_contact (b_geom b') = g_no_contact (b_geom b).
Lemma same_attrs_steps : body_steps same_attrs.
Proof.
  constructor.
  - unfold same_attrs. intros a b c H1 H2. intuition congruence.
  - unfold same_attrs. intros. repeat split.
  - intros b p. unfold same_attrs, set_p. destruct (b_kind b); try (repeat split; fail);
    destruct (neqb _ _); repeat split.
  - unfold same_attrs. intros b b' E.
    assert (G : forall c : body T, b_id c = b_id (forget c) /\ b_mass c = b_mass (forget c) /\ b_inertia c = b_inertia (forget c)
      /\ b_fric c = b_fric (forget c) /\ b_rest c = b_rest (forget c) /\ b_eps c = b_eps (forget c) /\ b_forces c = b_forces (forget c) /\ b_geom c = b_geom (forget c)).
    { intros [? [] ? ? ? ? ? ? ? ? ?]; cbn; repeat split. }
    destruct (G b) as (A1&A2&A3&A4&A5&A6&A7&A8), (G b') as (B1&B2&B3&B4&B5&B6&B7&B8).
    rewrite A1, A2, A3, A4, A5, A6, A7, A8, B1, B2, B3, B4, B5, B6, B7, B8, E. repeat split.
Qed.

Lemma attrs_exec fuel o hd e ops w w' :
  handler_frame hd -> exec fuel o hd e ops w = Ok w' -> Forall2 same_attrs (w_bodies w) (w_bodies w').
Proof. intros. eapply exec_bodies; eauto. apply same_attrs_steps. Qed.

End Hist.
