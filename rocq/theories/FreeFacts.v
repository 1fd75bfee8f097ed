(** A body without contacts and constraints: Newton's law *)
From Coq Require Import List Arith ZArith Bool Reals Lra Lia.
From Verif Require Import Num Tensor Utils Bodies Forces Constraints Contacts World Lapack Pdipm Lcp Engines Spec GeoSpec JointSpec EngineSpec
     RBase ResFacts LinAlg LapackSpec KktSpec PdipmSpec WorldFacts HandlerFacts LayoutFacts HistFacts SysFacts RewindFacts JointFacts JeFacts
     CacheFacts BodyReach GeomFacts PdipmFacts PdipmLoop SolverFacts EngineFacts ContactSys EngineBalance MomentumFacts PostFacts HeldFacts.
Import ListNotations.
Open Scope R_scope.

(** the motion of body [i] alone *)
Definition alone (w : world R) (i : nat) (u : v3 R) : vecR := cat3 (mapi (fun k (_ : body R) => if Nat.eqb k i then u else (0, (0, 0))) (w_bodies w)).
Lemma alone_length w i u : length (alone w i u) = (3 * length (w_bodies w))%nat.
Proof. unfold alone. now rewrite cat3_length, mapi_length'. Qed.
Lemma alone_at w i u k : (k < length (w_bodies w))%nat -> v3_at (alone w i u) k = if Nat.eqb k i then u else (0, (0, 0)).
Proof.
  intros Hk. unfold alone. rewrite (v3_at_cat3 _ _ (0, (0, 0))) by (rewrite mapi_length'; exact Hk).
  destruct (nth_error (w_bodies w) k) as [b|] eqn:E; [|apply nth_error_None in E; lia].
  apply nth_error_nth with (d := (0, (0, 0))). rewrite mapi_nth, E. reflexivity.
Qed.
Lemma Rsum_single {A} (l : list A) (f : nat -> A -> R) i b : nth_error l i = Some b -> (forall k, k <> i -> forall a, f k a = 0) -> Rsum (mapi f l) = f i b.
Proof.
  intros Hb Hz. unfold mapi. assert (G : forall l k j, (k + j)%nat = i -> nth_error l j = Some b -> Rsum (mapi_from k f l) = f i b).
  { clear l Hb. induction l as [|a l IH]; intros k j Hk Hj; [destruct j; discriminate|]. cbn [mapi_from Rsum fold_right]. destruct j as [|j].
    - injection Hj as ->. assert (k = i) by lia. subst k. replace (fold_right Rplus 0 (mapi_from (S i) f l)) with 0; [ring|].
      assert (Q : forall l k, (i < k)%nat -> fold_right Rplus 0 (mapi_from k f l) = 0).
      { clear - Hz. induction l as [|a l IH]; intros k Hk; [reflexivity|]. cbn [mapi_from fold_right]. rewrite IH by lia. rewrite Hz by lia. ring. }
      symmetry. apply Q. lia.
    - rewrite Hz by lia. change (fold_right Rplus 0 (mapi_from (S k) f l)) with (Rsum (mapi_from (S k) f l)). rewrite (IH (S k) j) by (auto; lia). ring. }
  apply (G l 0%nat i); auto.
Qed.

Section Engine.
Variables (bs : list (body R)) (js : list (joint R)) (J0 : list jent) (w : world R).
Hypothesis HS : sound bs js J0 w.
Notation n := (3 * length (w_bodies w))%nat.

Lemma free_body i b dt f v imps y : length f = n -> untouched w i -> nth_error (w_bodies w) i = Some b -> balance w dt f v imps y (vzeros n) ->
  body_momentum b (v3_at v i) = v3add (body_momentum b (b_v b)) (v3scale dt (v3_at f i)).
Proof.
  intros Lf [Uc Uj] Hb (_ & _ & B). assert (Hi : (i < length (w_bodies w))%nat) by (apply nth_error_Some; congruence).
  assert (Zero : forall u k, k <> i -> v3_at (alone w i u) k = (0, (0, 0))).
  { intros u k Hk. destruct (Nat.lt_ge_cases k (length (w_bodies w))) as [L|L].
    - rewrite alone_at by exact L. apply Nat.eqb_neq in Hk. now rewrite Hk.
    - unfold v3_at, vget. rewrite !nth_overflow by (rewrite alone_length; lia). reflexivity. }
  assert (Kin : forall u x, kinetic w (alone w i u) x = b_inertia b * (fst u * fst (v3_at x i)) + b_mass b * component (snd u) (snd (v3_at x i))).
  { intros u x. unfold kinetic. rewrite (Rsum_single _ _ i b Hb).
    - rewrite alone_at, Nat.eqb_refl by exact Hi. reflexivity.
    - intros k Hk a. rewrite Zero by exact Hk. unfold component. cbn [fst snd]. ring. }
  assert (Df : forall u, dot (alone w i u) f = d3 u (v3_at f i)).
  { intros u. rewrite (dot_mapi (w_bodies w)) by (auto using alone_length). rewrite (Rsum_single _ _ i b Hb).
    - now rewrite alone_at, Nat.eqb_refl by exact Hi.
    - intros k Hk a. rewrite Zero by exact Hk. unfold d3. cbn [fst snd]. ring. }
  assert (Cp : forall u, contact_power (w_contacts w) imps (alone w i u) = 0).
  { intros u. apply contact_power_zero. intros c Hc. destruct (Uc c Hc) as [U1 U2]. unfold relative_velocity. rewrite !Zero by auto.
    unfold point_velocity, v2sub. cbn [fst snd]. rnum. apply f_equal2; ring. }
  assert (Cv : forall u, dot y (constraint_velocity w (alone w i u)) = 0).
  { intros u. apply constraint_velocity_zero. intros j i1 i2 Hin. destruct (Uj j i1 i2 Hin) as [U1 U2].
    assert (P0 : forall p : v2 R, point_velocity (0, (0, 0)) p = (0, 0)) by (intros [p q]; unfold point_velocity; cbn [fst snd]; rnum; apply f_equal2; ring).
    unfold entry_vel. destruct (nth_error (w_bodies w) i1) as [b1|]; [|constructor]. rewrite Zero by auto.
    assert (O : forall a, i2 = Some a -> v3_at (alone w i u) a = (0, (0, 0))) by (intros a ->; apply Zero; congruence).
    unfold measured. destruct (j_kind j); destruct i2 as [a|]; try (rewrite (O a eq_refl)); try destruct (nth_error (w_bodies w) a) as [b2|]; rewrite ?P0;
      unfold v2l, v2sub; cbn [fst snd app]; rnum; repeat (apply Forall_cons; [ring|]); apply Forall_nil. }
  assert (E : forall u, b_inertia b * (fst u * fst (v3_at v i)) + b_mass b * component (snd u) (snd (v3_at v i)) =
     b_inertia b * (fst u * fst (b_v b)) + b_mass b * component (snd u) (snd (b_v b)) + dt * d3 u (v3_at f i)).
  { intros u. specialize (B (alone w i u) (alone_length w i u)). rewrite !Kin, Df, Cp, Cv, dot_zeros_l in B. rewrite <- (aligned_reads _ _ _ (so_v _ _ _ _ HS) Hb) in B. lra. }
  pose proof (E (1, (0, 0))) as E1. pose proof (E (0, (1, 0))) as E2. pose proof (E (0, (0, 1))) as E3. unfold component, d3 in *. cbn [fst snd] in *.
  unfold body_momentum, v3add, v3scale, v2add, v2scale. cbn [fst snd]. rnum. apply f_equal2; [lra|apply f_equal2; lra].
Qed.
End Engine.
