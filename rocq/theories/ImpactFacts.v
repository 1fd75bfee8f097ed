(** The response at the only contact of a body (lemmas for C75) *)
From Coq Require Import List Arith ZArith Bool Reals Lra Lia.
From Verif Require Import Num Tensor Utils Bodies Forces Constraints Contacts World Lapack Pdipm Lcp Engines Spec GeoSpec JointSpec EngineSpec WellSpec ContactSpec ImpactSpec
     RBase ResFacts LinAlg LapackSpec KktSpec PdipmSpec WorldFacts HandlerFacts LayoutFacts HistFacts SysFacts RewindFacts JointFacts JeFacts
     CacheFacts BodyReach GeomFacts PdipmFacts PdipmLoop SolverFacts EngineFacts ContactSys EngineBalance MomentumFacts PostFacts HeldFacts FreeFacts.
Import ListNotations.
Open Scope R_scope.

Lemma power_single cs imps x k c : length imps = length cs -> nth_error cs k = Some c ->
  (forall k' c', nth_error cs k' = Some c' -> k' <> k -> relative_velocity x c' = (0, 0)) ->
  contact_power cs imps x = fst (nth k imps (0, 0)) * component (c_normal c) (relative_velocity x c) +
                            snd (nth k imps (0, 0)) * component (tangent (c_normal c)) (relative_velocity x c).
Proof.
  unfold contact_power. revert imps k. induction cs as [|c0 cs IH]; intros imps k L Hk Hz; [destruct k; discriminate|].
  destruct imps as [|im imps]; [discriminate|]. unfold Rsum in *. cbn [map2 fold_right]. destruct k as [|k].
  - cbn in Hk. injection Hk as ->. cbn [nth].
    assert (Z : fold_right Rplus 0 (map2 (fun c im => fst im * component (c_normal c) (relative_velocity x c) + snd im * component (tangent (c_normal c)) (relative_velocity x c)) cs imps) = 0).
    { assert (Q : forall c', In c' cs -> relative_velocity x c' = (0, 0)). { intros c' Hin. apply In_nth_error in Hin. destruct Hin as [k' Hk']. apply (Hz (S k') c' Hk'). discriminate. }
      clear -Q. revert imps. induction cs as [|a cs IH]; intros imps; [reflexivity|]. destruct imps as [|im imps]; [reflexivity|]. cbn [map2 fold_right]. rewrite IH by (intros; apply Q; now right). rewrite (Q a) by now left.
      unfold component. cbn [fst snd]. ring. }
    rewrite Z. ring.
  - cbn [nth]. rewrite (IH imps k); [|now injection L|exact Hk|].
    + rewrite (Hz O c0 eq_refl ltac:(discriminate)). unfold component at 1 2. cbn [fst snd]. ring.
    + intros k' c' Hk' Hne. apply (Hz (S k') c' Hk'). congruence.
Qed.

Lemma v3_ext (a b : v3 R) : fst a = fst b -> fst (snd a) = fst (snd b) -> snd (snd a) = snd (snd b) -> a = b.
Proof. destruct a as [a1 [a2 a3]], b as [b1 [b2 b3]]. cbn. now intros -> -> ->. Qed.

Section Engine.
Variables (bs : list (body R)) (js : list (joint R)) (J0 : list jent) (w : world R).
Hypothesis HS : sound bs js J0 w.
Notation n := (3 * length (w_bodies w))%nat.

(** the power of the contacts in a motion of body [i] alone *)
Lemma kicked i b dt f v imps y k c s p : length f = n -> unjoined w i -> nth_error (w_bodies w) i = Some b -> only_contact w i k c ->
  (c_i1 c = i /\ s = 1 /\ p = c_p1 c \/ c_i2 c = i /\ s = -1 /\ p = c_p2 c) -> 0 < b_mass b -> 0 < b_inertia b ->
  balance w dt f v imps y (vzeros n) ->
  v3_at v i = v3add (free_velocity dt (v3_at f i) b) (v3scale s (kick b p (impulse_of (c_normal c) (fst (nth k imps (0, 0))) (snd (nth k imps (0, 0)))))).
Proof.
  intros Lf Uj Hb [Hk Uc] Hside Hm HI (Li & _ & B). assert (Hi : (i < length (w_bodies w))%nat) by (apply nth_error_Some; congruence).
  assert (Hpair : c_i1 c <> c_i2 c). { pose proof (so_pairs _ _ _ _ HS) as P. rewrite Forall_forall in P. exact (proj1 (P c (nth_error_In _ _ Hk))). }
  assert (Zero : forall u k, k <> i -> v3_at (alone w i u) k = (0, (0, 0))).
  { intros u k' Hk'. destruct (Nat.lt_ge_cases k' (length (w_bodies w))) as [L|L].
    - rewrite alone_at by exact L. apply Nat.eqb_neq in Hk'. now rewrite Hk'.
    - unfold v3_at, vget. rewrite !nth_overflow by (rewrite alone_length; lia). reflexivity. }
  assert (P0 : forall p : v2 R, point_velocity (0, (0, 0)) p = (0, 0)) by (intros [a d]; unfold point_velocity; cbn [fst snd]; rnum; apply f_equal2; ring).
  assert (Kin : forall u x, kinetic w (alone w i u) x = b_inertia b * (fst u * fst (v3_at x i)) + b_mass b * component (snd u) (snd (v3_at x i))).
  { intros u x. unfold kinetic. rewrite (Rsum_single _ _ i b Hb).
    - rewrite alone_at, Nat.eqb_refl by exact Hi. reflexivity.
    - intros k' Hk' a. rewrite Zero by exact Hk'. unfold component. cbn [fst snd]. ring. }
  assert (Df : forall u, dot (alone w i u) f = d3 u (v3_at f i)).
  { intros u. rewrite (dot_mapi (w_bodies w)) by (auto using alone_length). rewrite (Rsum_single _ _ i b Hb).
    - now rewrite alone_at, Nat.eqb_refl by exact Hi.
    - intros k' Hk' a. rewrite Zero by exact Hk'. unfold d3. cbn [fst snd]. ring. }
  assert (Rv : forall u, relative_velocity (alone w i u) c = v2scale s (point_velocity u p)).
  { intros u. unfold relative_velocity. destruct Hside as [(E & -> & ->)|(E & -> & ->)].
    - rewrite (Zero u (c_i2 c)) by congruence. rewrite E, alone_at, Nat.eqb_refl, P0 by exact Hi. unfold v2sub, v2scale, point_velocity. cbn [fst snd]. rnum. apply f_equal2; ring.
    - rewrite (Zero u (c_i1 c)) by congruence. rewrite E, alone_at, Nat.eqb_refl, P0 by exact Hi. unfold v2sub, v2scale, point_velocity. cbn [fst snd]. rnum. apply f_equal2; ring. }
  set (l := fst (nth k imps (0, 0))) in *. set (t := snd (nth k imps (0, 0))) in *.
  assert (Cp : forall u, contact_power (w_contacts w) imps (alone w i u) = l * component (c_normal c) (v2scale s (point_velocity u p)) + t * component (tangent (c_normal c)) (v2scale s (point_velocity u p))).
  { intros u. rewrite (power_single _ _ _ k c Li Hk).
    - rewrite Rv. reflexivity.
    - intros k' c' Hk' Hne. destruct (Uc k' c' Hk' Hne) as [U1 U2]. unfold relative_velocity. rewrite !Zero by auto. rewrite !P0. unfold v2sub. cbn [fst snd]. rnum. apply f_equal2; ring. }
  assert (Cv : forall u, dot y (constraint_velocity w (alone w i u)) = 0).
  { intros u. apply constraint_velocity_zero. intros j i1 i2 Hin. destruct (Uj j i1 i2 Hin) as [U1 U2].
    unfold entry_vel. destruct (nth_error (w_bodies w) i1) as [b1|]; [|constructor]. rewrite Zero by auto.
    assert (O : forall a, i2 = Some a -> v3_at (alone w i u) a = (0, (0, 0))) by (intros a ->; apply Zero; congruence).
    unfold measured. destruct (j_kind j); destruct i2 as [a|]; try (rewrite (O a eq_refl)); try destruct (nth_error (w_bodies w) a) as [b2|]; rewrite ?P0;
      unfold v2l, v2sub; cbn [fst snd app]; rnum; repeat (apply Forall_cons; [ring|]); apply Forall_nil. }
  assert (E : forall u, b_inertia b * (fst u * fst (v3_at v i)) + b_mass b * component (snd u) (snd (v3_at v i)) =
     b_inertia b * (fst u * fst (b_v b)) + b_mass b * component (snd u) (snd (b_v b)) + dt * d3 u (v3_at f i) +
     (l * component (c_normal c) (v2scale s (point_velocity u p)) + t * component (tangent (c_normal c)) (v2scale s (point_velocity u p)))).
  { intros u. specialize (B (alone w i u) (alone_length w i u)). rewrite !Kin, Df, Cp, Cv, dot_zeros_l in B. rewrite <- (aligned_reads _ _ _ (so_v _ _ _ _ HS) Hb) in B. lra. }
  pose proof (E (1, (0, 0))) as E1. pose proof (E (0, (1, 0))) as E2. pose proof (E (0, (0, 1))) as E3.
  unfold component, d3, point_velocity, tangent, v2scale in *. cbn [fst snd] in *. rnum. 
  unfold free_velocity, acceleration, kick, impulse_of, v3add, v3scale, v2add, v2scale, cross_2d, tangent. 
  apply v3_ext; cbn [fst snd]; rnum.
  - apply (Rmult_eq_reg_l (b_inertia b)); [|lra]. field_simplify; [|lra]. field_simplify in E1. lra.
  - apply (Rmult_eq_reg_l (b_mass b)); [|lra]. field_simplify; [|lra]. field_simplify in E2. lra.
  - apply (Rmult_eq_reg_l (b_mass b)); [|lra]. field_simplify; [|lra]. field_simplify in E3. lra.
Qed.

Lemma total_zero v i : (i < length (w_bodies w))%nat -> (exists j, In (j, i, None) (w_joints w) /\ j_kind j = JTotal) -> constraint_velocity w v = vzeros (w_num_constraints w) -> v3_at v i = (0, (0, 0)).
Proof.
  intros Hi (j & Hin & Ej) Hc. assert (F : Forall (fun a => a = 0) (constraint_velocity w v)).
  { rewrite Hc. apply Forall_forall. intros a Ha. now apply repeat_spec in Ha. }
  assert (G : Forall (fun a => a = 0) (entry_vel w v (j, i, None))).
  { apply Forall_forall. intros a Ha. rewrite Forall_forall in F. apply F. rewrite cv_entries. apply in_flat_map. eauto. }
  unfold entry_vel in G. destruct (nth_error (w_bodies w) i) as [b|] eqn:Eb; [|apply nth_error_None in Eb; lia].
  rewrite Ej in G. unfold measured in G. destruct (v3_at v i) as [a [d e]]. cbn in G. inversion G as [|? ? A1 G1]; subst. inversion G1 as [|? ? A2 G2]; subst. inversion G2 as [|? ? A3 G3]; subst. reflexivity.
Qed.
End Engine.

(** Newton's and Coulomb's law at one contact of two bodies with inverse masses [m1 m2] and inverse
    inertias [q1 q2] *)
Section Pair.
Variables (nn p1 p2 : v2 R) (u1 u2 : v3 R) (m1 q1 m2 q2 : R).
Hypothesis Hn : unit_vec nn.
Hypothesis H1 : q1 = 0 \/ cross_2d p1 nn = 0.
Hypothesis H2 : q2 = 0 \/ cross_2d p2 nn = 0.
Hypothesis Hm : 0 < m1 + m2.
Hypothesis Hq1 : 0 <= q1.
Hypothesis Hq2 : 0 <= q2.
Let sq (p : v2 R) := fst p * fst p + snd p * snd p.
Let vel (m q : R) (p J : v2 R) : v3 R := (q * cross_2d p J, v2scale m J).
Let rel (a b : v3 R) : v2 R := v2sub (point_velocity a p1) (point_velocity b p2).
Let after l t : v2 R := rel (v3add u1 (vel m1 q1 p1 (impulse_of nn l t))) (v3add u2 (v3scale (-1) (vel m2 q2 p2 (impulse_of nn l t)))).
Lemma cross_sq q p : q = 0 \/ cross_2d p nn = 0 -> q * (cross_2d p (tangent nn) * cross_2d p (tangent nn)) = q * sq p.
Proof.
  intros [->|H]; [ring|]. destruct p as [a b], nn as [c d]. unfold unit_vec, cross_2d, tangent, sq in *. cbn [fst snd] in *. rnum.
  f_equal. transitivity ((a * a + b * b) * (c * c + d * d) - (a * d - b * c) * (a * d - b * c)); [ring|]. rewrite H, Hn. ring.
Qed.
Lemma normal_after l t : component nn (after l t) = component nn (rel u1 u2) + (m1 + m2) * l.
Proof.
  assert (C : forall q p, q = 0 \/ cross_2d p nn = 0 -> q * cross_2d p nn = 0) by (intros q p [->|H]; [ring|rewrite H; ring]).
  pose proof (C q1 p1 H1) as C1. pose proof (C q2 p2 H2) as C2. unfold unit_vec in Hn. clear C H1 H2.
  unfold after, rel, vel, component, impulse_of, v3add, v3scale, v2add, v2sub, v2scale, point_velocity, cross_2d, tangent in *.
  destruct u1 as [a1 [a2 a3]], u2 as [b1 [b2 b3]], p1 as [x1 y1], p2 as [x2 y2], nn as [c d]. cbn [fst snd] in *. rnum.
  match goal with |- ?L = ?R => assert (Q : L - R = (m1 + m2) * l * (c * c + d * d - 1) +
     (q1 * (x1 * d - y1 * c)) * (x1 * (l * d + t * - c) - y1 * (l * c + t * d)) + (q2 * (x2 * d - y2 * c)) * (x2 * (l * d + t * - c) - y2 * (l * c + t * d))) by ring end.
  rewrite Hn, C1, C2 in Q. lra.
Qed.
Lemma slip_after l t : component (tangent nn) (after l t) = component (tangent nn) (rel u1 u2) + (m1 + m2 + q1 * sq p1 + q2 * sq p2) * t.
Proof.
  rewrite <- (cross_sq q1 p1 H1), <- (cross_sq q2 p2 H2).
  assert (C : forall q p, q = 0 \/ cross_2d p nn = 0 -> q * cross_2d p nn = 0) by (intros q p [->|H]; [ring|rewrite H; ring]).
  pose proof (C q1 p1 H1) as C1. pose proof (C q2 p2 H2) as C2. unfold unit_vec in Hn. clear C H1 H2.
  unfold after, rel, vel, component, impulse_of, v3add, v3scale, v2add, v2sub, v2scale, point_velocity, cross_2d, tangent in *.
  destruct u1 as [a1 [a2 a3]], u2 as [b1 [b2 b3]], p1 as [x1 y1], p2 as [x2 y2], nn as [c d]. cbn [fst snd] in *. rnum.
  match goal with |- ?L = ?R => assert (Q : L - R = (m1 + m2) * t * (c * c + d * d - 1) +
     (q1 * (x1 * d - y1 * c)) * (l * (x1 * - c - y1 * d)) + (q2 * (x2 * d - y2 * c)) * (l * (x2 * - c - y2 * d))) by ring end.
  rewrite Hn, C1, C2 in Q. lra.
Qed.
Lemma sq_pos p : 0 <= sq p. Proof. unfold sq. nra. Qed.
Lemma yields : 0 < m1 + m2 + q1 * sq p1 + q2 * sq p2.
Proof. pose proof (sq_pos p1). pose proof (sq_pos p2). pose proof (Rmult_le_pos _ _ Hq1 H). pose proof (Rmult_le_pos _ _ Hq2 H0). lra. Qed.
End Pair.

(** the laws determine the impulses *)
Lemma newton_impulse k un e wn l : 0 < k -> 0 <= l -> - e * wn <= un + k * l -> (0 < l -> un + k * l = - e * wn) -> l = Rmax 0 (- (un + e * wn) / k).
Proof.
  intros Hk Hl Hr Hc. destruct Hl as [Hl| <-].
  - specialize (Hc Hl). assert (E : - (un + e * wn) / k = l) by (replace (un + e * wn) with (- (k * l)) by lra; field; lra). rewrite E. symmetry. apply Rmax_right. lra.
  - symmetry. apply Rmax_left. apply (Rmult_le_reg_r k); [exact Hk|]. unfold Rdiv. rewrite Rmult_assoc, Rinv_l by lra. lra.
Qed.
Lemma coulomb_impulse k ut a t : 0 < k -> Rabs t <= a -> t * (ut + k * t) = - a * Rabs (ut + k * t) -> t = clamp a (- ut / k).
Proof.
  intros Hk Ha Hs. assert (A : - a <= t <= a) by (split; [pose proof (Rle_abs (- t)); rewrite Rabs_Ropp in *|pose proof (Rle_abs t)]; lra).
  assert (M : forall x y, x < y * k -> x / k < y) by (intros x y H; apply (Rmult_lt_reg_r k); [exact Hk|]; unfold Rdiv; rewrite Rmult_assoc, Rinv_l by lra; lra).
  assert (M' : forall x y, y * k < x -> y < x / k) by (intros x y H; apply (Rmult_lt_reg_r k); [exact Hk|]; unfold Rdiv; rewrite Rmult_assoc, Rinv_l by lra; lra).
  unfold clamp. destruct (Rtotal_order (ut + k * t) 0) as [L|[E|L]].
  - rewrite Rabs_left in Hs by exact L. assert (t = a) as -> by (apply (Rmult_eq_reg_r (ut + k * t)); [|lra]; rewrite Hs; ring).
    assert (a < - ut / k) by (apply M'; lra). rewrite Rmin_left, Rmax_right; lra.
  - assert (Et : - ut / k = t) by (replace ut with (- (k * t)) by lra; field; lra). rewrite Et, Rmin_right, Rmax_right; lra.
  - rewrite Rabs_right in Hs by lra. assert (t = - a) as -> by (apply (Rmult_eq_reg_r (ut + k * t)); [|lra]; rewrite Hs; ring).
    assert (- ut / k < - a) by (apply M; lra). rewrite Rmin_right, Rmax_left; lra.
Qed.
