(** Kinetic energy under the law of contact *)
From Coq Require Import List Arith ZArith Bool Reals Lra Lia Psatz.
From Verif Require Import Num Tensor Utils Bodies Forces Constraints Contacts World Lapack Pdipm Lcp Engines Spec GeoSpec JointSpec EngineSpec
     RBase ResFacts LinAlg LapackSpec KktSpec PdipmSpec WorldFacts HandlerFacts LayoutFacts HistFacts SysFacts RewindFacts JointFacts JeFacts
     CacheFacts BodyReach PdipmFacts PdipmLoop SolverFacts EngineFacts ContactSys EngineBalance ContactLaw.
Import ListNotations.
Open Scope R_scope.

Lemma cauchy_schwarz (x y : vecR) : length x = length y -> dot x y <= norm2 x * norm2 y.
Proof.
  intros H. unfold norm2. rewrite <- sqrt_mult by apply dot_self_nonneg.
  destruct (Rle_lt_dec (dot x y) 0) as [N|P]; [pose proof (sqrt_pos (dot x x * dot y y)); lra|].
  rewrite <- (sqrt_Rsqr (dot x y)) by lra. apply sqrt_le_1; [apply Rle_0_sqr|pose proof (dot_self_nonneg x); pose proof (dot_self_nonneg y); nra|]. unfold Rsqr.
  assert (Q : forall t, 0 <= dot x x - 2 * t * dot x y + t * t * dot y y).
  { intros t. pose proof (dot_self_nonneg (vadd x (vscale (- t) y))) as Q.
    rewrite dot_vadd_l, !dot_vadd_r in Q by vlen. rewrite !dot_vscale_l, !dot_vscale_r in Q. rewrite (dot_comm y x) in Q. lra. }
  pose proof (dot_self_nonneg y) as Py. destruct (Req_dec (dot y y) 0) as [Z|NZ].
  - specialize (Q ((dot x x + 1) / (2 * dot x y))). rewrite Z in *. 
    assert (E : 2 * ((dot x x + 1) / (2 * dot x y)) * dot x y = dot x x + 1) by (field; lra). nra.
  - specialize (Q (dot x y / dot y y)).
    assert (E : dot x x - 2 * (dot x y / dot y y) * dot x y + dot x y / dot y y * (dot x y / dot y y) * dot y y = dot x x - dot x y * dot x y / dot y y) by (field; auto).
    rewrite E in Q. assert (E2 : dot x y * dot x y / dot y y * dot y y = dot x y * dot x y) by (field; auto). nra.
Qed.
Lemma dot_err (e x : vecR) r : length e = length x -> norm2 e <= r -> dot e x <= r * norm2 x.
Proof. intros H He. pose proof (cauchy_schwarz e x H). pose proof (norm2_nonneg x). nra. Qed.

Section K.
Variable w : world R.
Hypothesis HM : w_M w = world_M (w_bodies w).
Notation n := (3 * length (w_bodies w))%nat.
Lemma M_length : length (w_M w) = n.
Proof. rewrite HM. apply (wf_world_M (w_bodies w)). Qed.
Lemma kinetic_symm x y : kinetic w x y = kinetic w y x.
Proof.
  clear HM. unfold kinetic, mapi. apply (f_equal Rsum). generalize 0%nat. induction (w_bodies w) as [|b l IH]; intros k; [reflexivity|]. cbn [mapi_from]. apply f_equal2; [unfold component; ring|apply IH].
Qed.
Lemma kinetic_sub_r x y z : length x = n -> length y = n -> length z = n -> kinetic w x (vsub y z) = kinetic w x y - kinetic w x z.
Proof.
  intros Hx Hy Hz. rewrite <- !kinetic_dot by (auto; vlen). rewrite !vsub_vadd, mv_vadd, mv_vopp by vlen.
  pose proof M_length. rewrite dot_vadd_r by (rewrite ?vopp_length, !mv_length; lia). rewrite dot_vopp_r. ring.
Qed.
Lemma kinetic_pos x : Forall (fun b : body R => 0 <= b_mass b /\ 0 <= b_inertia b) (w_bodies w) -> 0 <= kinetic w x x.
Proof.
  clear HM. unfold kinetic, mapi. generalize 0%nat. induction (w_bodies w) as [|b l IH]; intros k H; [cbn; lra|]. apply Forall_cons_iff in H. destruct H as [[H1 H2] H].
  cbn [mapi_from Rsum fold_right]. specialize (IH (S k) H). unfold Rsum in IH. unfold component in *.
  pose proof (Rle_0_sqr (fst (v3_at x k))) as A1. pose proof (Rle_0_sqr (fst (snd (v3_at x k)))) as A2. pose proof (Rle_0_sqr (snd (snd (v3_at x k)))) as A3. unfold Rsqr in *.
  pose proof (Rmult_le_pos _ _ H2 A1) as B1. assert (A4 : 0 <= fst (snd (v3_at x k)) * fst (snd (v3_at x k)) + snd (snd (v3_at x k)) * snd (snd (v3_at x k))) by lra.
  pose proof (Rmult_le_pos _ _ H1 A4) as B2. lra.
Qed.
End K.

(** power sums *)
Definition imp (m : R * R * R * R) : R * R := let '(l, b1, b2, _) := m in (l, b1 - b2).
Definition law r w v c (m : R * R * R * R) : Prop := let '(l, b1, b2, g) := m in contact_law r w v c l b1 b2 g.
Lemma power_inelastic r w v (m : nat -> R * R * R * R) cs : forall k,
  (forall i c, nth_error cs i = Some c -> mixed w b_rest c = 0 /\ law r w v c (m (k + i)%nat)) ->
  contact_power cs (map (fun i => imp (m i)) (seq k (length cs))) v <=
  r * Rsum (map (fun i => let '(l, b1, b2, _) := m i in 3 + l + b1 + b2) (seq k (length cs))).
Proof.
  unfold contact_power. induction cs as [|c cs IH]; intros k H; [cbn; lra|]. cbn [length seq map map2 Rsum fold_right].
  specialize (IH (S k)). unfold Rsum in IH. rewrite Rmult_plus_distr_l. apply Rplus_le_compat.
  - destruct (H 0%nat c eq_refl) as [He L]. rewrite Nat.add_0_r in L. unfold law in L. destruct (m k) as [[[l b1] b2] g]. cbn [imp fst snd].
    destruct L as [S1 S2 S3 S4 S5 S6 S7]. rewrite He in S3. fold (normal_velocity v c) (slip_velocity v c). assert (0 <= g * (b1 + b2)) by nra. lra.
  - apply IH. intros i c' Hc'. specialize (H (S i) c' Hc'). now rewrite Nat.add_succ_r in H.
Qed.
Definition normal_power (cs : list (contact R)) (imps : list (R * R)) (x : vecR) : R := Rsum (map2 (fun c im => fst im * normal_velocity x c) cs imps).
Lemma power_elastic r e w v (m : nat -> R * R * R * R) cs : forall k,
  (forall i c, nth_error cs i = Some c -> mixed w b_rest c = e /\ law r w v c (m (k + i)%nat)) ->
  normal_power cs (map (fun i => imp (m i)) (seq k (length cs))) v + e * normal_power cs (map (fun i => imp (m i)) (seq k (length cs))) (w_v w) <=
  r * Rsum (map (fun i => let '(l, b1, b2, _) := m i in 1 + l) (seq k (length cs))).
Proof.
  unfold normal_power. induction cs as [|c cs IH]; intros k H; [cbn; lra|]. cbn [length seq map map2 Rsum fold_right].
  specialize (IH (S k)). unfold Rsum in IH.
  assert (IH' : forall i c', nth_error cs i = Some c' -> mixed w b_rest c' = e /\ law r w v c' (m (S k + i)%nat)). { intros i c' Hc'. specialize (H (S i) c' Hc'). now rewrite Nat.add_succ_r in H. }
  specialize (IH IH'). destruct (H 0%nat c eq_refl) as [He L]. rewrite Nat.add_0_r in L. unfold law in L. destruct (m k) as [[[l b1] b2] g]. cbn [imp fst snd].
  destruct L as [S1 S2 S3 S4 S5 S6 S7]. rewrite He in S3. lra.
Qed.
Lemma power_frictionless r w v (m : nat -> R * R * R * R) x cs : forall k,
  (forall i c, nth_error cs i = Some c -> mixed w b_fric c = 0 /\ law r w v c (m (k + i)%nat)) ->
  contact_power cs (map (fun i => imp (m i)) (seq k (length cs))) x <=
  normal_power cs (map (fun i => imp (m i)) (seq k (length cs))) x + r * Rsum (map (fun c => Rabs (slip_velocity x c)) cs).
Proof.
  unfold normal_power, contact_power. induction cs as [|c cs IH]; intros k H; [cbn; lra|]. cbn [length seq map map2 Rsum fold_right].
  specialize (IH (S k)). unfold Rsum in IH.
  assert (IH' : forall i c', nth_error cs i = Some c' -> mixed w b_fric c' = 0 /\ law r w v c' (m (S k + i)%nat)). { intros i c' Hc'. specialize (H (S i) c' Hc'). now rewrite Nat.add_succ_r in H. }
  specialize (IH IH'). destruct (H 0%nat c eq_refl) as [He L]. rewrite Nat.add_0_r in L. unfold law in L. destruct (m k) as [[[l b1] b2] g]. cbn [imp fst snd].
  destruct L as [S1 S2 S3 S4 S5 S6 S7]. rewrite He in S4. fold (normal_velocity x c) (slip_velocity x c).
  assert (P : (b1 - b2) * slip_velocity x c <= r * Rabs (slip_velocity x c)).
  { pose proof (Rle_abs (slip_velocity x c)). pose proof (Rle_abs (- slip_velocity x c)). rewrite Rabs_Ropp in *. pose proof (Rabs_pos (slip_velocity x c)).
    assert (b1 * slip_velocity x c <= b1 * Rabs (slip_velocity x c)) by nra. assert (b2 * - slip_velocity x c <= b2 * Rabs (slip_velocity x c)) by nra. nra. }
  lra.
Qed.
Lemma slack_le nc z r : 0 <= r -> Forall (fun a => 0 <= a) z -> r * Rsum (map (fun i => let '(l, b1, b2, _) := multipliers nc z i in 1 + l) (seq 0 nc)) <= r * slack nc z.
Proof.
  intros Hr Hz. unfold slack. apply Rmult_le_compat_l; [exact Hr|]. generalize (seq 0 nc). intros l. induction l as [|i l IH]; [cbn; lra|]. cbn [map Rsum fold_right]. apply Rplus_le_compat; [|exact IH].
  unfold multipliers. pose proof (vget_nonneg z (nc + 2 * i) Hz). pose proof (vget_nonneg z (nc + 2 * i + 1) Hz). lra.
Qed.

Section Energy.
Variables (w : world R) (dt : R) (f v : vecR) (z y err : vecR) (r : R).
Notation n := (3 * length (w_bodies w))%nat.
Notation neq := (w_num_constraints w).
Notation nc := (length (w_contacts w)).
Hypothesis HM : w_M w = world_M (w_bodies w).
Hypothesis Hm : Forall (fun b : body R => 0 <= b_mass b /\ 0 <= b_inertia b) (w_bodies w).
Hypothesis Lv : length v = n.
Hypothesis Lv0 : length (w_v w) = n.
Hypothesis Lf : length f = n.
Hypothesis Le : length err = n.
Hypothesis HB : balance w dt f v (impulses nc z) y err.
Hypothesis HC : constraint_velocity w v = vzeros neq.
Hypothesis HL : forall i c, nth_error (w_contacts w) i = Some c -> law r w v c (multipliers nc z i).
Hypothesis Hr : norm2 err <= r.
Hypothesis Hz : Forall (fun a => 0 <= a) z.

Lemma energy_inelastic : (forall c, In c (w_contacts w) -> mixed w b_rest c = 0) ->
  kinetic_energy w v <= kinetic_energy w (w_v w) + dt * dot v f + r * (slack nc z + norm2 v).
Proof.
  intros He. destruct HB as (_ & _ & B). specialize (B v Lv). rewrite HC, dot_zeros_r in B.
  assert (P : contact_power (w_contacts w) (impulses nc z) v <= r * slack nc z).
  { unfold impulses, slack. apply (power_inelastic r w v (multipliers nc z) (w_contacts w) 0). intros i c Hc. split; [apply He; eapply nth_error_In; exact Hc|]. now apply HL. }
  pose proof (dot_err err v r ltac:(unfold vec in *; congruence) Hr) as D.
  pose proof (kinetic_pos w (vsub v (w_v w)) Hm) as Q. rewrite kinetic_sub_r in Q by (auto; vlen). rewrite !(kinetic_symm w (vsub _ _)) in Q. rewrite !kinetic_sub_r in Q by (auto; vlen).
  rewrite (kinetic_symm w (w_v w) v) in Q. unfold kinetic_energy. lra.
Qed.
Lemma energy_frictionless e : 0 <= e <= 1 -> (forall c, In c (w_contacts w) -> mixed w b_rest c = e /\ mixed w b_fric c = 0) ->
  constraint_velocity w (w_v w) = vzeros neq ->
  (1 + e) * kinetic_energy w v <= (1 + e) * kinetic_energy w (w_v w) + dt * dot (vadd v (vscale e (w_v w))) f +
    r * (slack nc z + slip_total w v + e * slip_total w (w_v w) + norm2 v + e * norm2 (w_v w)).
Proof.
  intros [He0 He1] Hc HC0. destruct HB as (_ & _ & B). pose proof (B v Lv) as A. pose proof (B (w_v w) Lv0) as B0. rewrite HC, dot_zeros_r in A. rewrite HC0, dot_zeros_r in B0.
  assert (Pr : 0 <= r) by (pose proof (norm2_nonneg err); lra).
  pose proof (power_elastic r e w v (multipliers nc z) (w_contacts w) 0) as P1.
  pose proof (power_frictionless r w v (multipliers nc z) v (w_contacts w) 0) as P2. pose proof (power_frictionless r w v (multipliers nc z) (w_v w) (w_contacts w) 0) as P3.
  change (map (fun i => imp (multipliers nc z i)) (seq 0 nc)) with (impulses nc z) in *.
  fold (slip_total w v) (slip_total w (w_v w)) in *.
  specialize (P1 ltac:(intros i c Hi; split; [apply (Hc c); eapply nth_error_In; exact Hi|now apply HL])).
  specialize (P2 ltac:(intros i c Hi; split; [apply (Hc c); eapply nth_error_In; exact Hi|now apply HL])).
  specialize (P3 ltac:(intros i c Hi; split; [apply (Hc c); eapply nth_error_In; exact Hi|now apply HL])).
  pose proof (slack_le nc z r Pr Hz) as SL.
  pose proof (dot_err err v r ltac:(unfold vec in *; congruence) Hr) as D1. pose proof (dot_err err (w_v w) r ltac:(unfold vec in *; congruence) Hr) as D2.
  pose proof (kinetic_pos w (vsub v (w_v w)) Hm) as Q. rewrite kinetic_sub_r in Q by (auto; vlen). rewrite !(kinetic_symm w (vsub _ _)) in Q. rewrite !kinetic_sub_r in Q by (auto; vlen).
  rewrite (kinetic_symm w (w_v w) v) in Q, B0. rewrite dot_vadd_l, dot_vscale_l by vlen. unfold kinetic_energy.
  set (Kvv := kinetic w v v) in *. set (Kv0 := kinetic w v (w_v w)) in *. set (K00 := kinetic w (w_v w) (w_v w)) in *.
  set (N' := normal_power (w_contacts w) (impulses nc z) v) in *. set (N0 := normal_power (w_contacts w) (impulses nc z) (w_v w)) in *.
  (* A = Kvv - Kv0, B = Kv0 - K00, A >= B, (1+e)(A+B) = 2(A+eB) - (1-e)(A-B) *)
  assert (E1 : (1 - e) * ((Kvv - Kv0) - (Kv0 - K00)) >= 0) by (apply Rle_ge, Rmult_le_pos; lra).
  assert (E2 : (Kvv - Kv0) + e * (Kv0 - K00) <= dt * dot v f + e * (dt * dot (w_v w) f) +
     r * (slack nc z + slip_total w v + e * slip_total w (w_v w) + norm2 v + e * norm2 (w_v w))).
  { assert (U1 : Kvv - Kv0 <= dt * dot v f + N' + r * slip_total w v + r * norm2 v) by lra.
    assert (U2 : Kv0 - K00 <= dt * dot (w_v w) f + N0 + r * slip_total w (w_v w) + r * norm2 (w_v w)) by lra.
    assert (U3 : e * (Kv0 - K00) <= e * (dt * dot (w_v w) f + N0 + r * slip_total w (w_v w) + r * norm2 (w_v w))) by (apply Rmult_le_compat_l; lra). nra. }
  nra.
Qed.
End Energy.
