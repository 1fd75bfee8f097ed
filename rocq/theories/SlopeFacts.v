(** A body that stands on fixed bodies (lemmas for C91) *)
From Coq Require Import List Arith ZArith Bool Reals Lra Lia Psatz.
From Verif Require Import Num Tensor Utils Bodies Forces Constraints Contacts World Lapack Pdipm Lcp Engines Spec GeoSpec JointSpec ContactSpec EngineSpec WellSpec ImpactSpec SlopeSpec
     RBase ResFacts LinAlg LapackSpec KktSpec PdipmSpec WorldFacts HandlerFacts LayoutFacts HistFacts SysFacts RewindFacts JointFacts JeFacts
     CacheFacts BodyReach GeomFacts PdipmFacts PdipmLoop SolverFacts EnergyFacts EngineFacts EngineProps ContactSys EngineBalance MomentumFacts PostFacts HeldFacts FreeFacts ImpactFacts.
Import ListNotations.
Open Scope R_scope.

Definition touchb (i : nat) (c : contact R) : bool := Nat.eqb (c_i1 c) i || Nat.eqb (c_i2 c) i.
Lemma touchb_iff i c : touchb i c = true <-> touches i c.
Proof. unfold touchb, touches. rewrite orb_true_iff, !Nat.eqb_eq. reflexivity. Qed.
(** sum of [g] over the contacts of body [i] *)
Definition feet_sum (i : nat) (g : contact R -> R * R -> R) (cs : list (contact R)) (imps : list (R * R)) : R :=
  Rsum (map2 (fun c im => if touchb i c then g c im else 0) cs imps).
Lemma feet_cons i g c im cs imps : feet_sum i g (c :: cs) (im :: imps) = (if touchb i c then g c im else 0) + feet_sum i g cs imps.
Proof. reflexivity. Qed.

Lemma unit_parts (n u : v2 R) : unit_vec n -> u = v2add (v2scale (component (tangent n) u) (tangent n)) (v2scale (component n u) n).
Proof.
  unfold unit_vec, component, tangent, v2add, v2scale. destruct n as [a b], u as [x y]. cbn [fst snd]. rnum. intros H. apply f_equal2.
  - transitivity ((a * a + b * b) * x); [rewrite H; ring|ring].
  - transitivity ((a * a + b * b) * y); [rewrite H; ring|ring].
Qed.

Section Body.
Variables (bs : list (body R)) (js : list (joint R)) (J0 : list jent) (w : world R).
Hypothesis HS : sound bs js J0 w.
Variables (i : nat) (b : body R) (n : v2 R) (h mu : R).
Hypothesis Hb : nth_error (w_bodies w) i = Some b.
Hypothesis HT : stands w i n h mu.
Notation N := (3 * length (w_bodies w))%nat.
Notation tn := (tangent n).

Lemma idx : (i < length (w_bodies w))%nat. Proof. apply nth_error_Some. congruence. Qed.
Lemma sides c : In c (w_contacts w) -> c_i1 c <> c_i2 c.
Proof. intros H. pose proof (so_pairs _ _ _ _ HS) as P. rewrite Forall_forall in P. exact (proj1 (P c H)). Qed.
Lemma alone_zero u k : k <> i -> v3_at (alone w i u) k = (0, (0, 0)).
Proof.
  intros Hk. destruct (Nat.lt_ge_cases k (length (w_bodies w))) as [L|L].
  - rewrite alone_at by exact L. apply Nat.eqb_neq in Hk. now rewrite Hk.
  - unfold v3_at, vget. rewrite !nth_overflow by (rewrite alone_length; lia). reflexivity.
Qed.
Lemma alone_self u : v3_at (alone w i u) i = u.
Proof. rewrite alone_at by exact idx. now rewrite Nat.eqb_refl. Qed.
Lemma pv0 (p : v2 R) : point_velocity (0, (0, 0)) p = (0, 0).
Proof. destruct p as [a d]. unfold point_velocity. cbn [fst snd]. rnum. apply f_equal2; ring. Qed.

(** velocities at a foot when the bodies move with [x], the fixed bodies resting *)
Lemma foot_velocity x c u : In c (w_contacts w) -> touches i c -> v3_at x i = u -> v3_at x (partner i c) = (0, (0, 0)) ->
  normal_velocity x c = component n (snd u) + fst u * stance i n c /\ slip_velocity x c = component tn (snd u) + fst u * h.
Proof.
  intros Hc Ht <- Hp. destruct (st_feet _ _ _ _ _ HT c Hc Ht) as (Hn & Hh & _). unfold normal_velocity, slip_velocity, relative_velocity.
  assert (E : forall a d e f, d * e + a * f = - h -> - h = d * e + a * f) by (intros; lra). clear E.
  unfold into, foot, partner, stance in *. unfold foot. destruct (Nat.eqb_spec (c_i1 c) i) as [E|E].
  - rewrite E, Hp, pv0. revert Hh. rewrite Hn. destruct (v3_at x i) as [o [vx vy]], (c_p1 c) as [px py], n as [a d].
    unfold component, tangent, v2sub, point_velocity. cbn [fst snd]. rnum. intros Hh. split; [ring|]. replace h with (- (a * px + d * py)) by lra. ring.
  - assert (E2 : c_i2 c = i) by (destruct Ht; [congruence|assumption]). rewrite E2, Hp, pv0. revert Hh.
    assert (Hn' : c_normal c = v2opp n) by (rewrite <- Hn; destruct (c_normal c) as [x1 y1]; unfold v2opp; cbn [fst snd]; rnum; apply f_equal2; ring). rewrite Hn'.
    destruct (v3_at x i) as [o [vx vy]], (c_p2 c) as [px py], n as [a d].
    unfold component, tangent, v2sub, v2opp, point_velocity. cbn [fst snd]. rnum. intros Hh. split; [ring|]. replace h with (- (a * px + d * py)) by lra. ring.
Qed.
Lemma partner_other c : In c (w_contacts w) -> touches i c -> partner i c <> i.
Proof. intros Hc Ht. pose proof (sides c Hc). unfold partner. destruct (Nat.eqb_spec (c_i1 c) i); [congruence|]. assumption. Qed.

Let L imps := feet_sum i (fun _ im => fst im) (w_contacts w) imps.
Let P imps := feet_sum i (fun c im => fst im * stance i n c) (w_contacts w) imps.
Let Q imps := feet_sum i (fun _ im => snd im) (w_contacts w) imps.

Lemma power_alone imps u : length imps = length (w_contacts w) ->
  contact_power (w_contacts w) imps (alone w i u) = component n (snd u) * L imps + fst u * P imps + (component tn (snd u) + fst u * h) * Q imps.
Proof.
  unfold L, P, Q, contact_power. assert (F : forall c, In c (w_contacts w) -> In c (w_contacts w)) by auto. revert imps F. generalize (w_contacts w) at 1 3 4 5 6 7. intros cs.
  induction cs as [|c cs IH]; intros imps F Li; destruct imps as [|im imps]; try discriminate Li; [unfold feet_sum, Rsum; cbn; ring|].
  rewrite !feet_cons. unfold Rsum in *. cbn [map2 fold_right]. rewrite IH; [|intros; apply F; now right|now injection Li]. clear IH.
  assert (Hc : In c (w_contacts w)) by (apply F; now left).
  destruct (touchb i c) eqn:T.
  - apply touchb_iff in T. destruct (foot_velocity (alone w i u) c u Hc T (alone_self u) (alone_zero u _ (partner_other c Hc T))) as [E1 E2].
    unfold normal_velocity in E1. unfold slip_velocity in E2. rewrite E1, E2. ring.
  - assert (Z : relative_velocity (alone w i u) c = (0, 0)).
    { unfold relative_velocity. rewrite !alone_zero, !pv0; [unfold v2sub; cbn [fst snd]; rnum; apply f_equal2; ring| |];
      intros E; assert (touchb i c = true) by (apply touchb_iff; unfold touches; auto); congruence. }
    rewrite Z. unfold component at 1 2. cbn [fst snd]. ring.
Qed.

Lemma dot_alone f u : length f = N -> dot (alone w i u) f = d3 u (v3_at f i).
Proof.
  intros Lf. rewrite (dot_mapi (w_bodies w)) by (auto using alone_length). rewrite (Rsum_single _ _ i b Hb).
  - now rewrite alone_self.
  - intros k' Hk' a. rewrite alone_zero by exact Hk'. unfold d3. cbn [fst snd]. ring.
Qed.
Lemma part_norm err (u : v3 R) : length err = N -> d3 u u = 1 -> Rabs (d3 u (v3_at err i)) <= norm2 err.
Proof.
  intros Le Hu. assert (G : forall u : v3 R, d3 u u = 1 -> d3 u (v3_at err i) <= norm2 err).
  { clear u Hu. intros u Hu. rewrite <- (dot_alone err u Le), (LinAlg.dot_comm (alone w i u)). eapply Rle_trans; [apply (dot_err err (alone w i u) (norm2 err)); [rewrite alone_length; exact Le|apply Rle_refl]|].
    assert (E : norm2 (alone w i u) = 1) by (unfold norm2; rewrite (dot_alone (alone w i u) u (alone_length w i u)), alone_self, Hu; apply sqrt_1). rewrite E. lra. }
  apply Rabs_le. split; [|exact (G u Hu)]. pose proof (G (v3scale (-1) u)) as G'.
  assert (E : d3 (v3scale (-1) u) (v3scale (-1) u) = 1) by (rewrite <- Hu; destruct u as [x [y z]]; unfold d3, v3scale, v2scale; cbn [fst snd]; rnum; ring).
  specialize (G' E). assert (E' : d3 (v3scale (-1) u) (v3_at err i) = - d3 u (v3_at err i)) by (destruct u as [x [y z]]; unfold d3, v3scale, v2scale; cbn [fst snd]; rnum; ring). lra.
Qed.

(** Newton's and Euler's laws for the body *)
Lemma newton dt f v imps y err : length f = N -> length err = N -> balance w dt f v imps y err ->
  b_inertia b * fst (v3_at v i) = b_inertia b * fst (b_v b) + dt * fst (v3_at f i) + P imps + h * Q imps + fst (v3_at err i) /\
  b_mass b * component n (snd (v3_at v i)) = b_mass b * component n (snd (b_v b)) + dt * component n (snd (v3_at f i)) + L imps + component n (snd (v3_at err i)) /\
  b_mass b * component tn (snd (v3_at v i)) = b_mass b * component tn (snd (b_v b)) + dt * component tn (snd (v3_at f i)) + Q imps + component tn (snd (v3_at err i)).
Proof.
  intros Lf Le (Li & _ & B).
  assert (Kin : forall u x, kinetic w (alone w i u) x = b_inertia b * (fst u * fst (v3_at x i)) + b_mass b * component (snd u) (snd (v3_at x i))).
  { intros u x. unfold kinetic. rewrite (Rsum_single _ _ i b Hb).
    - now rewrite alone_self.
    - intros k' Hk' a. rewrite alone_zero by exact Hk'. unfold component. cbn [fst snd]. ring. }
  assert (Df : forall f, length f = N -> forall u, dot (alone w i u) f = d3 u (v3_at f i)).
  { intros g Lg u. rewrite (dot_mapi (w_bodies w)) by (auto using alone_length). rewrite (Rsum_single _ _ i b Hb).
    - now rewrite alone_self.
    - intros k' Hk' a. rewrite alone_zero by exact Hk'. unfold d3. cbn [fst snd]. ring. }
  assert (Cv : forall u, dot y (constraint_velocity w (alone w i u)) = 0).
  { intros u. apply constraint_velocity_zero. intros j i1 i2 Hin. destruct (st_free _ _ _ _ _ HT j i1 i2 Hin) as [U1 U2].
    unfold entry_vel. destruct (nth_error (w_bodies w) i1) as [b1|]; [|constructor]. rewrite alone_zero by auto.
    assert (O : forall a, i2 = Some a -> v3_at (alone w i u) a = (0, (0, 0))) by (intros a ->; apply alone_zero; congruence).
    unfold measured. destruct (j_kind j); destruct i2 as [a|]; try (rewrite (O a eq_refl)); try destruct (nth_error (w_bodies w) a) as [b2|]; rewrite ?pv0;
      unfold v2l, v2sub; cbn [fst snd app]; rnum; repeat (apply Forall_cons; [ring|]); apply Forall_nil. }
  assert (E : forall u, b_inertia b * (fst u * fst (v3_at v i)) + b_mass b * component (snd u) (snd (v3_at v i)) =
     b_inertia b * (fst u * fst (b_v b)) + b_mass b * component (snd u) (snd (b_v b)) + dt * d3 u (v3_at f i) +
     (component n (snd u) * L imps + fst u * P imps + (component tn (snd u) + fst u * h) * Q imps) + d3 u (v3_at err i)).
  { intros u. specialize (B (alone w i u) (alone_length w i u)). rewrite !Kin, Df, Cv, (power_alone imps u Li) in B by exact Lf.
    rewrite (LinAlg.dot_comm err), Df in B by exact Le. rewrite <- (aligned_reads _ _ _ (so_v _ _ _ _ HS) Hb) in B. lra. }
  pose proof (E (1, (0, 0))) as E1. pose proof (E (0, n)) as E2. pose proof (E (0, tn)) as E3. pose proof (st_unit _ _ _ _ _ HT) as U. clear E B Kin Df Cv.
  unfold component, d3, unit_vec, tangent in *. destruct n as [a d]. cbn [fst snd] in *. rnum.
  assert (U2 : a * d + d * - a = 0) by ring. assert (U3 : d * a + - a * d = 0) by ring. assert (U4 : d * d + - a * - a = 1) by lra.
  rewrite U, U3 in E2. rewrite U2, U4 in E3. repeat split; lra.
Qed.

(** the exact response *)
Section Exact.
Variables (v : vecR) (imps : list (R * R)).
Hypothesis Hv : forall c, In c (w_contacts w) -> touches i c -> v3_at v (partner i c) = (0, (0, 0)).
Hypothesis Hco : Forall2 (fun c im => coulomb w v c (fst im) (snd im)) (w_contacts w) imps.
Hypothesis Hspin : fst (v3_at (w_v w) i) = 0.
Hypothesis Hlift : component n (snd (v3_at (w_v w) i)) = 0.
Hypothesis Hmu : 0 <= mu.
Let om := fst (v3_at v i).
Let vn := component n (snd (v3_at v i)).
Let sl := component tn (snd (v3_at v i)) + om * h.

Lemma foot_law c l t : In c (w_contacts w) -> touches i c -> coulomb w v c l t ->
  0 <= l /\ 0 <= vn + om * stance i n c /\ l * (vn + om * stance i n c) = 0 /\ Rabs t <= mu * l /\ t * sl = - (mu * l) * Rabs sl.
Proof.
  intros Hc Ht [A1 A2 A3 A4 A5]. destruct (foot_velocity v c _ Hc Ht eq_refl (Hv c Hc Ht)) as [E1 E2].
  destruct (st_feet _ _ _ _ _ HT c Hc Ht) as (_ & _ & Em & _ & Z). destruct (foot_velocity (w_v w) c _ Hc Ht eq_refl Z) as [E3 _].
  rewrite Hspin, Hlift, Rmult_0_l, Rplus_0_l in E3. rewrite E1, E3 in A2, A3. rewrite E2, Em in A5. rewrite Em in A4.
  fold om vn sl in A2, A3, A5. split; [exact A1|]. split; [lra|]. split; [|split; assumption].
  destruct A1 as [A1| <-]; [|ring]. rewrite (A3 A1). ring.
Qed.
Lemma sums : 0 <= L imps /\ vn * L imps + om * P imps = 0 /\ Rabs (Q imps) <= mu * L imps /\ Q imps * sl = - (mu * L imps) * Rabs sl.
Proof.
  unfold L, P, Q. assert (F : forall c, In c (w_contacts w) -> In c (w_contacts w)) by auto. revert F Hco. generalize imps. generalize (w_contacts w) at 1 3 4 5 6 7 8 9 10. intros cs.
  induction cs as [|c cs IH]; intros ims F H; inversion H as [|c0 im cs0 ims0 Hc Hr]; subst; [unfold feet_sum, Rsum; cbn; rewrite Rabs_R0; repeat split; lra|].
  rewrite !feet_cons. destruct (IH ims0 ltac:(intros; apply F; now right) Hr) as (I1 & I2 & I3 & I4).
  set (a1 := feet_sum i (fun _ im => fst im) cs ims0) in *. set (a2 := feet_sum i (fun c im => fst im * stance i n c) cs ims0) in *. set (a3 := feet_sum i (fun _ im => snd im) cs ims0) in *.
  clearbody a1 a2 a3. destruct (touchb i c) eqn:T.
  - apply touchb_iff in T. destruct (foot_law c _ _ (F c (or_introl eq_refl)) T Hc) as (J1 & J2 & J3 & J4 & J5).
    destruct im as [l t]. cbn [fst snd] in *. clear Hc H Hr F IH. split; [lra|]. split; [nra|]. split.
    + eapply Rle_trans; [apply Rabs_triang|]. lra.
    + replace ((t + a3) * sl) with (t * sl + a3 * sl) by ring. rewrite J5, I4. ring.
  - rewrite !Rplus_0_l. auto.
Qed.
Lemma lifts : mu * Rabs h * Rabs om <= vn.
Proof.
  destruct (st_left _ _ _ _ _ HT) as (c1 & C1 & T1 & S1). destruct (st_right _ _ _ _ _ HT) as (c2 & C2 & T2 & S2).
  assert (G : forall c, In c (w_contacts w) -> touches i c -> 0 <= vn + om * stance i n c).
  { intros c Hc Ht. apply In_nth_error in Hc. destruct Hc as [k Hk].
    assert (exists l t, coulomb w v c l t) as (l & t & Co).
    { clear -Hco Hk. revert k Hk. induction Hco as [|a im cs ims H F IH]; intros [|k] Hk; try discriminate; [injection Hk as ->; eauto|eauto]. }
    exact (proj1 (proj2 (foot_law c l t (nth_error_In _ _ Hk) Ht Co))). }
  pose proof (G c1 C1 T1) as G1. pose proof (G c2 C2 T2) as G2. clear G.
  set (m := mu * Rabs h) in *. clearbody m. unfold Rabs. destruct (Rcase_abs om); nra.
Qed.
End Exact.
End Body.

Lemma clamp_cases a x : 0 <= a -> (clamp a x = a /\ a <= x) \/ (clamp a x = - a /\ x <= - a) \/ (clamp a x = x /\ - a <= x <= a).
Proof.
  intros H. unfold clamp. destruct (Rle_dec a x); [left; rewrite Rmin_left, Rmax_right; lra|]. rewrite Rmin_right by lra.
  destruct (Rle_dec x (- a)); [right; left; rewrite Rmax_left; lra|right; right; rewrite Rmax_right; lra].
Qed.
Lemma clamp_opp a x : 0 <= a -> clamp a (- x) = - clamp a x.
Proof. intros H. destruct (clamp_cases a x H) as [[E E']|[[E E']|[E E']]], (clamp_cases a (- x) H) as [[F F']|[[F F']|[F F']]]; lra. Qed.
Lemma clamp_scale k a x : 0 < k -> clamp (k * a) (k * x) = k * clamp a x.
Proof.
  intros H. unfold clamp. assert (Em : Rmin (k * a) (k * x) = k * Rmin a x).
  { unfold Rmin. destruct (Rle_dec a x) as [l|l], (Rle_dec (k * a) (k * x)) as [l'|l']; try lra.
    - exfalso. apply l'. apply Rmult_le_compat_l; lra.
    - exfalso. apply l. apply (Rmult_le_reg_l k); lra. }
  rewrite Em, <- RmaxRmult by lra. f_equal. ring.
Qed.
(** what the laws leave *)
Lemma settled m I dt Fn om vn vt L P Q h mu s Ft : 0 < m -> 0 < I -> 0 <= mu -> dt * Fn <= 0 ->
  I * om = P + h * Q -> m * vn = dt * Fn + L -> m * vt = m * s + dt * Ft + Q ->
  0 <= L -> vn * L + om * P = 0 -> Rabs Q <= mu * L -> Q * (vt + om * h) = - (mu * L) * Rabs (vt + om * h) -> mu * Rabs h * Rabs om <= vn ->
  om = 0 /\ vn = 0 /\ L = - (dt * Fn) /\ vt = rubbed (mu * - (dt * Fn) / m) (s + dt * Ft / m).
Proof.
  intros Hm HI Hmu HF E1 E2 E3 HL C1 C2 C3 C4.
  assert (Z : I * (om * om) <= 0).
  { assert (A : om * (h * Q) <= mu * Rabs h * Rabs om * L).
    { eapply Rle_trans; [apply Rle_abs|]. rewrite !Rabs_mult. pose proof (Rabs_pos om). pose proof (Rabs_pos h).
      replace (mu * Rabs h * Rabs om * L) with (Rabs om * (Rabs h * (mu * L))) by ring. apply Rmult_le_compat_l; [assumption|]. apply Rmult_le_compat_l; assumption. }
    assert (B : mu * Rabs h * Rabs om * L <= vn * L) by (apply Rmult_le_compat_r; assumption).
    replace (I * (om * om)) with (om * (I * om)) by ring. rewrite E1. replace (om * (P + h * Q)) with (om * P + om * (h * Q)) by ring. lra. }
  assert (O : om = 0). { assert (om * om <= 0) by nra. nra. } subst om. rewrite Rabs_R0 in C4. assert (Vp : 0 <= vn) by lra. 
  assert (V : vn = 0).
  { assert (C0 : vn * L = 0) by lra. replace L with (m * vn + - (dt * Fn)) in C0 by lra. set (q := - (dt * Fn)) in *. assert (Hq : 0 <= q) by (unfold q; lra). clearbody q.
    clear - C0 Hq Vp Hm. assert (0 <= vn * q) by nra. assert (0 <= vn * vn) by nra. assert (0 <= m * (vn * vn)) by nra. assert (m * (vn * vn) = 0) by lra. assert (vn * vn = 0) by nra. nra. }
  subst vn. assert (EL : L = - (dt * Fn)) by lra. split; [reflexivity|]. split; [reflexivity|]. split; [exact EL|].
  rewrite Rmult_0_l, Rplus_0_r in C3. rewrite EL in C2, C3. assert (Ev : vt = s + dt * Ft / m + Q / m) by (apply (Rmult_eq_reg_l m); [|lra]; rewrite E3; field; lra).
  assert (Im : 0 < / m) by (apply Rinv_0_lt_compat; lra).
  assert (Qm : Q = clamp (mu * - (dt * Fn)) (- (s + dt * Ft / m) / / m)).
  { apply coulomb_impulse; [exact Im|exact C2|]. replace (s + dt * Ft / m + / m * Q) with vt by (rewrite Ev; field; lra). exact C3. }
  rewrite Ev, Qm. unfold rubbed. replace (- (s + dt * Ft / m) / / m) with (- (m * (s + dt * Ft / m))) by (field; lra). set (x := s + dt * Ft / m). set (a := mu * - (dt * Fn)).
  assert (Ha : 0 <= a) by (unfold a; nra). rewrite (clamp_opp a (m * x) Ha). replace (a / m) with (/ m * a) by (unfold Rdiv; ring). 
  replace x with (/ m * (m * x)) at 4 by (field; lra). rewrite clamp_scale by lra. unfold Rdiv. ring.
Qed.

(** *** Coulomb's law of sliding *)
Section Response.
Variables (la : lapack R) (mi : nat) (bs : list (body R)) (js : list (joint R)) (w : world R).
Hypothesis HW : engine_world la mi bs js w.
Variables (dt : R) (f v : vecR) (imps : list (R * R)) (i : nat) (b : body R) (n : v2 R) (h mu s : R) (F : v2 R).
Hypothesis Hf : world_apply_forces w (w_t w) = Ok f.
Hypothesis Hv : response w dt v imps.
Hypothesis Hb : nth_error (w_bodies w) i = Some b.
Hypothesis Hm : 0 < b_mass b.
Hypothesis HI : 0 < b_inertia b.
Hypothesis HT : stands w i n h mu.
Hypothesis Hmu : 0 <= mu.
Hypothesis HF : v3_at f i = (0, F).
Hypothesis Hpress : dt * component n F <= 0.
Hypothesis Hslide : b_v b = (0, v2scale s (tangent n)).

Lemma slides : v3_at v i = (0, v2scale (rubbed (mu * - (dt * component n F) / b_mass b) (s + dt * component (tangent n) F / b_mass b)) (tangent n)).
Proof.
  destruct (engine_world_sound _ _ _ _ _ HW) as (J0 & HS & _). destruct Hv as (f' & y & Ef & Lv & B & Hc & Co). assert (f' = f) as -> by congruence.
  pose proof (st_unit _ _ _ _ _ HT) as U.
  assert (Lf : length f = (3 * length (w_bodies w))%nat) by (apply apply_forces_layout in Hf; exact (proj1 Hf)).
  destruct (newton bs js J0 w HS i b n h mu Hb HT dt f v imps y (vzeros (3 * length (w_bodies w))) Lf (repeat_length _ _) B) as (E1 & E2 & E3).
  assert (Z0 : v3_at (vzeros (3 * length (w_bodies w))) i = (0, (0, 0))).
  { unfold v3_at, vget, vzeros. now rewrite !nth_repeat. }
  rewrite Z0, HF, Hslide in E1, E2, E3. cbn [fst snd] in E1, E2, E3.
  assert (Ra : v3_at (w_v w) i = (0, v2scale s (tangent n))) by (rewrite <- (aligned_reads _ _ _ (so_v _ _ _ _ HS) Hb); exact Hslide).
  assert (N0 : component n (v2scale s (tangent n)) = 0) by (unfold component, v2scale, tangent; destruct n as [a d]; cbn [fst snd]; rnum; ring).
  assert (T0 : component (tangent n) (v2scale s (tangent n)) = s).
  { revert U. unfold unit_vec, component, v2scale, tangent. destruct n as [a d]; cbn [fst snd]; rnum. intros U. transitivity (s * (a * a + d * d)); [ring|rewrite U; ring]. }
  rewrite N0 in E2. rewrite T0 in E3.
  assert (Hp : forall c, In c (w_contacts w) -> touches i c -> v3_at v (partner i c) = (0, (0, 0))).
  { intros c Hc' Ht. destruct (st_feet _ _ _ _ _ HT c Hc' Ht) as (_ & _ & _ & [Lp Xp] & _). exact (total_zero w v _ Lp Xp Hc). }
  destruct (sums w i n h mu HT v imps Hp Co) as (S1 & S2 & S3 & S4); [now rewrite Ra|rewrite Ra; exact N0|].
  pose proof (lifts w i n h mu HT v imps Hp Co ltac:(now rewrite Ra) ltac:(rewrite Ra; exact N0)) as S5.
  assert (C0 : forall u : v2 R, component u (0, 0) = 0) by (intros u; unfold component; cbn [fst snd]; ring).
  rewrite !C0 in *. rewrite !Rmult_0_r in *. rewrite ?Rplus_0_r, ?Rplus_0_l in *.
  destruct (settled _ _ dt (component n F) _ _ _ _ _ _ h mu s (component (tangent n) F) Hm HI Hmu Hpress E1 E2 E3 S1 S2 S3 S4 S5) as (O1 & O2 & _ & O3).
  destruct (v3_at v i) as [om vel]. cbn [fst snd] in *. rewrite O1. f_equal. rewrite (unit_parts n vel U), O2, O3.
  unfold v2add, v2scale. cbn [fst snd]. rnum. apply f_equal2; ring.
Qed.
End Response.

(** *** the point the solver returns *)
Lemma forall2_seq {A B} (P : A -> B -> Prop) (g : nat -> B) l : (forall k a, nth_error l k = Some a -> P a (g k)) -> Forall2 P l (map g (seq 0 (length l))).
Proof.
  revert g. induction l as [|a l IH]; intros g H; [constructor|]. cbn [length seq map]. constructor; [exact (H O a eq_refl)|].
  rewrite <- seq_shift, map_map. apply IH. intros k x Hk. exact (H (S k) x Hk).
Qed.
Lemma rough_law r mu l b1 b2 g u sg : 0 <= r -> 0 <= mu -> 0 <= l -> 0 <= b1 -> 0 <= b2 -> 0 <= g -> l * u <= r * (1 + l) -> Rabs sg <= g + r ->
  g * (mu * l - (b1 + b2)) <= r * (1 + g) -> (b1 - b2) * sg + g * (b1 + b2) <= r * (2 + b1 + b2) ->
  l * u + (b1 - b2) * sg <= r * (4 + (1 + mu) * l + b1 + b2 + g) - mu * l * Rabs sg.
Proof.
  intros Hr Hmu Hl H1 H2 Hg A1 A2 A3 A4. assert (mu * l * Rabs sg <= mu * l * (g + r)) by (apply Rmult_le_compat_l; [nra|exact A2]). nra.
Qed.
Lemma rest_bound m I N Ft om vn vt L P Q h mu r K en et eo : 0 < m -> 0 < I -> 0 <= mu -> 0 <= r -> 0 <= N -> Rabs Ft <= mu * N ->
  I * om = P + h * Q + eo -> m * vn = - N + L + en -> m * vt = Ft + Q + et ->
  vn * L + om * P + Q * (vt + om * h) <= r * K - mu * L * Rabs (vt + om * h) ->
  mu * Rabs h * Rabs om - r <= vn -> Rabs en <= r -> Rabs et <= r -> Rabs eo <= r ->
  I * (om * om) + m * (vn * vn + vt * vt) <= r * (K + N + mu * (m + 1) * Rabs (vt + om * h) + Rabs om + Rabs vn + Rabs vt).
Proof.
  intros Hm HI Hmu Hr HN HF E1 E2 E3 C1 C2 B1 B2 B3. set (sg := vt + om * h) in *.
  assert (T : Rabs vt <= Rabs sg + Rabs h * Rabs om).
  { replace vt with (sg + - (om * h)) by (unfold sg; ring). eapply Rle_trans; [apply Rabs_triang|]. rewrite Rabs_Ropp, Rabs_mult. lra. }
  assert (D : forall a x, Rabs a <= r -> a * x <= r * Rabs x).
  { intros a x Ha. eapply Rle_trans; [apply Rle_abs|]. rewrite Rabs_mult. apply Rmult_le_compat_r; [apply Rabs_pos|exact Ha]. }
  assert (A0 : I * (om * om) + m * (vn * vn + vt * vt) = (vn * L + om * P + Q * sg) + (- N * vn + Ft * vt) + (en * vn + et * vt + eo * om)).
  { transitivity (om * (I * om) + vn * (m * vn) + vt * (m * vt)); [ring|]. rewrite E1, E2, E3. unfold sg. ring. }
  assert (A1 : Ft * vt <= mu * N * (Rabs sg + Rabs h * Rabs om)).
  { eapply Rle_trans; [apply Rle_abs|]. rewrite Rabs_mult. apply Rmult_le_compat; try apply Rabs_pos; assumption. }
  assert (A2 : mu * N * (Rabs h * Rabs om) - N * vn <= N * r) by nra.
  assert (EL : L = N + m * vn - en) by lra.
  assert (A3 : - (mu * L * Rabs sg) <= - (mu * N * Rabs sg) + mu * m * r * Rabs sg + mu * r * Rabs sg).
  { rewrite EL. assert (S0 : 0 <= Rabs sg) by apply Rabs_pos. assert (V : - r <= vn) by (pose proof (Rabs_pos h); pose proof (Rabs_pos om); assert (0 <= mu * Rabs h * Rabs om) by (apply Rmult_le_pos; [apply Rmult_le_pos|]; lra); lra).
    assert (En : en <= r) by (pose proof (Rle_abs en); lra). set (a := mu * Rabs sg) in *. assert (Ha : 0 <= a) by (unfold a; nra).
    replace (mu * (N + m * vn - en) * Rabs sg) with (a * N + m * (a * vn) - a * en) by (unfold a; ring).
    replace (mu * N * Rabs sg) with (a * N) by (unfold a; ring). replace (mu * m * r * Rabs sg) with (m * (a * r)) by (unfold a; ring). replace (mu * r * Rabs sg) with (a * r) by (unfold a; ring).
    assert (a * en <= a * r) by (apply Rmult_le_compat_l; lra). assert (a * - r <= a * vn) by (apply Rmult_le_compat_l; lra). assert (m * (a * - r) <= m * (a * vn)) by (apply Rmult_le_compat_l; lra). lra. }
  pose proof (D en vn B1). pose proof (D et vt B2). pose proof (D eo om B3). rewrite A0. lra.
Qed.

Section Returned.
Variables (la : lapack R) (mi : nat) (bs : list (body R)) (js : list (joint R)) (w : world R).
Hypothesis HL : lapack_ok la.
Hypothesis HW : engine_world la mi bs js w.
Variables (dt : R) (f : vecR) (it : iter R) (r : R) (i : nat) (b : body R) (n : v2 R) (h mu : R) (F : v2 R).
Notation nc := (length (w_contacts w)).
Notation v := (vopp (i_x it)).
Hypothesis Hf : world_apply_forces w (w_t w) = Ok f.
Hypothesis Hv : engine_point la mi w dt it r.
Hypothesis Hb : nth_error (w_bodies w) i = Some b.
Hypothesis Hm : 0 < b_mass b.
Hypothesis HI : 0 < b_inertia b.
Hypothesis HT : stands w i n h mu.
Hypothesis Hmu : 0 <= mu.
Hypothesis HF : v3_at f i = (0, F).
Hypothesis Hdt : 0 <= dt.
Hypothesis Hpress : component n F <= 0.
Hypothesis Hgrip : Rabs (component (tangent n) F) <= mu * - component n F.
Hypothesis Hrest : b_v b = (0, (0, 0)).
Let om := fst (v3_at v i).
Let vel := snd (v3_at v i).

Lemma rests : b_inertia b * (om * om) + b_mass b * component vel vel <=
  r * (strain nc mu (i_z it) + dt * - component n F + mu * (b_mass b + 1) * Rabs (component (tangent n) vel + om * h) + Rabs om + Rabs (component n vel) + Rabs (component (tangent n) vel)).
Proof.
  destruct (engine_world_sound _ _ _ _ _ HW) as (J0 & HS & _). pose proof (st_unit _ _ _ _ _ HT) as U.
  assert (Hne : w_contacts w <> []) by (destruct (st_left _ _ _ _ _ HT) as (c & Hc & _); intros E; rewrite E in Hc; destruct Hc).
  destruct (point_response la mi bs js w dt HL HW Hne it r v Hv eq_refl) as (f' & err & Ef & Lf & Lv & Pz & Le & Ne & B & Hc & La). assert (f' = f) as -> by congruence.
  assert (Hr : 0 <= r) by (eapply Rle_trans; [|exact Ne]; apply norm2_nonneg).
  destruct (newton bs js J0 w HS i b n h mu Hb HT dt f v _ _ err Lf Le B) as (E1 & E2 & E3).
  rewrite HF, Hrest in E1, E2, E3. cbn [fst snd] in E1, E2, E3.
  assert (C0 : forall u : v2 R, component u (0, 0) = 0) by (intros u; unfold component; cbn [fst snd]; ring). rewrite C0 in E2, E3.
  assert (Ra : v3_at (w_v w) i = (0, (0, 0))) by (rewrite <- (aligned_reads _ _ _ (so_v _ _ _ _ HS) Hb); exact Hrest).
  assert (Hp : forall c, In c (w_contacts w) -> touches i c -> v3_at v (partner i c) = (0, (0, 0))).
  { intros c Hc' Ht. destruct (st_feet _ _ _ _ _ HT c Hc' Ht) as (_ & _ & _ & [Lp Xp] & _). exact (total_zero w v _ Lp Xp Hc). }
  set (vn := component n vel). set (vt := component (tangent n) vel). set (sg := vt + om * h).
  assert (FL : forall c l b1 b2 g, In c (w_contacts w) -> touches i c -> contact_law r w v c l b1 b2 g ->
     - r <= vn + om * stance i n c /\ l * (vn + om * stance i n c) + (b1 - b2) * sg <= r * (4 + (1 + mu) * l + b1 + b2 + g) - mu * l * Rabs sg).
  { intros c l b1 b2 g Hi Ht [(A0 & A1 & A2 & A3) A4 A5 A6 A7 A8 A9]. destruct (foot_velocity w i n h mu HT v c _ Hi Ht eq_refl (Hp c Hi Ht)) as [G1 G2].
    destruct (st_feet _ _ _ _ _ HT c Hi Ht) as (_ & _ & Em & _ & Z). destruct (foot_velocity w i n h mu HT (w_v w) c _ Hi Ht Ra Z) as [G3 _].
    cbn [fst snd] in G3. rewrite C0, Rmult_0_l, Rplus_0_l in G3. rewrite G1, G3, Rmult_0_r, Rplus_0_r in A4, A5. rewrite Em in A6, A8. rewrite G2 in A7, A9.
    split; [exact A4|]. apply rough_law; assumption. }
  assert (F2 : Forall2 (fun c m => law r w v c m) (w_contacts w) (map (multipliers nc (i_z it)) (seq 0 nc))) by (apply forall2_seq; intros k c Hk; exact (La k c Hk)).
  assert (Im : impulses nc (i_z it) = map (fun m : R * R * R * R => let '(l, b1, b2, _) := m in (l, b1 - b2)) (map (multipliers nc (i_z it)) (seq 0 nc))) by (unfold impulses; now rewrite map_map).
  assert (St : strain nc mu (i_z it) = Rsum (map (fun m : R * R * R * R => let '(l, b1, b2, g) := m in 4 + (1 + mu) * l + b1 + b2 + g) (map (multipliers nc (i_z it)) (seq 0 nc)))) by (unfold strain; now rewrite map_map).
  rewrite Im in E1, E2, E3. rewrite St. clear Im St. set (ms := map (multipliers nc (i_z it)) (seq 0 nc)) in *. clearbody ms. clear La B.
  set (ims := map (fun m : R * R * R * R => let '(l, b1, b2, _) := m in (l, b1 - b2)) ms) in *.
  assert (SS : vn * feet_sum i (fun _ im => fst im) (w_contacts w) ims + om * feet_sum i (fun c im => fst im * stance i n c) (w_contacts w) ims + feet_sum i (fun _ im => snd im) (w_contacts w) ims * sg <=
     r * Rsum (map (fun m : R * R * R * R => let '(l, b1, b2, g) := m in 4 + (1 + mu) * l + b1 + b2 + g) ms) - mu * feet_sum i (fun _ im => fst im) (w_contacts w) ims * Rabs sg).
  { unfold ims. assert (Fi : forall c, In c (w_contacts w) -> In c (w_contacts w)) by auto. clear -Fi F2 FL Hr Hmu. revert Fi ms F2. generalize (w_contacts w) at 1 3 4 5 6 7. intros cs.
    induction cs as [|c cs IH]; intros Fi ms H; inversion H as [|c0 m cs0 ms0 Hm Hrst]; subst; [unfold feet_sum, Rsum; cbn; lra|].
    specialize (IH ltac:(intros; apply Fi; now right) ms0 Hrst). cbn [map]. rewrite !feet_cons. unfold Rsum at 1. cbn [fold_right]. fold (Rsum (map (fun m : R * R * R * R => let '(l, b1, b2, g) := m in 4 + (1 + mu) * l + b1 + b2 + g) ms0)).
    destruct m as [[[l b1] b2] g]. cbn [fst snd]. unfold law in Hm. destruct (touchb i c) eqn:T.
    - apply touchb_iff in T. destruct (FL c l b1 b2 g (Fi c (or_introl eq_refl)) T Hm) as [_ G]. lra.
    - destruct Hm as [(A0 & A1 & A2 & A3) _ _ _ _ _ _]. assert (0 <= r * (4 + (1 + mu) * l + b1 + b2 + g)) by (apply Rmult_le_pos; [exact Hr|nra]). lra. }
  assert (LV : mu * Rabs h * Rabs om - r <= vn).
  { destruct (st_left _ _ _ _ _ HT) as (c1 & C1 & T1 & S1). destruct (st_right _ _ _ _ _ HT) as (c2 & C2 & T2 & S2).
    assert (G : forall c, In c (w_contacts w) -> touches i c -> - r <= vn + om * stance i n c).
    { intros c Hi Ht. assert (exists l b1 b2 g, contact_law r w v c l b1 b2 g) as (l & b1 & b2 & g & Q).
      { clear -F2 Hi. induction F2 as [|a m cs ms0 H Fo IH]; [destruct Hi|]. destruct Hi as [->|Hi]; [|auto]. destruct m as [[[l b1] b2] g]. unfold law in H. eauto. }
      exact (proj1 (FL c l b1 b2 g Hi Ht Q)). }
    pose proof (G c1 C1 T1) as G1. pose proof (G c2 C2 T2) as G2. clear -S1 S2 G1 G2. set (m := mu * Rabs h) in *. clearbody m. unfold Rabs. destruct (Rcase_abs om); nra. }
  assert (Bd : forall u, unit_vec u -> Rabs (component u (snd (v3_at err i))) <= r /\ Rabs (fst (v3_at err i)) <= r).
  { intros u Hu. split.
    - replace (component u (snd (v3_at err i))) with (d3 (0, u) (v3_at err i)) by (unfold d3, component; cbn [fst snd]; ring).
      eapply Rle_trans; [apply (part_norm w i b Hb err (0, u) Le)|exact Ne]. unfold d3. cbn [fst snd]. unfold unit_vec in Hu. lra.
    - replace (fst (v3_at err i)) with (d3 (1, (0, 0)) (v3_at err i)) by (unfold d3; cbn [fst snd]; ring).
      eapply Rle_trans; [apply (part_norm w i b Hb err (1, (0, 0)) Le)|exact Ne]. unfold d3. cbn [fst snd]. ring. }
  destruct (Bd n U) as [B1 B3]. assert (Ut : unit_vec (tangent n)) by (revert U; unfold unit_vec, tangent; destruct n; cbn [fst snd]; lra). destruct (Bd _ Ut) as [B2 _].
  assert (Vv : component vel vel = vn * vn + vt * vt).
  { revert U. unfold vn, vt, unit_vec, component, tangent. destruct n as [a d], vel as [x y]. cbn [fst snd]. intros U. transitivity ((a * a + d * d) * (x * x + y * y)); [rewrite U; ring|ring]. }
  assert (HN : 0 <= dt * - component n F) by (apply Rmult_le_pos; lra).
  assert (HG : Rabs (dt * component (tangent n) F) <= mu * (dt * - component n F)).
  { rewrite Rabs_mult, (Rabs_pos_eq dt Hdt). replace (mu * (dt * - component n F)) with (dt * (mu * - component n F)) by ring. apply Rmult_le_compat_l; assumption. }
  assert (E1' : b_inertia b * om = feet_sum i (fun c im => fst im * stance i n c) (w_contacts w) ims + h * feet_sum i (fun _ im => snd im) (w_contacts w) ims + fst (v3_at err i)) by (unfold om; lra).
  assert (E2' : b_mass b * vn = - (dt * - component n F) + feet_sum i (fun _ im => fst im) (w_contacts w) ims + component n (snd (v3_at err i))) by (unfold vn, vel; lra).
  assert (E3' : b_mass b * vt = dt * component (tangent n) F + feet_sum i (fun _ im => snd im) (w_contacts w) ims + component (tangent n) (snd (v3_at err i))) by (unfold vt, vel; lra).
  rewrite Vv. refine (Rle_trans _ _ _ (rest_bound _ _ _ _ _ _ _ _ _ _ _ _ _ _ _ _ _ Hm HI Hmu Hr HN HG E1' E2' E3' SS LV B1 B2 B3) _). unfold sg. lra.
Qed.
End Returned.
