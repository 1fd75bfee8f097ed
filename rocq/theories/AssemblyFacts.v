(** Bodies held together by FixedJoints (proofs for C81) *)
From Coq Require Import List Arith ZArith Bool Reals Lra Lia.
From Verif Require Import Num Tensor Utils Bodies Forces Constraints Contacts World Lapack Pdipm Lcp Engines Spec GeoSpec JointSpec EngineSpec WellSpec ImpactSpec AssemblySpec
     RBase ResFacts LinAlg LapackSpec KktSpec PdipmSpec WorldFacts HandlerFacts LayoutFacts HistFacts SysFacts RewindFacts JointFacts JeFacts
     CacheFacts EngineFacts ContactSys EngineBalance MomentumFacts HeldFacts DriftFacts GroupFacts EngineProps.
Import ListNotations.
Open Scope R_scope.

Lemma over_ext w G f g : (forall i b, nth_error (w_bodies w) i = Some b -> G i = true -> f i b = g i b) -> over w G f = over w G g.
Proof. intros H. unfold over. apply Rsum_mapi_ext. intros i b Hb. destruct (G i) eqn:E; auto. Qed.
Lemma over_lin w G f g a b : a * over w G f + b * over w G g = over w G (fun i c => a * f i c + b * g i c).
Proof. unfold over. rewrite Rsum_mapi_lin. apply Rsum_mapi_ext. intros i c _. destruct (G i); ring. Qed.
Lemma over_scale w G f a : over w G (fun i c => a * f i c) = a * over w G f.
Proof. pose proof (over_lin w G f f a 0) as Q. rewrite Rmult_0_l, Rplus_0_r in Q. rewrite Q. apply over_ext. intros. ring. Qed.
Lemma over_add w G f g : over w G (fun i c => f i c + g i c) = over w G f + over w G g.
Proof. pose proof (over_lin w G f g 1 1) as Q. rewrite !Rmult_1_l in Q. rewrite Q. apply over_ext. intros. ring. Qed.
Lemma Rsum_mapi_nonneg {A} (f : nat -> A -> R) l k : (forall i a, nth_error l i = Some a -> 0 <= f (k + i)%nat a) -> 0 <= Rsum (mapi_from k f l).
Proof.
  revert k. induction l as [|a l IH]; intros k H; cbn [mapi_from Rsum fold_right]; [lra|]. pose proof (H 0%nat a eq_refl) as H0. rewrite Nat.add_0_r in H0.
  assert (Q : 0 <= Rsum (mapi_from (S k) f l)) by (apply IH; intros i b Hb; specialize (H (S i) b Hb); now rewrite Nat.add_succ_r in H). unfold Rsum in Q. lra.
Qed.
Lemma Rsum_mapi_pos {A} (f : nat -> A -> R) l : forall k, (forall i a, nth_error l i = Some a -> 0 <= f (k + i)%nat a) -> (exists i a, nth_error l i = Some a /\ 0 < f (k + i)%nat a) -> 0 < Rsum (mapi_from k f l).
Proof.
  induction l as [|a l IH]; intros k H (i & x & Hi & Hx); [destruct i; discriminate|]. cbn [mapi_from Rsum fold_right].
  assert (T : forall j y, nth_error l j = Some y -> 0 <= f (S k + j)%nat y) by (intros j y Hj; specialize (H (S j) y Hj); now rewrite Nat.add_succ_r in H).
  pose proof (H 0%nat a eq_refl) as H0. rewrite Nat.add_0_r in H0. destruct i as [|i].
  - cbn in Hi. injection Hi as <-. rewrite Nat.add_0_r in Hx. pose proof (Rsum_mapi_nonneg f l (S k) T) as Q. unfold Rsum in Q. lra.
  - cbn in Hi. rewrite Nat.add_succ_r in Hx. assert (Q : 0 < Rsum (mapi_from (S k) f l)) by (apply IH; [exact T|exists i, x; auto]). unfold Rsum in Q. lra.
Qed.
Lemma over_pos w G g : (forall i b, nth_error (w_bodies w) i = Some b -> G i = true -> 0 < g i b) -> (exists i b, nth_error (w_bodies w) i = Some b /\ G i = true) -> 0 < over w G g.
Proof.
  intros H (i & b & Hb & Hi). unfold over, mapi. apply Rsum_mapi_pos.
  - intros k a Ha. cbn. destruct (G k) eqn:E; [left; now apply H|lra].
  - exists i, b. split; [exact Hb|]. cbn. rewrite Hi. auto.
Qed.

Section Assembly.
Variables (bs : list (body R)) (js : list (joint R)) (J0 : list jent) (w : world R) (G : nat -> bool).
Hypothesis HS : sound bs js J0 w.
Hypothesis HA : assembly w G.
Hypothesis Hm : massive w.
Hypothesis Hne : exists i b, nth_error (w_bodies w) i = Some b /\ G i = true.
Notation nb := (length (w_bodies w)).
Notation c0 := (centre w G).
Notation M := (total_mass w G).
Notation In_ := (total_inertia w G).

Lemma mass_at i b : nth_error (w_bodies w) i = Some b -> 0 < b_mass b /\ 0 < b_inertia b.
Proof. intros H. apply nth_error_In in H. pose proof Hm as Q. unfold massive in Q. rewrite Forall_forall in Q. now apply Q. Qed.
Lemma mass_pos : 0 < M.
Proof. apply over_pos; [|exact Hne]. intros i b Hb _. now apply (mass_at i b). Qed.
Lemma inertia_pos : 0 < In_.
Proof.
  apply over_pos; [|exact Hne]. intros i b Hb _. destruct (mass_at i b Hb) as [P Q]. unfold component. pose proof (Rle_0_sqr (fst (arm w G b))) as S1. pose proof (Rle_0_sqr (snd (arm w G b))) as S2. unfold Rsqr in S1, S2.
  assert (0 <= b_mass b * (fst (arm w G b) * fst (arm w G b) + snd (arm w G b) * snd (arm w G b))) by (apply Rmult_le_pos; lra). lra.
Qed.
Lemma arms_cancel : over w G (fun _ b => b_mass b * fst (arm w G b)) = 0 /\ over w G (fun _ b => b_mass b * snd (arm w G b)) = 0.
Proof.
  pose proof mass_pos as P. split.
  - rewrite (over_ext w G _ (fun i b => 1 * (b_mass b * fst (b_pos b)) + (- fst c0) * b_mass b)) by (intros; unfold arm, v2sub; cbn [fst snd]; rnum; ring).
    rewrite <- over_lin. change (over w G (fun _ b => b_mass b)) with M. unfold centre. cbn [fst]. field. lra.
  - rewrite (over_ext w G _ (fun i b => 1 * (b_mass b * snd (b_pos b)) + (- snd c0) * b_mass b)) by (intros; unfold arm, v2sub; cbn [fst snd]; rnum; ring).
    rewrite <- over_lin. change (over w G (fun _ b => b_mass b)) with M. unfold centre. cbn [snd]. field. lra.
Qed.

(** *** motions allowed by the constraints move the assembly as one *)
Definition frame_of (v : vecR) (i : nat) (b : body R) : v3 R := (fst (v3_at v i), point_velocity (v3_at v i) (v2sub c0 (b_pos b))).
Lemma tied_same v j k l bk bl : constraint_velocity w v = vzeros (w_num_constraints w) -> In (j, k, Some l) (w_joints w) -> j_kind j = JFixed ->
  nth_error (w_bodies w) k = Some bk -> nth_error (w_bodies w) l = Some bl -> frame_of v k bk = frame_of v l bl.
Proof.
  intros Cv Hin K Hk Hl. rewrite cv_entries in Cv.
  assert (Z : Forall (fun a => a = 0) (entry_vel w v (j, k, Some l))).
  { apply Forall_forall. intros a Ha. assert (In a (flat_map (entry_vel w v) (w_joints w))) as Q by (apply in_flat_map; eauto). rewrite Cv in Q. exact (repeat_spec _ _ _ Q). }
  unfold entry_vel in Z. rewrite Hk, Hl, K in Z. unfold measured, v2l, v2sub, point_velocity in Z. cbn [fst snd app] in Z. revert Z. rnum. intros Z.
  apply Forall_cons_iff in Z. destruct Z as [Z1 Z]. apply Forall_cons_iff in Z. destruct Z as [Z2 Z]. apply Forall_cons_iff in Z. destruct Z as [Z3 _].
  unfold frame_of, point_velocity, v2sub. cbn [fst snd]. rnum. assert (E : fst (v3_at v l) = fst (v3_at v k)) by lra. rewrite E in Z1, Z2. rewrite E. apply f_equal2; [reflexivity|apply f_equal2; lra].
Qed.
Lemma joint_in j k l : In (j, k, Some l) (w_joints w) -> j_kind j = JFixed -> (exists b, nth_error (w_bodies w) k = Some b) /\ (exists b, nth_error (w_bodies w) l = Some b).
Proof.
  intros Hin K. destruct (entry_bodies bs js J0 w HS _ _ _ Hin) as (j0 & b1 & Hj0 & K0 & H1 & H2). split; [eauto|].
  assert (N : j_b2 j0 <> None).
  { destruct (so_found _ _ _ _ HS) as (_ & Hb & _). rewrite Forall_forall in Hb. specialize (Hb _ Hj0). rewrite K in K0. destruct Hb; cbn in K0 |- *; discriminate. }
  destruct (H2 N) as (i & b2 & Ei & Hb2). injection Ei as <-. eauto.
Qed.
Lemma together_same v i k bi bk : constraint_velocity w v = vzeros (w_num_constraints w) -> together w i k ->
  nth_error (w_bodies w) i = Some bi -> nth_error (w_bodies w) k = Some bk -> frame_of v i bi = frame_of v k bk.
Proof.
  intros Cv H Hi. revert bk. induction H as [|j k l H IH Hj K]; intros bl Hl; [congruence|].
  destruct Hj as [Hj|Hj]; destruct (joint_in _ _ _ Hj K) as [[b1 H1] [b2 H2]].
  - rewrite (IH _ H1). now apply (tied_same v j k l).
  - rewrite (IH _ H2). symmetry. now apply (tied_same v j l k).
Qed.
Lemma moves_one v : constraint_velocity w v = vzeros (w_num_constraints w) -> exists u, moves_as_one w G u v.
Proof.
  intros Cv. destruct Hne as (i0 & b0 & H0 & G0). exists (frame_of v i0 b0). intros i b Hb Hi.
  rewrite (together_same v i0 i b0 b Cv (as_together _ _ HA _ _ G0 Hi) H0 Hb). unfold frame_of, arm, point_velocity, v2sub. cbn [fst snd]. rnum.
  destruct (v3_at v i) as [a [x y]]. cbn [fst snd]. apply f_equal2; [reflexivity|apply f_equal2; ring].
Qed.

(** *** the rigid motions of the assembly *)
Definition rigid (u : v3 R) : vecR :=
  field G nb (fun i => match nth_error (w_bodies w) i with Some b => (fst u, point_velocity u (arm w G b)) | None => zero3 end).
Lemma rigid_length u : length (rigid u) = (3 * nb)%nat.
Proof. apply field_length. Qed.
Lemma rigid_at u i b : nth_error (w_bodies w) i = Some b -> v3_at (rigid u) i = if G i then (fst u, point_velocity u (arm w G b)) else zero3.
Proof. intros H. unfold rigid. rewrite field_at by (apply nth_error_Some; congruence). now rewrite H. Qed.
Lemma rigid_constraints u j i1 i2 : In (j, i1, i2) (w_joints w) -> Forall (fun a => a = 0) (entry_vel w (rigid u) (j, i1, i2)).
Proof.
  intros Hin. pose proof (as_free _ _ HA _ _ _ Hin) as F. destruct (G i1) eqn:E1.
  - destruct i2 as [l|]; [|discriminate]. destruct (entry_bodies bs js J0 w HS _ _ _ Hin) as (j0 & b1 & Hj0 & K0 & H1 & H2).
    unfold entry_vel. rewrite H1, (rigid_at u _ _ H1), E1.
    assert (K : j_kind j = JJoint \/ j_kind j = JFixed).
    { destruct (so_found _ _ _ _ HS) as (_ & Hb & He & [_ Hj] & _). apply In_nth_error in Hin. destruct Hin as [m Hk].
      destruct (nth_error_Forall2 _ _ _ _ _ Hj Hk) as ([[j' m1] m2] & Hn0 & (Em1 & Em2 & a1 & b1' & b2 & Ha & Hb' & Hok)). subst m1. try subst m2.
      destruct (nth_error_Forall2 _ _ _ _ _ He Hn0) as (j'' & Hj' & (-> & _ & H2')). destruct (j_b2 j'') as [id|] eqn:Eid; [|destruct H2'].
      destruct Hok as (Kk & _). rewrite Kk. apply nth_error_In in Hj'. rewrite Forall_forall in Hb. destruct (Hb _ Hj'); cbn in Eid |- *; try discriminate; auto. }
    destruct (nth_error (w_bodies w) l) as [b2|] eqn:H3; [rewrite (rigid_at u _ _ H3), <- F|].
    + unfold measured. destruct K as [-> | ->]; unfold v2l, v2sub, point_velocity, arm, v2sub; cbn [fst snd app]; rnum; repeat (apply Forall_cons; [ring|]); apply Forall_nil.
    + exfalso. destruct (so_found _ _ _ _ HS) as (_ & Hb & He & [_ Hj] & _). apply In_nth_error in Hin. destruct Hin as [m Hk].
      destruct (nth_error_Forall2 _ _ _ _ _ Hj Hk) as ([[j' m1] m2] & Hn0 & (Em1 & Em2 & a1 & b1' & b2 & Ha & Hb' & Hok)). subst m1. try subst m2.
      apply joint_bodies_Ok in Hb'. destruct Hb' as [_ (b & _ & Q)]. congruence.
  - apply entry_zero; [now apply field_out|]. intros i ->. apply field_out. congruence.
Qed.
Lemma kinetic_rigid u v : kinetic w (rigid u) v = component (snd u) (assembly_momentum w G v) + fst u * assembly_spin w G v.
Proof.
  unfold component, assembly_momentum, assembly_spin. cbn [fst snd]. rewrite <- !over_scale, <- !over_add. unfold kinetic, over. apply Rsum_mapi_ext. intros i b Hb. rewrite (rigid_at u i b Hb).
  destruct (G i); unfold component, point_velocity, cross_2d; cbn [fst snd]; rnum; ring.
Qed.
Lemma dot_rigid u f : length f = (3 * nb)%nat -> dot (rigid u) f = component (snd u) (assembly_force w G f) + fst u * assembly_torque w G f.
Proof.
  intros Lf. rewrite (dot_mapi (w_bodies w)) by (auto using rigid_length). unfold component, assembly_force, assembly_torque. cbn [fst snd]. rewrite <- !over_scale, <- !over_add. apply Rsum_mapi_ext. intros i b Hb. rewrite (rigid_at u i b Hb).
  destruct (G i); unfold d3, point_velocity, cross_2d; cbn [fst snd]; rnum; ring.
Qed.
Lemma share_power u i p J : (i < nb)%nat ->
  component J (point_velocity (v3_at (rigid u) i) p) = component (snd u) (snd (share w G i p J)) + fst u * fst (share w G i p J).
Proof.
  intros H. unfold share. destruct (nth_error (w_bodies w) i) as [b|] eqn:Hb; [|apply nth_error_None in Hb; lia]. rewrite (rigid_at u i b Hb).
  destruct (G i); unfold component, point_velocity, cross_2d, v2add; cbn [fst snd]; rnum; ring.
Qed.
Lemma power_rigid u imps : contact_power (w_contacts w) imps (rigid u) =
  component (snd u) (snd (contact_shares w G (w_contacts w) imps)) + fst u * fst (contact_shares w G (w_contacts w) imps).
Proof.
  unfold contact_power. pose proof (so_range _ _ _ _ HS) as Hr. revert imps. induction (w_contacts w) as [|c cs IH]; intros imps; [cbn; unfold component; cbn; ring|].
  apply Forall_cons_iff in Hr. destruct Hr as [(_ & R1 & R2) Hr]. destruct imps as [|im imps]; [cbn; unfold component; cbn; ring|]. cbn [map2 Rsum fold_right contact_shares]. unfold Rsum in IH. rewrite (IH Hr imps).
  set (J := impulse_of (c_normal c) (fst im) (snd im)).
  pose proof (share_power u (c_i1 c) (c_p1 c) J R1) as P1. pose proof (share_power u (c_i2 c) (c_p2 c) (v2scale (-1) J) R2) as P2.
  replace (fst im * component (c_normal c) (relative_velocity (rigid u) c) + snd im * component (tangent (c_normal c)) (relative_velocity (rigid u) c))
    with (component J (point_velocity (v3_at (rigid u) (c_i1 c)) (c_p1 c)) + component (v2scale (-1) J) (point_velocity (v3_at (rigid u) (c_i2 c)) (c_p2 c))).
  - rewrite P1, P2. unfold component, v3add, v2add. cbn [fst snd]. rnum. ring.
  - unfold J, impulse_of, component, relative_velocity, tangent, v2sub, v2add, v2scale. cbn [fst snd]. rnum. ring.
Qed.
Lemma one_momentum u v : moves_as_one w G u v -> assembly_momentum w G v = v2scale M (snd u) /\ assembly_spin w G v = In_ * fst u.
Proof.
  intros H. destruct arms_cancel as [A1 A2]. split.
  - unfold assembly_momentum, v2scale. cbn [fst snd]. rnum. apply f_equal2.
    + rewrite (over_ext w G _ (fun i b => fst (snd u) * b_mass b + (- fst u) * (b_mass b * snd (arm w G b)))).
      * rewrite <- over_lin, A2. change (over w G (fun _ b => b_mass b)) with M. ring.
      * intros i b Hb Hi. rewrite (H i b Hb Hi). unfold point_velocity. cbn [fst snd]. ring.
    + rewrite (over_ext w G _ (fun i b => snd (snd u) * b_mass b + fst u * (b_mass b * fst (arm w G b)))).
      * rewrite <- over_lin, A1. change (over w G (fun _ b => b_mass b)) with M. ring.
      * intros i b Hb Hi. rewrite (H i b Hb Hi). unfold point_velocity. cbn [fst snd]. ring.
  - unfold assembly_spin. rewrite (over_ext w G _ (fun i b => (fst u * (b_inertia b + b_mass b * component (arm w G b) (arm w G b)) + snd (snd u) * (b_mass b * fst (arm w G b))) + (- fst (snd u)) * (b_mass b * snd (arm w G b)))).
    + rewrite over_add, over_add, !over_scale, A1, A2. unfold total_inertia. ring.
    + intros i b Hb Hi. rewrite (H i b Hb Hi). unfold point_velocity, cross_2d, component. cbn [fst snd]. rnum. ring.
Qed.

Theorem assembly_balance dt f v imps y : length f = (3 * nb)%nat -> constraint_velocity w v = vzeros (w_num_constraints w) -> balance w dt f v imps y (vzeros (3 * nb)) ->
  exists u, moves_as_one w G u v /\
    newton_euler M In_ (assembly_spin w G (w_v w), assembly_momentum w G (w_v w))
      (v3add (v3scale dt (assembly_torque w G f, assembly_force w G f)) (contact_shares w G (w_contacts w) imps)) u.
Proof.
  intros Lf Cv (_ & _ & B). destruct (moves_one v Cv) as [u Hu]. exists u. split; [exact Hu|]. destruct (one_momentum u v Hu) as [E1 E2].
  assert (Q : forall z, component (snd z) (assembly_momentum w G v) + fst z * assembly_spin w G v =
     component (snd z) (assembly_momentum w G (w_v w)) + fst z * assembly_spin w G (w_v w) + dt * (component (snd z) (assembly_force w G f) + fst z * assembly_torque w G f)
     + (component (snd z) (snd (contact_shares w G (w_contacts w) imps)) + fst z * fst (contact_shares w G (w_contacts w) imps))).
  { intros z. specialize (B _ (rigid_length z)). rewrite !kinetic_rigid, dot_rigid, power_rigid in B by exact Lf.
    rewrite constraint_velocity_zero in B by (intros j i1 i2 Hin; now apply rigid_constraints). rewrite dot_zeros_l in B. lra. }
  rewrite E1, E2 in Q. unfold newton_euler, v2scale, v2add, v3add, v3scale, v2add, v2scale in *. cbn [fst snd] in *. revert Q. rnum. intros Q.
  pose proof (Q (0, (1, 0))) as Q1. pose proof (Q (0, (0, 1))) as Q2. pose proof (Q (1, (0, 0))) as Q3. unfold component in Q1, Q2, Q3. cbn [fst snd] in Q1, Q2, Q3.
  split; [apply f_equal2; lra|lra].
Qed.
(** points of the assembly move with it, so the contacts see one rigid body *)
Lemma one_points u v i b p : moves_as_one w G u v -> nth_error (w_bodies w) i = Some b -> G i = true -> point_velocity (v3_at v i) p = point_velocity u (v2add (arm w G b) p).
Proof. intros H Hb Hi. rewrite (H i b Hb Hi). unfold point_velocity, v2add. cbn [fst snd]. rnum. apply f_equal2; ring. Qed.
End Assembly.
