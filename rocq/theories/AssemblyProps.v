(** Bodies held together by FixedJoints: what the engine returns (proofs for C81) *)
From Coq Require Import List Arith ZArith Bool Reals Lra Lia.
From Verif Require Import Num Tensor Utils Bodies Forces Constraints Contacts World Lapack Pdipm Lcp Engines Spec GeoSpec JointSpec EngineSpec WellSpec ImpactSpec AssemblySpec
     RBase ResFacts LinAlg LapackSpec KktSpec PdipmSpec WorldFacts HandlerFacts LayoutFacts HistFacts SysFacts RewindFacts JointFacts JeFacts
     CacheFacts EngineFacts ContactSys EngineBalance MomentumFacts HeldFacts DriftFacts GroupFacts EngineProps EngineMore AssemblyFacts.
Import ListNotations.
Open Scope R_scope.

Lemma pair_inj {A B} (a a' : A) (b b' : B) : (a, b) = (a', b') -> a = a' /\ b = b'.
Proof. intros H. injection H as -> ->. auto. Qed.
Section Props.
Variables (la : lapack R) (mi : nat) (bs : list (body R)) (js : list (joint R)) (w : world R) (G : nat -> bool) (i0 : nat) (b0 : body R).
Hypothesis HW : engine_world la mi bs js w.
Hypothesis Hm : massive w.
Hypothesis HA : assembly w G.
Hypothesis Hb0 : nth_error (w_bodies w) i0 = Some b0.
Hypothesis Hi0 : G i0 = true.
Notation M := (total_mass w G).
Notation In_ := (total_inertia w G).
Notation before := (assembly_spin w G (w_v w), assembly_momentum w G (w_v w)).

Lemma some_body : exists i b, nth_error (w_bodies w) i = Some b /\ G i = true.
Proof. eauto. Qed.
Lemma forces_length f : world_apply_forces w (w_t w) = Ok f -> length f = (3 * length (w_bodies w))%nat.
Proof. intros H. unfold world_apply_forces in H. bind_inv H as l E. injection H as <-. rewrite cat3_length. apply mapM_Ok_length in E. lia. Qed.
Theorem assembly_response dt v imps : response w dt v imps -> exists f u, world_apply_forces w (w_t w) = Ok f /\ moves_as_one w G u v /\
  newton_euler M In_ before (v3add (v3scale dt (assembly_torque w G f, assembly_force w G f)) (contact_shares w G (w_contacts w) imps)) u.
Proof.
  intros (f & y & Ef & Lv & B & Cv & _). destruct (engine_world_sound _ _ _ _ _ HW) as (J0 & HS & _). exists f.
  destruct (assembly_balance bs js J0 w G HS HA Hm some_body dt f v imps y (forces_length f Ef) Cv B) as (u & H1 & H2). exists u. auto.
Qed.
Theorem assembly_step dt v c : lapack_ok la -> solve_dynamics la mi w dt = Ok (v, c) -> exists f imps u, world_apply_forces w (w_t w) = Ok f /\
  length imps = length (w_contacts w) /\ moves_as_one w G u v /\
  newton_euler M In_ before (v3add (v3scale dt (assembly_torque w G f, assembly_force w G f)) (contact_shares w G (w_contacts w) imps)) u.
Proof.
  intros HL Es. destruct (engine_newton la mi bs js w dt v c HL HW Es) as (f & imps & y & Ef & Lv & B & Cv). destruct (engine_world_sound _ _ _ _ _ HW) as (J0 & HS & _). exists f, imps.
  destruct (assembly_balance bs js J0 w G HS HA Hm some_body dt f v imps y (forces_length f Ef) Cv B) as (u & H1 & H2). exists u. split; [exact Ef|]. split; [apply B|]. auto.
Qed.
Lemma shares_zero cs imps : (forall c, In c cs -> G (c_i1 c) = false /\ G (c_i2 c) = false) -> contact_shares w G cs imps = (0, (0, 0)).
Proof.
  revert imps. induction cs as [|c cs IH]; intros imps H; [reflexivity|]. destruct imps as [|im imps]; [reflexivity|]. cbn [contact_shares]. rewrite IH by (intros c' Hc'; apply H; now right).
  destruct (H c (or_introl eq_refl)) as [H1 H2]. unfold share. rewrite H1, H2. destruct (nth_error (w_bodies w) (c_i1 c)), (nth_error (w_bodies w) (c_i2 c)); unfold v3add, v2add; cbn [fst snd]; rnum; repeat (apply f_equal2; try ring).
Qed.
Theorem assembly_single dt v c f u b1 : lapack_ok la -> solve_dynamics la mi w dt = Ok (v, c) -> world_apply_forces w (w_t w) = Ok f ->
  (forall c, In c (w_contacts w) -> G (c_i1 c) = false /\ G (c_i2 c) = false) -> moves_as_one w G u (w_v w) -> b_mass b1 = M -> b_inertia b1 = In_ ->
  moves_as_one w G (v3add u (v3scale dt (acceleration b1 (assembly_torque w G f, assembly_force w G f)))) v.
Proof.
  intros HL Es Ef HC Hu E1 E2. destruct (assembly_step dt v c HL Es) as (f' & imps & u' & Ef' & _ & Hu' & N). rewrite Ef in Ef'. injection Ef' as <-. rewrite (shares_zero _ _ HC) in N.
  destruct (engine_world_sound _ _ _ _ _ HW) as (J0 & HS & _).
  destruct (one_momentum w G Hm some_body u _ Hu) as [P1 P2]. rewrite P1, P2 in N. pose proof (mass_pos w G Hm some_body) as M0. pose proof (inertia_pos w G Hm some_body) as I0.
  replace (v3add u (v3scale dt (acceleration b1 (assembly_torque w G f, assembly_force w G f)))) with u'; [exact Hu'|].
  destruct N as [N1 N2]. unfold acceleration. rewrite E1, E2. unfold v2scale, v2add, v3scale, v3add in *. cbn [fst snd] in *. rnum.
  clear E1 E2 P1 P2 Hu Hu'. revert N1 N2 M0 I0. generalize (total_mass w G) (total_inertia w G) (assembly_torque w G f) (assembly_force w G f). intros m I t q N1 N2 M0 I0.
  apply pair_inj in N1. destruct N1 as [N1 N3].
  destruct u' as [a' [x' y']], u as [a [x y]], q as [qx qy]. unfold v2add, v2scale in *. cbn [fst snd] in *. revert N1 N2 N3. rnum. intros N1 N2 N3. apply f_equal2; [|apply f_equal2].
  - apply (Rmult_eq_reg_l I); [|lra]. rewrite N2. field. lra.
  - apply (Rmult_eq_reg_l m); [|lra]. rewrite N1. field. lra.
  - apply (Rmult_eq_reg_l m); [|lra]. rewrite N3. field. lra.
Qed.
Theorem assembly_weight g f : world_apply_forces w (w_t w) = Ok f -> (forall i b, nth_error (w_bodies w) i = Some b -> G i = true -> v3_at f i = (0, (0, b_mass b * g))) ->
  assembly_force w G f = (0, M * g) /\ assembly_torque w G f = 0.
Proof.
  intros Ef H. destruct (engine_world_sound _ _ _ _ _ HW) as (J0 & HS & _). destruct (arms_cancel w G Hm some_body) as [A1 A2]. split.
  - unfold assembly_force. apply f_equal2.
    + rewrite (over_ext w G _ (fun _ b => 0 * b_mass b)) by (intros i b Hb Hi; rewrite (H i b Hb Hi); cbn [fst snd]; ring). rewrite over_scale. ring.
    + rewrite (over_ext w G _ (fun _ b => g * b_mass b)) by (intros i b Hb Hi; rewrite (H i b Hb Hi); cbn [fst snd]; ring). rewrite over_scale. unfold total_mass. ring.
  - unfold assembly_torque. rewrite (over_ext w G _ (fun _ b => g * (b_mass b * fst (arm w G b)))) by (intros i b Hb Hi; rewrite (H i b Hb Hi); unfold cross_2d; cbn [fst snd]; rnum; ring). rewrite over_scale, A1. ring.
Qed.
End Props.

(** *** pairs *)
Lemma pick_one {A} (g : A -> R) l i b k : nth_error l i = Some b -> Rsum (mapi_from k (fun m c => if Nat.eqb m (k + i) then g c else 0) l) = g b.
Proof.
  revert i k. induction l as [|a l IH]; intros i k H; [destruct i; discriminate|]. cbn [mapi_from Rsum fold_right]. destruct i as [|i].
  - cbn in H. injection H as ->. rewrite Nat.add_0_r, Nat.eqb_refl. assert (Z : Rsum (mapi_from (S k) (fun m c => if Nat.eqb m k then g c else 0) l) = 0).
    { apply Rsum_zero. intros j c _. replace (Nat.eqb (S k + j) k) with false; [reflexivity|]. symmetry. apply Nat.eqb_neq. lia. }
    unfold Rsum in Z. rewrite Z. ring.
  - cbn in H. replace (Nat.eqb k (k + S i)) with false by (symmetry; apply Nat.eqb_neq; lia). specialize (IH i (S k) H). unfold Rsum in IH. replace (k + S i)%nat with (S k + i)%nat by lia. rewrite IH. ring.
Qed.
Lemma over_pair w i k b1 b2 g : nth_error (w_bodies w) i = Some b1 -> nth_error (w_bodies w) k = Some b2 -> i <> k ->
  over w (fun m => Nat.eqb m i || Nat.eqb m k) (fun _ b => g b) = g b1 + g b2.
Proof.
  intros H1 H2 N. pose proof (pick_one g _ i b1 0 H1) as P1. pose proof (pick_one g _ k b2 0 H2) as P2. cbn [plus] in P1, P2. rewrite <- P1, <- P2. unfold over. fold (mapi (fun m c => if Nat.eqb m i then g c else 0) (w_bodies w)). fold (mapi (fun m c => if Nat.eqb m k then g c else 0) (w_bodies w)).
  rewrite <- (Rmult_1_l (Rsum (mapi (fun m c => if Nat.eqb m i then g c else 0) _))), <- (Rmult_1_l (Rsum (mapi (fun m c => if Nat.eqb m k then g c else 0) _))), Rsum_mapi_lin. apply Rsum_mapi_ext. intros m b _.
  destruct (Nat.eqb m i) eqn:E1, (Nat.eqb m k) eqn:E2; cbn [orb]; try ring. apply Nat.eqb_eq in E1, E2. congruence.
Qed.
Theorem pair_totals w i k b1 b2 : let G := fun m => Nat.eqb m i || Nat.eqb m k in
  nth_error (w_bodies w) i = Some b1 -> nth_error (w_bodies w) k = Some b2 -> i <> k -> 0 < b_mass b1 -> 0 < b_mass b2 ->
  let m1 := b_mass b1 in let m2 := b_mass b2 in let d := v2sub (b_pos b1) (b_pos b2) in
  total_mass w G = m1 + m2 /\ v2scale (m1 + m2) (centre w G) = v2add (v2scale m1 (b_pos b1)) (v2scale m2 (b_pos b2)) /\
  total_inertia w G = b_inertia b1 + b_inertia b2 + m1 * m2 / (m1 + m2) * component d d.
Proof.
  intros G H1 H2 N P1 P2 m1 m2 d. assert (EM : total_mass w G = m1 + m2) by exact (over_pair w i k b1 b2 (fun b => b_mass b) H1 H2 N). split; [exact EM|].
  assert (EC : centre w G = ((m1 * fst (b_pos b1) + m2 * fst (b_pos b2)) / (m1 + m2), (m1 * snd (b_pos b1) + m2 * snd (b_pos b2)) / (m1 + m2))).
  { unfold centre. rewrite EM. pose proof (over_pair w i k b1 b2 (fun b => b_mass b * fst (b_pos b)) H1 H2 N) as Q1. pose proof (over_pair w i k b1 b2 (fun b => b_mass b * snd (b_pos b)) H1 H2 N) as Q2. cbv beta in Q1, Q2. fold G in Q1, Q2. rewrite Q1, Q2. reflexivity. }
  subst m1 m2. split.
  - rewrite EC. unfold v2scale, v2add. cbn [fst snd]. rnum. apply f_equal2; field; lra.
  - unfold total_inertia. pose proof (over_pair w i k b1 b2 (fun b => b_inertia b + b_mass b * component (arm w G b) (arm w G b)) H1 H2 N) as Q. cbv beta in Q. fold G in Q. rewrite Q. unfold arm. rewrite EC. unfold d, component, v2sub. cbn [fst snd]. rnum. field. lra.
Qed.
