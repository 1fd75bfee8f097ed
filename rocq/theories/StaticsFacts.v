(** Equilibrium, virtual work, and bodies that coast beside a structure at rest *)
From Coq Require Import List Arith ZArith Bool Reals Lra Lia.
From Verif Require Import Num Tensor Utils Bodies Forces Constraints Contacts World Lapack Pdipm Lcp Engines Spec GeoSpec JointSpec FreshSpec EngineSpec WellSpec StaticsSpec
     RBase ResFacts LinAlg LapackSpec KktSpec PdipmSpec WorldFacts HandlerFacts LayoutFacts HistFacts SysFacts RewindFacts JointFacts JeFacts FreshFacts
     CacheFacts BodyReach GeomFacts PdipmFacts PdipmLoop SolverFacts EngineFacts ContactSys EngineBalance MomentumFacts PostFacts HeldFacts FreeFacts DriftFacts ContactLaw EnergyFacts EngineTotal
     EngineProps EngineMore QpFacts WellFacts WellProps SteadyFacts FlightFacts GroupFacts.
Import ListNotations.
Open Scope R_scope.

Section Principle.
Variables (la : lapack R) (mi : nat) (bs : list (body R)) (js : list (joint R)) (J0 : list jent) (w : world R).
Hypothesis HL : lapack_ok la.
Hypothesis HS : sound bs js J0 w.
Hypothesis HV : valid la w.
Hypothesis Hm : Forall (fun b : body R => 0 < b_mass b /\ 0 < b_inertia b) bs.
Notation n := (3 * length (w_bodies w))%nat.
Lemma kinetic_zero d : length d = n -> kinetic w d d <= 0 -> d = vzeros n.
Proof.
  intros Ld Q. destruct (list_eq_dec Req_EM_T d (vzeros n)) as [|Nd]; [auto|]. pose proof (M_pos bs js J0 w HS Hm d Ld Nd) as P.
  rewrite (kinetic_dot w d d (so_M _ _ _ _ HS) Ld Ld) in P. lra.
Qed.
Lemma sub_zero (x y : vecR) k : length x = k -> length y = k -> vsub x y = vzeros k -> x = y.
Proof.
  intros Lx Ly E. apply vext; [congruence|]. intros i Hi. pose proof (f_equal (fun l => vget l i) E) as G. cbv beta in G. rewrite vget_zeros, vget_vsub in G by (unfold vec in *; lia). lra.
Qed.
Lemma dalembert_solve dt v c f a : w_contacts w = [] -> world_apply_forces w (w_t w) = Ok f -> constraint_velocity w (w_v w) = vzeros (w_num_constraints w) ->
  length a = n -> dalembert w f a -> solve_dynamics la mi w dt = Ok (v, c) -> v = vadd (w_v w) (vscale dt a).
Proof.
  intros Hc Ef Hv La [Ca Da] H. destruct (solve_balance bs js J0 w la mi HS HL HV dt v c H) as (f' & imps & y & Ef' & Lv & (_ & _ & B) & EC). rewrite Ef in Ef'. injection Ef' as <-.
  pose proof (so_vlen _ _ _ _ HS) as Lw. pose proof (so_M _ _ _ _ HS) as HM.
  set (u := vadd (w_v w) (vscale dt a)). assert (Lu : length u = n) by (unfold u; vlen).
  assert (Cu : constraint_velocity w u = vzeros (w_num_constraints w)).
  { unfold u. rewrite <- (Je_cv bs js J0 w HS) in * by vlen. rewrite mv_vadd by vlen. rewrite mv_vscale, Hv, Ca, vscale_zeros. apply vext; [vlen|]. intros i Hi. rewrite vget_vadd by vlen. rewrite vget_zeros. ring. }
  apply (sub_zero v u n Lv Lu). set (d := vsub v u). assert (Ld : length d = n) by (unfold d; vlen). apply kinetic_zero; [exact Ld|].
  assert (Cd : constraint_velocity w d = vzeros (w_num_constraints w)) by (unfold d; apply (cv_sub bs js J0 w HS); auto).
  specialize (B d Ld). rewrite Cd, dot_zeros_r, dot_zeros_l, Hc in B. unfold contact_power in B. cbn [map2] in B. unfold Rsum in B. cbn [fold_right] in B.
  assert (Q : kinetic w d u = kinetic w d (w_v w) + dt * kinetic w d a).
  { unfold u. rewrite <- !(kinetic_dot w) by (auto; vlen). rewrite mv_vadd by vlen. rewrite dot_vadd_r by (rewrite !mv_length; reflexivity). now rewrite mv_vscale, dot_vscale_r. }
  unfold d at 2. rewrite (kinetic_sub_r w HM d v u) by auto. rewrite B, Q, (Da d Ld Cd). lra.
Qed.
(** a response from rest, when the forces are in equilibrium *)
Lemma rest_response dt f v imps : 0 <= dt -> frictionless w -> at_rest w -> world_apply_forces w (w_t w) = Ok f -> equilibrium w f -> response w dt v imps -> at_rest w /\ v = vzeros n.
Proof.
  intros Hdt Hf Hr Ef He (f' & y & Ef' & Lv & (_ & _ & B) & C & L). rewrite Ef in Ef'. injection Ef' as <-. split; [exact Hr|]. apply kinetic_zero; [exact Lv|].
  specialize (B v Lv). rewrite C, dot_zeros_r, dot_zeros_l in B.
  assert (Z : forall c, normal_velocity (w_v w) c = 0).
  { intros c. unfold normal_velocity. rewrite relative_zero by (rewrite Hr; unfold v3_at; rewrite !vget_zeros; reflexivity). unfold component. cbn [fst snd]. ring. }
  assert (K : kinetic w v (w_v w) = 0).
  { rewrite Hr. unfold kinetic. apply Rsum_zero. intros i b _. unfold v3_at. rewrite !vget_zeros. unfold component. cbn [fst snd]. ring. }
  assert (P : contact_power (w_contacts w) imps v <= 0).
  { clear B. unfold contact_power. assert (Hf' : forall c, In c (w_contacts w) -> mixed w b_fric c = 0) by exact Hf. clear Hf. induction L as [|c im cs l [C1 C2 C3 C4 C5] L IH]; [cbn; lra|]. cbn [map2 Rsum fold_right]. unfold Rsum in IH.
    specialize (IH (fun c' Hc' => Hf' c' (or_intror Hc'))). rewrite (Hf' c (or_introl eq_refl)) in C4.
    fold (normal_velocity v c) (slip_velocity v c). assert (T : snd im = 0) by (pose proof (Rabs_pos (snd im)); destruct (Req_dec (snd im) 0) as [|N]; [auto|]; pose proof (Rabs_pos_lt _ N); lra). rewrite T.
    assert (fst im * normal_velocity v c = 0). { destruct C1 as [C1|C1]; [rewrite (C3 C1), (Z c); ring|rewrite <- C1; ring]. } lra. }
  assert (V : virtual w v).
  { split; [exact Lv|]. split; [exact C|]. intros c Hc. clear - L Hc Z. induction L as [|c' im cs l [C1 C2 C3 C4 C5] L IH]; [contradiction|]. destruct Hc as [<-|Hc]; [|now apply IH]. rewrite (Z c') in C2. lra. }
  pose proof (He v V) as Q. rewrite K in B. assert (dt * dot v f <= 0) by nra. lra.
Qed.
End Principle.

(** the same for the velocities the engine returns *)
Lemma rest_returned la mi bs js w dt it r f z y : lapack_ok la -> engine_world la mi bs js w -> w_contacts w <> [] -> 0 <= dt ->
  Forall (fun b => 0 <= b_mass b /\ 0 <= b_inertia b) bs -> frictionless w -> at_rest w -> world_apply_forces w (w_t w) = Ok f -> carried w f z y ->
  engine_point la mi w dt it r ->
  2 * kinetic_energy w (vopp (i_x it)) <=
    r * (slack (length (w_contacts w)) (i_z it) + slip_total w (i_x it) + norm2 (i_x it) + dt * Rsum z).
Proof.
  intros HL HW Hc Hdt Hm Hf Hr Ef (Lz & Ly & Pz & Hz) He. destruct (engine_world_sound _ _ _ _ _ HW) as (J0 & HS & HV).
  destruct (point_response la mi bs js w dt HL HW Hc it r _ He eq_refl) as (f' & err & Ef' & Lf & Lv & Pi & Le & Ne & (_ & _ & B) & C & L). rewrite Ef in Ef'. injection Ef' as <-.
  set (v := vopp (i_x it)) in *. assert (Pr : 0 <= r) by (pose proof (norm2_nonneg err); lra).
  assert (Z : forall c, normal_velocity (w_v w) c = 0).
  { intros c. unfold normal_velocity. rewrite relative_zero by (rewrite Hr; unfold v3_at; rewrite !vget_zeros; reflexivity). unfold component. cbn [fst snd]. ring. }
  assert (K : kinetic w v (w_v w) = 0).
  { rewrite Hr. unfold kinetic. apply Rsum_zero. intros i b _. unfold v3_at. rewrite !vget_zeros. unfold component. cbn [fst snd]. ring. }
  pose proof (B v Lv) as Bv. rewrite C, dot_zeros_r, K in Bv. pose proof (Hz v Lv) as Zv. rewrite C, dot_zeros_r in Zv.
  pose proof (dot_err err v r ltac:(unfold vec in *; congruence) Ne) as D.
  set (nc := length (w_contacts w)) in *.
  pose proof (power_frictionless r w v (multipliers nc (i_z it)) v (w_contacts w) 0 ltac:(intros i c Hi; split; [apply Hf; eapply nth_error_In; exact Hi|now apply L])) as P2.
  fold nc in P2. change (map (fun i => imp (multipliers nc (i_z it) i)) (seq 0 nc)) with (impulses nc (i_z it)) in P2. fold (slip_total w v) in P2.
  assert (P1 : normal_power (w_contacts w) (impulses nc (i_z it)) v <= r * Rsum (map (fun i => let '(l, b1, b2, _) := multipliers nc (i_z it) i in 1 + l) (seq 0 nc))).
  { unfold normal_power, impulses. assert (G : forall cs k, (forall i c, nth_error cs i = Some c -> law r w v c (multipliers nc (i_z it) (k + i))) ->
      Rsum (map2 (fun c im => fst im * normal_velocity v c) cs (map (fun i => let '(l, b1, b2, _) := multipliers nc (i_z it) i in (l, b1 - b2)) (seq k (length cs)))) <=
      r * Rsum (map (fun i => let '(l, b1, b2, _) := multipliers nc (i_z it) i in 1 + l) (seq k (length cs)))).
    { induction cs as [|c cs IH]; intros k H; [cbn; lra|]. cbn [length seq map map2 Rsum fold_right]. unfold Rsum in IH.
      assert (IH' : forall i c', nth_error cs i = Some c' -> law r w v c' (multipliers nc (i_z it) (S k + i))). { intros i c' Hc'. specialize (H (S i) c' Hc'). now rewrite Nat.add_succ_r in H. }
      specialize (IH (S k) IH'). pose proof (H 0%nat c eq_refl) as Q. rewrite Nat.add_0_r in Q. unfold law in Q. unfold multipliers in *. destruct Q as [S1 S2 S3 S4 S5 S6 S7]. cbn [fst snd].
      rewrite (Z c) in S3. lra. }
    apply (G (w_contacts w) 0%nat). exact L. }
  pose proof (slack_le nc (i_z it) r Pr ltac:(eapply Forall_impl; [|exact Pi]; intros a Ha; cbv beta in *; lra)) as SL.
  assert (P3 : - (r * Rsum z) <= contact_power (w_contacts w) (map (fun a => (a, 0)) z) v).
  { assert (N : forall c, In c (w_contacts w) -> - r <= normal_velocity v c).
    { intros c Hin. apply In_nth_error in Hin. destruct Hin as [i Hi]. specialize (L i c Hi). unfold law, multipliers in L. destruct L as [S1 S2 S3 S4 S5 S6 S7]. rewrite (Z c) in S2. lra. }
    clear - N Pz Pr. unfold contact_power. revert z Pz. induction (w_contacts w) as [|c cs IH]; intros z Pz; destruct z as [|a z]; cbn [map map2 Rsum fold_right]; try lra.
    - assert (0 <= fold_right Rplus 0 z) by (clear - Pz; apply Forall_cons_iff in Pz; destruct Pz as [_ Pz]; induction Pz; cbn; lra). apply Forall_cons_iff in Pz. destruct Pz as [Pa _].
      assert (0 <= r * (a + fold_right Rplus 0 z)) by nra. lra.
    - apply Forall_cons_iff in Pz. destruct Pz as [Pa Pz]. specialize (IH (fun c' Hc' => N c' (or_intror Hc')) z Pz). unfold Rsum in IH. cbn [fst snd]. fold (normal_velocity v c) (slip_velocity v c).
      pose proof (N c (or_introl eq_refl)). nra. }
  assert (E1 : norm2 v = norm2 (i_x it)) by (unfold v, norm2; f_equal; rewrite dot_vopp_l, dot_vopp_r; ring).
  assert (E2 : slip_total w v = slip_total w (i_x it)).
  { unfold slip_total. f_equal. apply map_ext. intros c. rewrite <- (Rabs_Ropp (slip_velocity (i_x it) c)). f_equal. unfold v, slip_velocity, relative_velocity, v3_at. rewrite !vget_vopp.
    unfold component, v2sub, point_velocity. cbn [fst snd]. rnum. ring. }
  rewrite E1 in D. rewrite E2 in P2. unfold kinetic_energy. nra.
Qed.

(** *** a structure at rest, other bodies coasting *)
Lemma some_inj {A} (x y : A) : Some x = Some y -> x = y.
Proof. congruence. Qed.
Lemma vec3_ext k (x y : vecR) : length x = (3 * k)%nat -> length y = (3 * k)%nat -> (forall i, (i < k)%nat -> v3_at x i = v3_at y i) -> x = y.
Proof.
  intros Lx Ly H. rewrite <- (cat3_v3_at k x Lx), <- (cat3_v3_at k y Ly). apply (f_equal cat3). apply map_ext_in. intros i Hi. apply in_seq in Hi. apply H. lia.
Qed.
Lemma v3_at_sub (x y : vecR) i k : length x = (3 * k)%nat -> length y = (3 * k)%nat -> (i < k)%nat -> v3_at (vsub x y) i = (fst (v3_at x i) - fst (v3_at y i), v2sub (snd (v3_at x i)) (snd (v3_at y i))).
Proof. intros Lx Ly Hi. unfold v3_at. rewrite !vget_vsub by (unfold vec in *; lia). reflexivity. Qed.
Lemma v3_at_add (x y : vecR) i k : length x = (3 * k)%nat -> length y = (3 * k)%nat -> (i < k)%nat -> v3_at (vadd x y) i = v3add (v3_at x i) (v3_at y i).
Proof. intros Lx Ly Hi. unfold v3_at. rewrite !vget_vadd by (unfold vec in *; lia). reflexivity. Qed.
Lemma v3_at_scale r (x : vecR) i : v3_at (vscale r x) i = v3scale r (v3_at x i).
Proof. unfold v3_at. rewrite !vget_vscale. reflexivity. Qed.
Lemma coast_snoc dt acc n : forall t p v, coast dt t acc p v (S n) =
  let '(p', v') := coast dt t acc p v n in let v'' := v3add v' (v3scale dt (acc (t + INR n * dt))) in (v3add p' (v3scale dt v''), v'').
Proof.
  induction n as [|n IH]; intros t p v.
  - cbn [coast]. replace (t + INR 0 * dt) with t by (cbn; ring). reflexivity.
  - change (coast dt t acc p v (S (S n))) with (let v' := v3add v (v3scale dt (acc t)) in coast dt (t + dt) acc (v3add p (v3scale dt v')) v' (S n)). cbv zeta.
    rewrite IH. cbn [coast]. rewrite S_INR. replace (t + dt + INR n * dt) with (t + (INR n + 1) * dt) by ring. reflexivity.
Qed.
(** what the constraints measure depends on the poses of their bodies *)
Lemma cv_same bs js J0 (w a : world R) x : sound bs js J0 w -> sound bs js J0 a ->
  (forall j i1 i2, In (j, i1, i2) (w_joints w) -> (forall i b b', i1 = i \/ i2 = Some i -> nth_error (w_bodies w) i = Some b -> nth_error (w_bodies a) i = Some b' -> b_p b' = b_p b) \/
     (forall i, i1 = i \/ i2 = Some i -> v3_at x i = zero3)) ->
  constraint_velocity a x = constraint_velocity w x.
Proof.
  intros HS HA Hp. rewrite !cv_entries. destruct (so_found _ _ _ _ HS) as (_ & _ & _ & [_ Hj] & _). destruct (so_found _ _ _ _ HA) as (_ & _ & _ & [_ Hk] & _).
  clear HS HA. revert Hp. generalize (w_joints w), (w_joints a), Hj, Hk. clear Hj Hk. intros l l' Hj. revert l'. induction Hj as [|e0 e J l He Hj IH]; intros l' Hk Hp; inversion Hk as [|? e' ? l1 He' Hk1]; subst; [reflexivity|].
  cbn [flat_map]. apply f_equal2; [|apply IH; auto; intros j i1 i2 Hin; apply (Hp j i1 i2); now right].
  destruct e0 as [[j0 i1] i2], e as [[j k1] k2], e' as [[j' m1] m2]. destruct He as (-> & -> & a1 & b1 & ob2 & Ha & Hb & Hok). destruct He' as (-> & -> & a1' & b1' & ob2' & Ha' & Hb' & Hok').
  rewrite Ha in Ha'. injection Ha' as <-. apply joint_bodies_Ok in Hb. destruct Hb as [Hb1 Hb2]. apply joint_bodies_Ok in Hb'. destruct Hb' as [Hb1' Hb2'].
  destruct (Hp j i1 i2 (or_introl eq_refl)) as [Q|Q].
  2: { destruct Hok as (K & _). destruct Hok' as (K' & _). unfold entry_vel. rewrite Hb1, Hb1', K, K', (Q i1 (or_introl eq_refl)). destruct i2 as [i|].
       - destruct Hb2 as (c & _ & Hc). destruct Hb2' as (c' & _ & Hc'). rewrite Hc, Hc', (Q i (or_intror eq_refl)). unfold measured. destruct (j_kind j0); rewrite ?point_zero; reflexivity.
       - unfold measured. destruct (j_kind j0); rewrite ?point_zero; reflexivity. }
  pose proof (Q i1 b1 b1' (or_introl eq_refl) Hb1 Hb1') as E1.
  assert (Ep : b_pos b1' = b_pos b1) by (unfold b_pos; now rewrite E1). assert (Er : b_rot b1' = b_rot b1) by (unfold b_rot; now rewrite E1).
  destruct Hok as (K & _ & _ & _ & Hok). destruct Hok' as (K' & _ & _ & _ & Hok').
  unfold entry_vel. rewrite Hb1, Hb1', K, K', Ep.
  assert (E2 : match i2 with Some i => match nth_error (w_bodies a) i with Some b2 => Some (b_pos b2, v3_at x i) | None => None end | None => None end =
               match i2 with Some i => match nth_error (w_bodies w) i with Some b2 => Some (b_pos b2, v3_at x i) | None => None end | None => None end).
  { destruct i2 as [i|]; [|reflexivity]. destruct Hb2 as (c & -> & Hc). destruct Hb2' as (c' & -> & Hc'). rewrite Hc, Hc'. pose proof (Q i c c' (or_intror eq_refl) Hc Hc') as E. unfold b_pos. now rewrite E. }
  rewrite E2. destruct (j_kind j0); try reflexivity.
  - destruct Hok as (O1 & O2 & O3 & _). destruct Hok' as (P1 & P2 & P3 & _). now rewrite O3, P3, O2, P2, O1, P1, Ep, Er.
  - destruct Hok as (O1 & _). destruct Hok' as (P1 & _). now rewrite O1, P1, Ep.
Qed.

Section Coast.
Variables (la : lapack R) (mi fuel : nat) (o : oracle R) (hd : handler R) (bs : list (body R)) (js : list (joint R)) (J0 : list jent) (w0 : world R)
  (rest : nat -> bool) (F : R -> vecR) (n : nat).
Hypothesis HL : lapack_ok la.
Hypothesis Hf : handler_frame hd.
Hypothesis Hr : handler_respects hd.
Hypothesis Ho : broadphase_sane o.
Notation eng := (pdipm_engine la mi).
Notation dt := (w_dt w0).
Hypothesis S0 : sound bs js J0 w0.
Hypothesis Hm : Forall (fun b : body R => 0 < b_mass b /\ 0 < b_inertia b) bs.
Hypothesis HF : forall t, world_apply_forces w0 t = Ok (F t).
Hypothesis Hst : jointed w0 rest F.
Hypothesis Hbal : forall m, (m < n)%nat -> in_balance w0 rest (F (w_t w0 + INR m * dt)).
Notation poses m := (map fst (coasting w0 rest F m)).
Hypothesis HC : forall m, (m <= n)%nat -> clear_at o hd w0 (poses m).

Record coasted (m : nat) (a : world R) : Prop := {
  cs_sound : sound bs js J0 a;
  cs_valid : valid la a;
  cs_geom : Forall geom_ok (w_bodies a);
  cs_cfg : cfg a = cfg w0;
  cs_moved : Forall2 moved (w_bodies w0) (w_bodies a);
  cs_contacts : w_contacts a = [];
  cs_t : w_t a = w_t w0 + INR m * dt;
  cs_state : map (fun b => (b_p b, b_v b)) (w_bodies a) = coasting w0 rest F m }.

Lemma entry_pair a j i1 i : sound bs js J0 a -> In (j, i1, Some i) (w_joints a) -> (j_kind j = JJoint \/ j_kind j = JFixed) /\
  (exists b, nth_error (w_bodies a) i1 = Some b) /\ exists b, nth_error (w_bodies a) i = Some b.
Proof.
  intros Sa Hin. destruct (so_found _ _ _ _ Sa) as (_ & Hbu & He & [_ Hj] & _). apply In_nth_error in Hin. destruct Hin as [k Hk].
  destruct (nth_error_Forall2 _ _ _ _ _ Hj Hk) as ([[j0 m1] m2] & Hn0 & (<- & <- & a1 & b1 & b2 & Ha & Hb & Hok)).
  destruct (nth_error_Forall2 _ _ _ _ _ He Hn0) as (j' & Hj' & (-> & _ & H2)). apply joint_bodies_Ok in Hb. destruct Hb as [Hb1 (c & _ & Hc)]. destruct Hok as (K & _).
  split; [|eauto]. rewrite Forall_forall in Hbu. apply nth_error_In in Hj'. specialize (Hbu _ Hj'). rewrite K. destruct Hbu; cbn in H2 |- *; tauto.
Qed.
Lemma joint_rest a j i1 i2 : sound bs js J0 a -> In (j, i1, i2) (w_joints a) -> (rest i1 = true /\ (forall i, i2 = Some i -> rest i = true)) \/
  (exists i, i2 = Some i /\ rest i1 = false /\ rest i = false /\ alike w0 F i1 i).
Proof.
  intros Sa Hin. destruct (so_found _ _ _ _ S0) as (_ & _ & _ & [_ Hj] & _). destruct (so_found _ _ _ _ Sa) as (_ & _ & _ & [_ Hk] & _).
  apply In_nth_error in Hin. destruct Hin as [k Hk0]. destruct (nth_error_Forall2 _ _ _ _ _ Hk Hk0) as ([[j0 m1] m2] & Hn0 & (E1 & E2 & _)). subst m1 m2.
  destruct (nth_error_Forall2_l _ _ _ _ _ Hj Hn0) as ([[j' k1] k2] & Hn1 & (E1 & E2 & _)). subst k1 k2. apply nth_error_In in Hn1. destruct (proj1 Hst _ _ _ Hn1) as [[R1 R2]|Q]; [left|right; exact Q]. split; [exact R1|].
  intros i ->. exact R2.
Qed.
Lemma rest_cv a x : sound bs js J0 a -> length x = (3 * length (w_bodies a))%nat -> (forall i, rest i = true -> v3_at x i = zero3) ->
  (forall i k, (i < length (w_bodies a))%nat -> (k < length (w_bodies a))%nat -> rest i = false -> rest k = false -> alike w0 F i k -> fst (v3_at x i) = 0 /\ v3_at x k = v3_at x i) -> constraint_velocity a x = vzeros (w_num_constraints a).
Proof.
  intros Sa Lx Hx Ha. apply zeros_forall; [|exact (cv_length _ _ _ _ _ Sa Lx)]. rewrite cv_entries. apply flat_map_zero. intros [[j i1] i2] Hin. destruct (joint_rest a j i1 i2 Sa Hin) as [[R1 R2]|(i & -> & R1 & R2 & Al)].
  - apply entry_zero; [now apply Hx|]. intros i Ei. apply Hx. now apply R2.
  - destruct (entry_pair a j i1 i Sa Hin) as (K & [b Hb] & [c Hc]). destruct (Ha i1 i) as [Z E]; auto; try (apply nth_error_Some; congruence).
    unfold entry_vel. rewrite Hb, Hc, E. unfold measured, point_velocity, v2l, v2sub. rewrite Z. destruct K as [-> | ->]; cbn [fst snd app]; rnum; repeat (apply Forall_cons; [ring|]); apply Forall_nil.
Qed.
(** the part of a possible motion in the bodies at rest is possible *)
Lemma rest_part a x : sound bs js J0 a -> length x = (3 * length (w_bodies a))%nat -> constraint_velocity a x = vzeros (w_num_constraints a) ->
  constraint_velocity a (field rest (length (w_bodies a)) (v3_at x)) = vzeros (w_num_constraints a).
Proof.
  intros Sa Lx Cx. apply zeros_forall; [|exact (cv_length _ _ _ _ _ Sa (field_length _ _ _))]. rewrite cv_entries in Cx |- *. apply flat_map_zero. intros [[j i1] i2] Hin. destruct (joint_rest a j i1 i2 Sa Hin) as [[R1 R2]|(i & -> & R1 & R2 & Al)].
  - assert (E : entry_vel a (field rest (length (w_bodies a)) (v3_at x)) (j, i1, i2) = entry_vel a x (j, i1, i2)).
    { unfold entry_vel. destruct (nth_error (w_bodies a) i1) as [b|] eqn:Hb; [|reflexivity]. rewrite (field_at _ _ _ i1), R1 by (apply nth_error_Some; congruence). destruct i2 as [i|]; [|reflexivity].
      destruct (nth_error (w_bodies a) i) as [c|] eqn:Hc; [|reflexivity]. rewrite (field_at _ _ _ i), (R2 i eq_refl) by (apply nth_error_Some; congruence). reflexivity. }
    rewrite E. apply Forall_forall. intros z Hz. assert (In z (flat_map (entry_vel a x) (w_joints a))) as Q by (apply in_flat_map; eauto). rewrite Cx in Q. exact (repeat_spec _ _ _ Q).
  - apply entry_zero; [now apply field_out|]. intros k Ek. injection Ek as <-. now apply field_out.
Qed.
(** the accelerations *)
Definition accs (a : world R) (f : vecR) : vecR := field (fun i => negb (rest i)) (length (w_bodies a)) (fun i => match nth_error (w_bodies a) i with Some b => acceleration b (v3_at f i) | None => zero3 end).
Lemma accs_dalembert a f : sound bs js J0 a ->
  (forall i k, (i < length (w_bodies a))%nat -> (k < length (w_bodies a))%nat -> rest i = false -> rest k = false -> alike w0 F i k -> fst (v3_at (accs a f) i) = 0 /\ v3_at (accs a f) k = v3_at (accs a f) i) -> length f = (3 * length (w_bodies a))%nat -> in_balance a rest f -> dalembert a f (accs a f).
Proof.
  intros Sa Hal Lf Hb. set (k := length (w_bodies a)) in *. split.
  - apply rest_cv; auto; [apply field_length|]. intros i Hi. apply field_out. now rewrite Hi.
  - intros x Lx Cx. fold k in Lx. rewrite (dot_parts rest a x f Lx Lf), (kinetic_parts rest a x _ Lx). fold k.
    assert (Z1 : dot (field rest k (v3_at x)) f = 0).
    { apply Hb; [apply field_length| |intros i Hi; now apply field_out]. now apply rest_part. }
    assert (Z2 : kinetic a (field rest k (v3_at x)) (accs a f) = 0).
    { unfold kinetic. apply Rsum_zero. intros i b Hi. cbn [Nat.add]. destruct (rest i) eqn:Er.
      - unfold accs. rewrite (field_out (fun i => negb (rest i))) by (now rewrite Er). unfold component. cbn [fst snd]. ring.
      - rewrite (field_out rest) by exact Er. unfold component. cbn [fst snd]. ring. }
    rewrite Z1, Z2. apply (f_equal (Rplus 0)). rewrite (dot_fields a) by (auto using field_length). unfold kinetic. apply Rsum_mapi_ext. intros i b Hi. assert (Hk : (i < k)%nat) by (apply nth_error_Some; congruence).
    unfold accs. fold k. rewrite !field_at by exact Hk. destruct (rest i); cbn [negb]; unfold d3, component; cbn [fst snd]; [ring|]. rewrite Hi. unfold acceleration, v2scale. cbn [fst snd]. rnum.
    assert (Hp : 0 < b_mass b /\ 0 < b_inertia b).
    { destruct (nth_error_Forall2 _ _ _ _ _ (so_attrs _ _ _ _ Sa) Hi) as (b0 & Hb0 & (_ & Em & Ei & _)). rewrite Em, Ei. rewrite Forall_forall in Hm. apply Hm. eapply nth_error_In; eauto. }
    field. lra.
Qed.
Lemma coasting_at m i b : nth_error (w_bodies w0) i = Some b -> nth_error (coasting w0 rest F m) i =
  Some (if rest i then (b_p b, zero3) else coast dt (w_t w0) (fun t => acceleration b (v3_at (F t) i)) (b_p b) (b_v b) m).
Proof. intros H. unfold coasting. now rewrite mapi_nth, H. Qed.
Lemma coasting_none m i : nth_error (w_bodies w0) i = None -> nth_error (coasting w0 rest F m) i = None.
Proof. intros H. unfold coasting. now rewrite mapi_nth, H. Qed.
Lemma state_at m a i b0 : coasted m a -> nth_error (w_bodies w0) i = Some b0 -> exists b, nth_error (w_bodies a) i = Some b /\ same_attrs b0 b /\
  (b_p b, b_v b) = if rest i then (b_p b0, zero3) else coast dt (w_t w0) (fun t => acceleration b0 (v3_at (F t) i)) (b_p b0) (b_v b0) m.
Proof.
  intros [Sa _ _ _ _ _ _ E] H. destruct (nth_error_Forall2_l _ _ _ _ _ (attrs_common _ _ _ (so_attrs _ _ _ _ S0) (so_attrs _ _ _ _ Sa)) H) as (b & Hb & Ab). exists b. split; [exact Hb|]. split; [exact Ab|].
  pose proof (f_equal (fun l => nth_error l i) E) as Q. cbv beta in Q. rewrite nth_error_map, Hb, (coasting_at m i b0 H) in Q. exact (some_inj _ _ Q).
Qed.
(** bodies that move alike at the start do so later *)
Lemma coast_alike h acc1 acc2 k : (forall t, fst (acc1 t) = 0 /\ acc2 t = acc1 t) -> forall t p q v, fst v = 0 ->
  fst (snd (coast h t acc1 p v k)) = 0 /\ snd (coast h t acc2 q v k) = snd (coast h t acc1 p v k).
Proof.
  intros H. induction k as [|k IH]; intros t p q v Hv; [split; [exact Hv|reflexivity]|]. cbn [coast]. rewrite (proj2 (H t)). apply IH. unfold v3add, v3scale. cbn [fst]. rnum. rewrite Hv, (proj1 (H t)). ring.
Qed.
Lemma alike_vel m a i k : coasted m a -> (i < length (w_bodies a))%nat -> (k < length (w_bodies a))%nat -> rest i = false -> rest k = false -> alike w0 F i k ->
  fst (v3_at (w_v a) i) = 0 /\ v3_at (w_v a) k = v3_at (w_v a) i.
Proof.
  intros HA Li Lk Ri Rk Al. pose proof (cs_sound _ _ HA) as Sa. assert (Nb : length (w_bodies a) = length (w_bodies w0)) by (rewrite (so_len _ _ _ _ Sa), (so_len _ _ _ _ S0); reflexivity).
  rewrite Nb in Li, Lk. destruct (nth_error (w_bodies w0) i) as [b0|] eqn:Hb0; [|apply nth_error_None in Hb0; lia]. destruct (nth_error (w_bodies w0) k) as [c0|] eqn:Hc0; [|apply nth_error_None in Hc0; lia].
  destruct (state_at m a i b0 HA Hb0) as (b & Hb & _ & Q). destruct (state_at m a k c0 HA Hc0) as (c & Hc & _ & Q'). rewrite Ri in Q. rewrite Rk in Q'.
  rewrite <- (aligned_reads _ _ _ (so_v _ _ _ _ Sa) Hb), <- (aligned_reads _ _ _ (so_v _ _ _ _ Sa) Hc). destruct (Al b0 c0 Hb0 Hc0) as (Z & E & Ht).
  rewrite E in Q'. apply (f_equal snd) in Q, Q'. cbn [snd] in Q, Q'. rewrite Q, Q'. now apply coast_alike.
Qed.
Lemma alike_acc a t i k : sound bs js J0 a -> (i < length (w_bodies a))%nat -> (k < length (w_bodies a))%nat -> rest i = false -> rest k = false -> alike w0 F i k ->
  fst (v3_at (accs a (F t)) i) = 0 /\ v3_at (accs a (F t)) k = v3_at (accs a (F t)) i.
Proof.
  intros Sa Li Lk Ri Rk Al. assert (Nb : length (w_bodies a) = length (w_bodies w0)) by (rewrite (so_len _ _ _ _ Sa), (so_len _ _ _ _ S0); reflexivity).
  unfold accs. rewrite !field_at, Ri, Rk by assumption. cbn [negb]. pose proof (attrs_common _ _ _ (so_attrs _ _ _ _ S0) (so_attrs _ _ _ _ Sa)) as A0.
  rewrite Nb in Li, Lk. destruct (nth_error (w_bodies w0) i) as [b0|] eqn:Hb0; [|apply nth_error_None in Hb0; lia]. destruct (nth_error (w_bodies w0) k) as [c0|] eqn:Hc0; [|apply nth_error_None in Hc0; lia].
  destruct (nth_error_Forall2_l _ _ _ _ _ A0 Hb0) as (b & Hb & (_ & Em & Ei & _)). destruct (nth_error_Forall2_l _ _ _ _ _ A0 Hc0) as (c & Hc & (_ & Em' & Ei' & _)). rewrite Hb, Hc.
  destruct (Al b0 c0 Hb0 Hc0) as (_ & _ & Ht). specialize (Ht t). unfold acceleration in *. now rewrite Em, Ei, Em', Ei'.
Qed.
Lemma coasted_vel m a v c : (m < n)%nat -> coasted m a -> solve_dynamics la mi a dt = Ok (v, c) -> length v = (3 * length (w_bodies a))%nat /\
  (forall i b b0, nth_error (w_bodies a) i = Some b -> nth_error (w_bodies w0) i = Some b0 ->
     v3_at v i = if rest i then zero3 else v3add (b_v b) (v3scale dt (acceleration b0 (v3_at (F (w_t w0 + INR m * dt)) i)))) /\
  (forall i b b0, nth_error (w_bodies a) i = Some b -> nth_error (w_bodies w0) i = Some b0 ->
     (v3add (b_p b) (v3scale dt (v3_at v i)), v3_at v i) = if rest i then (b_p b0, zero3) else coast dt (w_t w0) (fun t => acceleration b0 (v3_at (F t) i)) (b_p b0) (b_v b0) (S m)).
Proof.
  intros Hmn HA Esol. pose proof HA as [Sa V G C M EC Et Es].
  assert (Eh : w_heap a = w_heap w0) by (clear - C; cfg_fields C; auto).
  pose proof (attrs_common _ _ _ (so_attrs _ _ _ _ S0) (so_attrs _ _ _ _ Sa)) as A0.
  set (t := w_t w0 + INR m * dt) in *. set (f := F t).
  assert (Ef : world_apply_forces a (w_t a) = Ok f) by (rewrite (apply_forces_same w0 a _ Eh A0), Et; apply HF).
  set (nb := length (w_bodies a)) in *. assert (Nb : nb = length (w_bodies w0)) by (unfold nb; rewrite (so_len _ _ _ _ Sa), (so_len _ _ _ _ S0); reflexivity).
  assert (Lf : length f = (3 * nb)%nat) by (destruct (apply_forces_layout _ _ _ Ef) as [L _]; exact L).
  (** the constraints measure what they measured at the start *)
  assert (Cv : forall x, (forall i, rest i = false -> v3_at x i = zero3) -> constraint_velocity a x = constraint_velocity w0 x).
  { intros x Zx. apply (cv_same bs js J0); auto. intros j i1 i2 Hin. destruct (joint_rest w0 j i1 i2 S0 Hin) as [[R1 R2]|(k & -> & R1 & R2 & _)].
    - left. intros i b b' Hi Hb Hb'. assert (Ri : rest i = true) by (destruct Hi as [<-|Hi]; auto). destruct (state_at m a i b HA Hb) as (b1 & Hb1 & _ & Q). rewrite Hb' in Hb1. injection Hb1 as <-. rewrite Ri in Q. congruence.
    - right. intros i [<-|Ei]; [now apply Zx|]. injection Ei as <-. now apply Zx. }
  assert (Nc : w_num_constraints a = w_num_constraints w0) by (clear - C; cfg_fields C; auto).
  assert (Bal : in_balance a rest f).
  { intros x Lx Cx Zx. fold nb in Lx. rewrite Cv, Nc in Cx by exact Zx. apply (Hbal m Hmn); auto. now rewrite <- Nb. }
  assert (Rv : forall i b, nth_error (w_bodies a) i = Some b -> rest i = true -> b_v b = zero3).
  { intros i b Hb Ri. destruct (nth_error (w_bodies w0) i) as [b0|] eqn:Hb0; [|apply nth_error_None in Hb0; assert (i < nb)%nat by (apply nth_error_Some; congruence); lia].
    destruct (state_at m a i b0 HA Hb0) as (b1 & Hb1 & _ & Q). rewrite Hb in Hb1. injection Hb1 as <-. rewrite Ri in Q. congruence. }
  pose proof (so_vlen _ _ _ _ Sa) as Lva. fold nb in Lva.
  assert (Rz : forall i, rest i = true -> v3_at (w_v a) i = zero3).
  { intros i Ri. destruct (nth_error (w_bodies a) i) as [b|] eqn:Hb; [|apply (over_at _ nb); [exact Lva|now apply nth_error_None in Hb]]. rewrite <- (aligned_reads _ _ _ (so_v _ _ _ _ Sa) Hb). now apply (Rv i). }
  pose proof (dalembert_solve la mi bs js J0 a HL Sa V Hm dt v c f (accs a f) EC Ef (rest_cv a (w_v a) Sa Lva Rz (fun i k => alike_vel m a i k HA)) (field_length _ _ _) (accs_dalembert a f Sa (fun i k => alike_acc a t i k Sa) Lf Bal) Esol) as Qv.
  assert (La : length (accs a f) = (3 * nb)%nat) by apply field_length. assert (Lv : length v = (3 * nb)%nat) by (rewrite Qv; vlen).
  (** the new velocities *)
  assert (Vi : forall i b b0, nth_error (w_bodies a) i = Some b -> nth_error (w_bodies w0) i = Some b0 ->
     v3_at v i = if rest i then zero3 else v3add (b_v b) (v3scale dt (acceleration b0 (v3_at f i)))).
  { intros i b b0 Hb Hb0. assert (Hi : (i < nb)%nat) by (apply nth_error_Some; congruence). rewrite Qv, (v3_at_add _ _ _ nb) by (auto; vlen). rewrite v3_at_scale. unfold accs. fold nb. rewrite field_at by exact Hi.
    rewrite <- (aligned_reads _ _ _ (so_v _ _ _ _ Sa) Hb). destruct (rest i) eqn:Ri; cbn [negb].
    - rewrite (Rv i b Hb Ri). unfold v3add, v3scale, v2add, v2scale. cbn [fst snd]. rnum. apply f_equal2; [|apply f_equal2]; ring.
    - rewrite Hb. destruct (nth_error_Forall2_l _ _ _ _ _ A0 Hb0) as (b' & Hb' & (_ & Em & Ei & _)). rewrite Hb in Hb'. injection Hb' as <-. unfold acceleration. now rewrite Em, Ei. }
  assert (Nx : forall i b b0, nth_error (w_bodies a) i = Some b -> nth_error (w_bodies w0) i = Some b0 ->
     (v3add (b_p b) (v3scale dt (v3_at v i)), v3_at v i) = if rest i then (b_p b0, zero3) else coast dt (w_t w0) (fun t => acceleration b0 (v3_at (F t) i)) (b_p b0) (b_v b0) (S m)).
  { intros i b b0 Hb Hb0. destruct (state_at m a i b0 HA Hb0) as (b1 & Hb1 & _ & Q). rewrite Hb in Hb1. injection Hb1 as <-. rewrite (Vi i b b0 Hb Hb0). destruct (rest i).
    - injection Q as Q1 Q2. rewrite Q1. apply f_equal2; [|reflexivity]. unfold v3add, v3scale, v2add, v2scale. cbn [fst snd]. rnum. destruct (b_p b0) as [p1 [p2 p3]]. cbn [fst snd]. apply f_equal2; [|apply f_equal2]; ring.
    - rewrite coast_snoc. rewrite <- Q. reflexivity. }
  split; [exact Lv|]. split; [exact Vi|exact Nx].
Qed.
Lemma coasted_next m a v c : (m < n)%nat -> coasted m a -> solve_dynamics la mi a dt = Ok (v, c) -> forall (l : list (body R)),
  (forall i b, nth_error (w_bodies a) i = Some b -> exists b', nth_error l i = Some b' /\ b_p b' = v3add (b_p b) (v3scale dt (v3_at v i))) ->
  length l = length (w_bodies a) -> map b_p l = poses (S m).
Proof.
  intros Hmn HA Esol. pose proof HA as [Sa V G C M EC Et Es]. destruct (coasted_vel m a v c Hmn HA Esol) as (Lv & Vi & Nx).
  set (nb := length (w_bodies a)) in *. assert (Nb : nb = length (w_bodies w0)) by (unfold nb; rewrite (so_len _ _ _ _ Sa), (so_len _ _ _ _ S0); reflexivity).
  assert (Next : forall (l : list (body R)), (forall i b, nth_error (w_bodies a) i = Some b -> exists b', nth_error l i = Some b' /\ b_p b' = v3add (b_p b) (v3scale dt (v3_at v i))) ->
     length l = nb -> map b_p l = poses (S m)).
  { intros l Hl Ll. apply nth_error_ext. intros i. rewrite !nth_error_map. destruct (nth_error (w_bodies w0) i) as [b0|] eqn:Hb0.
    - destruct (state_at m a i b0 HA Hb0) as (b & Hb & _). destruct (Hl i b Hb) as (b' & Hb' & Pb'). rewrite Hb', (coasting_at _ _ _ Hb0). cbn [option_map]. apply (f_equal Some). rewrite Pb'.
      exact (f_equal fst (Nx i b b0 Hb Hb0)).
    - rewrite (coasting_none _ _ Hb0). apply nth_error_None in Hb0. assert (Q : nth_error l i = None); [|now rewrite Q]. apply nth_error_None. lia. }
  exact Next.
Qed.
Lemma coasted_first m a v c w1 wm wf : (m < n)%nat -> coasted m a -> solve_dynamics la mi a dt = Ok (v, c) -> set_v (with_cache a c) v = Ok w1 ->
  move_all w1 dt = Ok wm -> find_contacts o hd wm = Ok wf -> w_contacts wf = [] /\ map b_p (w_bodies wf) = poses (S m).
Proof.
  intros Hmn HA Esol E1. pose proof HA as [Sa V G C M EC Et Es]. pose proof (coasted_next m a v c Hmn HA Esol) as Next. set (nb := length (w_bodies a)) in *.
  assert (C1 : cfg w1 = cfg a) by (rewrite (set_v_cfg _ _ _ E1); reflexivity).
  assert (M1 : Forall2 moved (w_bodies w0) (w_bodies w1)).
  { eapply Forall2_trans'; [apply moved_steps|exact M|]. apply set_v_inv in E1. destruct E1 as [_ ->]. cbn. apply Forall2_mapi. intros. apply (bs_v _ moved_steps). }
  intros Em Efc. assert (PP : map b_p (w_bodies wf) = poses (S m)).
    { pose proof (find_contacts_frame _ _ _ _ Hf Efc) as Q.
      assert (PB : map b_p (w_bodies wf) = map b_p (w_bodies wm)).
      { rewrite <- (map_ext _ _ forget_p), <- (map_ext _ _ forget_p (w_bodies wm)). rewrite <- (map_map forget b_p), <- (map_map forget b_p (w_bodies wm)). now rewrite Q. }
      rewrite PB. apply move_all_inv in Em. destruct Em as [jj ->]. apply set_v_inv in E1. destruct E1 as [_ ->]. cbn [w_bodies with_state with_cache]. apply Next; [|now rewrite map_length, mapi_length'].
      intros i b Hb. rewrite nth_error_map, mapi_nth, Hb. eexists. split; [reflexivity|]. unfold move. rewrite set_p_p. reflexivity. }
    split; [|exact PP]. apply (HC (S m) Hmn); [| |exact PP|exact (find_contacts_current _ _ _ _ Hf Efc)].
    - eapply Forall2_trans'; [apply moved_steps| |apply Forall2_forget'; [apply moved_steps|eapply find_contacts_frame; eauto]].
      eapply Forall2_trans'; [apply moved_steps|exact M1|]. apply move_all_inv in Em. destruct Em as [jj ->]. cbn. apply HistFacts.Forall2_map_r. intros. apply (bs_p _ moved_steps).
    - pose proof (find_contacts_cfg _ _ _ _ Efc) as Q1. pose proof (move_all_cfg _ _ _ Em) as Q2. clear - Q1 Q2 C1 C. cfg_fields Q1. cfg_fields Q2. cfg_fields C1. cfg_fields C. congruence.
Qed.
Lemma coasted_step m a a' : (m < n)%nat -> coasted m a -> step_dt fuel o hd eng a dt = Ok a' -> coasted (S m) a'.
Proof.
  intros Hmn HA H. pose proof HA as [Sa V G C M EC Et Es].
  destruct (step_poses la mi fuel o hd bs js J0 Hf Hr Ho a dt a' Sa V G H) as (v & c & k & w2 & dp & Esol & S2 & V2 & Ev & Hdp & Et' & (w1 & E1 & Ht) & HP).
  set (t := w_t w0 + INR m * dt) in *. set (nb := length (w_bodies a)) in *. assert (Nb : nb = length (w_bodies w0)) by (unfold nb; rewrite (so_len _ _ _ _ Sa), (so_len _ _ _ _ S0); reflexivity).
  destruct (coasted_vel m a v c Hmn HA Esol) as (Lv & Vi & Nx). pose proof (coasted_next m a v c Hmn HA Esol) as Next. fold nb in Lv, Next.
  pose proof (fun wm wf => coasted_first m a v c w1 wm wf Hmn HA Esol E1) as First.
  assert (K0 : w_contacts w2 = [] /\ map b_p (w_bodies w2) = poses (S m) /\ dt / 2 ^ k = dt).
  { inversion Ht as [? ? wm wf Em Efc _ | ? ? wm wf wr k' ? ? Em Efc Np]; subst.
    - destruct (First _ _ Em Efc) as [Q1 Q2]. split; [exact Q1|]. split; [exact Q2|]. cbn. field.
    - exfalso. unfold no_penetration in Np. rewrite (proj1 (First _ _ Em Efc)) in Np. discriminate. }
  destruct K0 as (EC2 & EP2 & Ek). rewrite Ek in *. clear Ht First.
  assert (Lb : length (w_bodies w2) = nb) by (unfold nb; rewrite (so_len _ _ _ _ S2), (so_len _ _ _ _ Sa); reflexivity).
  assert (Zdp : forall i, v3_at dp i = zero3).
  { intros i. destruct Hdp as [[_ ->]|[_ Hdp]]; [unfold v3_at; rewrite !vget_zeros; reflexivity|].
    destruct (post_balance bs js J0 w2 la S2 HL V2 dp Hdp) as (Ld & Cd & lam & y2 & _ & Ly2 & B2).
    assert (Zv : constraint_velocity w2 v = vzeros (w_num_constraints w2)).
    { apply rest_cv; auto; [now rewrite Lb| |].
      - intros i' Ri. destruct (nth_error (w_bodies w0) i') as [b0|] eqn:Hb0.
        + destruct (state_at m a i' b0 HA Hb0) as (b & Hb & _). rewrite (Vi i' b b0 Hb Hb0). now rewrite Ri.
        + apply nth_error_None in Hb0. apply (over_at _ nb); [exact Lv|lia].
      - intros i1 i2 L1 L2 R1 R2 Al. rewrite Lb in L1, L2. destruct (alike_vel m a i1 i2 HA L1 L2 R1 R2 Al) as [Z E]. rewrite Nb in L1, L2.
        destruct (nth_error (w_bodies w0) i1) as [b0|] eqn:Hb0; [|apply nth_error_None in Hb0; lia]. destruct (nth_error (w_bodies w0) i2) as [c0|] eqn:Hc0; [|apply nth_error_None in Hc0; lia].
        destruct (state_at m a i1 b0 HA Hb0) as (b & Hb & _). destruct (state_at m a i2 c0 HA Hc0) as (c1 & Hc1 & _). rewrite (Vi i1 b b0 Hb Hb0), (Vi i2 c1 c0 Hc1 Hc0), R1, R2.
        rewrite (aligned_reads _ _ _ (so_v _ _ _ _ Sa) Hb), (aligned_reads _ _ _ (so_v _ _ _ _ Sa) Hc1), E. destruct (Al b0 c0 Hb0 Hc0) as (_ & _ & Q). destruct (Q (w_t w0 + INR m * dt)) as [Q1 Q2]. rewrite Q2. split; [|reflexivity].
        unfold v3add, v3scale. cbn [fst]. rnum. rewrite Z, Q1. ring. }
    rewrite Ev, Zv in Cd. assert (Cd' : constraint_velocity w2 dp = vzeros (w_num_constraints w2)). { rewrite Cd. apply vext; [now rewrite vopp_length|]. intros k' Hk'. rewrite vget_vopp, !vget_zeros. ring. }
    assert (Q : dp = vzeros (3 * length (w_bodies w2))).
    { apply (kinetic_zero bs js J0 w2 S2 Hm dp Ld). rewrite (B2 dp Ld), EC2, Cd', dot_zeros_r. unfold contact_power. destruct (map (fun l => (l, 0)) lam); cbn; lra. }
    rewrite Q. unfold v3_at. rewrite !vget_zeros. reflexivity. }
  assert (Laa : length (w_bodies a') = nb) by (symmetry; apply (Forall2_len _ _ _ (step_dt_attrs _ _ _ _ _ _ _ Hf H))).
  assert (Saa : sound bs js J0 a') by exact (sound_step_dt bs js J0 o hd Hf Hr Ho fuel eng a dt a' Sa H).
  assert (HP' : forall i b, nth_error (w_bodies a) i = Some b -> exists b', nth_error (w_bodies a') i = Some b' /\ b_p b' = v3add (b_p b) (v3scale dt (v3_at v i))).
  { intros i b Hb. destruct (HP i b Hb) as (b' & Hb' & Pb'). exists b'. split; [exact Hb'|]. rewrite Pb', Zdp.
    unfold v3add, v3scale, v2add, v2scale. cbn [fst snd]. rnum. apply f_equal2; [|apply f_equal2]; ring. }
  assert (Pa : map b_p (w_bodies a') = poses (S m)) by (apply Next; [exact HP'|exact Laa]).
  assert (Ma : Forall2 moved (w_bodies w0) (w_bodies a')) by exact (step_dt_bodies _ moved_steps fuel o hd eng w0 a dt a' Hf M H).
  assert (Ca : cfg a' = cfg w0) by (rewrite <- C; eapply step_dt_cfg; eauto).
  constructor; auto.
  - exact (valid_step _ _ _ _ _ _ _ _ Hf V H).
  - assert (Q : Forall2 geom_rel (w_bodies a) (w_bodies a')) by (eapply step_dt_bodies; eauto; [apply geom_steps|apply Forall2_refl', geom_steps]).
    clear - Q G. revert G. induction Q as [|x y l l' Hxy Q IH]; intros G; constructor; apply Forall_cons_iff in G; [now apply Hxy|apply IH, G].
  - apply (HC (S m) Hmn); auto; [clear - Ca; cfg_fields Ca; congruence|]. exact (step_dt_current _ _ _ _ _ _ _ Hf H).
  - rewrite Et', Et. unfold t. rewrite S_INR. ring.
  - apply nth_error_ext. intros i. rewrite nth_error_map. destruct (nth_error (w_bodies w0) i) as [b0|] eqn:Hb0.
    + destruct (state_at m a i b0 HA Hb0) as (b & Hb & _). destruct (HP' i b Hb) as (b' & Hb' & Pb'). rewrite Hb', (coasting_at _ _ _ Hb0). cbn [option_map]. apply (f_equal Some).
      eapply eq_trans; [|exact (Nx i b b0 Hb Hb0)]. apply f_equal2; [exact Pb'|].
      rewrite (aligned_reads _ _ _ (so_v _ _ _ _ Saa) Hb'). destruct (step_dt_v _ _ _ _ _ _ _ H) as (v' & c' & Es' & ->). cbn [e_solve pdipm_engine] in Es'. rewrite Esol in Es'. injection Es' as <- <-. reflexivity.
    + rewrite (coasting_none _ _ Hb0). apply nth_error_None in Hb0. assert (Q : nth_error (w_bodies a') i = None); [|now rewrite Q]. apply nth_error_None. lia.
Qed.
End Coast.
Lemma structure_jointed (w : world R) rest F : structure w rest -> jointed w rest F.
Proof. intros [H H2]. split; [|exact H2]. intros j i1 i2 Hin. left. exact (H j i1 i2 Hin). Qed.
