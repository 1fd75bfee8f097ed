(** Joined bodies falling (proofs for C95) *)
From Coq Require Import List Arith ZArith Bool Reals Lra Lia.
From Verif Require Import Num Tensor Utils Bodies Forces Constraints Contacts World Lapack Pdipm Lcp Engines Spec GeoSpec JointSpec FreshSpec EngineSpec WellSpec StaticsSpec FallSpec JointSpec
     RBase ResFacts LinAlg LapackSpec KktSpec PdipmSpec WorldFacts HandlerFacts LayoutFacts HistFacts SysFacts RewindFacts JointFacts JeFacts FreshFacts
     CacheFacts BodyReach GeomFacts PdipmFacts PdipmLoop SolverFacts EngineFacts ContactSys EngineBalance MomentumFacts PostFacts HeldFacts FreeFacts DriftFacts ContactLaw EnergyFacts EngineTotal
     EngineProps EngineMore QpFacts WellFacts WellProps SteadyFacts FlightFacts GroupFacts EnergyRun StaticsFacts StaticsProps RunTotal SceneInit GroupFacts BesideRun.
Import ListNotations.
Open Scope R_scope.

Definition none (i : nat) : bool := false.
Lemma coast_sunk dt g n : forall t p u, coast dt t (fun _ => (0, g)) p (0, u) n = ((fst p, v2add (snd p) (sunk dt u g n)), (0, speed dt u g n)).
Proof.
  induction n as [|n IH]; intros t p u.
  - cbn [coast]. destruct p as [a [x y]], u as [u1 u2], g as [g1 g2]. unfold sunk, speed, v2add, v2scale. cbn. rnum. apply f_equal2; [apply f_equal2; [reflexivity|apply f_equal2; field]|apply f_equal2; [reflexivity|apply f_equal2; ring]].
  - cbn [coast]. destruct p as [a [x y]], u as [u1 u2], g as [g1 g2]. unfold v3add, v3scale, v2add, v2scale. cbn [fst snd]. rnum. replace (0 + dt * 0) with 0 by ring. rewrite IH. replace (a + dt * 0) with a by ring.
    unfold sunk, speed, v2add, v2scale. cbn [fst snd]. rnum. rewrite S_INR. apply f_equal2; [apply f_equal2; [reflexivity|apply f_equal2; field]|apply f_equal2; [reflexivity|apply f_equal2; ring]].
Qed.
Section Fall.
Variables (bs : list (body R)) (js : list (joint R)) (J0 : list (joint R * nat * option nat)) (w : world R) (F : R -> vecR) (u g : v2 R).
Hypothesis S0 : sound bs js J0 w.
Hypothesis Hl : linked js.
Hypothesis HG : falling w F u g.
Lemma fall_jointed : jointed w none F.
Proof.
  split; [|intros i b _ Q; discriminate Q]. intros j i1 i2 Hin. right. destruct (so_found _ _ _ _ S0) as (_ & _ & He & [_ Hj] & _). apply In_nth_error in Hin. destruct Hin as [k Hk].
  destruct (nth_error_Forall2 _ _ _ _ _ Hj Hk) as ([[j0 m1] m2] & Hn0 & (<- & <- & _)). destruct (nth_error_Forall2 _ _ _ _ _ He Hn0) as (j' & Hj' & (_ & _ & H2)).
  unfold linked in Hl. rewrite Forall_forall in Hl. specialize (Hl j' (nth_error_In _ _ Hj')). destruct (j_b2 j') as [id|]; [|congruence]. destruct i2 as [i|]; [|destruct H2].
  exists i. split; [reflexivity|]. split; [reflexivity|]. split; [reflexivity|]. intros b c Hb Hc. destruct (HG i1 b Hb) as [V A], (HG i c Hc) as [V' A']. rewrite V, V'. split; [reflexivity|]. split; [reflexivity|]. intros t. rewrite A, A'. split; reflexivity.
Qed.
Lemma fall_balance f : length f = (3 * length (w_bodies w))%nat -> in_balance w none f.
Proof. intros Lf x Lx _ Z. rewrite (vec3_ext (length (w_bodies w)) x (vzeros (3 * length (w_bodies w))) Lx (vzeros_length _)); [apply dot_zeros_l|]. intros i _. rewrite (Z i eq_refl). unfold v3_at. rewrite !vget_zeros. reflexivity. Qed.
Lemma coast_same h acc acc' n : (forall t, acc t = acc' t) -> forall t p v, coast h t acc p v n = coast h t acc' p v n.
Proof. intros H. induction n as [|n IH]; intros t p v; cbn [coast]; [reflexivity|]. now rewrite IH, H. Qed.
Lemma fall_coasting n : coasting w none F n = shifted w u g n.
Proof.
  apply nth_error_ext. intros i. unfold coasting, shifted. rewrite mapi_nth, nth_error_map. destruct (nth_error (w_bodies w) i) as [b|] eqn:Hb; [|reflexivity]. cbn [option_map none]. apply (f_equal Some). destruct (HG i b Hb) as [V A].
  rewrite (coast_same _ _ (fun _ => (0, g)) n A), V. apply coast_sunk.
Qed.
End Fall.
Theorem joined_fall la mi o hd bs js w F u g fuel fixed w' :
  lapack_ok la -> session la mi o hd bs js w -> Forall (fun b : body R => 0 < b_mass b /\ 0 < b_inertia b) bs -> 0 < w_dt w ->
  (forall t, world_apply_forces w t = Ok (F t)) -> linked js -> falling w F u g ->
  (forall m, (m <= length fixed)%nat -> clear_at o hd w (map fst (shifted w u g m))) ->
  exec fuel o hd (pdipm_engine la mi) (map (@OStep R) fixed) w = Ok w' ->
  w_t w' = w_t w + INR (length fixed) * w_dt w /\ w_contacts w' = [] /\
  map (fun b => (b_p b, b_v b)) (w_bodies w') = shifted w u g (length fixed).
Proof.
  intros HL Hs Hm Hdt HF Hl HG HC HX. destruct (session_facts _ _ _ _ _ _ _ Hs) as (_ & _ & _ & _ & J0 & S0 & _).
  rewrite <- (fall_coasting w F u g HG). apply (session_coast la mi o hd bs js w none F fuel fixed w' HL Hs Hm Hdt HF); auto.
  - eapply fall_jointed; eauto.
  - intros m _. apply fall_balance. exact (proj1 (apply_forces_layout _ _ _ (HF _))).
  - intros m Hk. rewrite (fall_coasting w F u g HG). now apply HC.
Qed.
Theorem joined_run gf o bs js hh dt eps tol ps st w F u g la mi K lfuel fuel run_time :
  broadphase_sane o -> Forall available bs -> Forall (fit gf) bs -> NoDup (map b_id bs) -> Forall (built bs) js ->
  world_init o (diff_handler gf o) hh bs js dt eps tol 2 ps st = Ok w -> loop_free js -> Forall (fun b : body R => 0 < b_mass b /\ 0 < b_inertia b) bs ->
  (forall t, world_apply_forces w t = Ok (F t)) -> linked js -> falling w F u g -> lapack_ok la -> (0 < mi)%nat ->
  (forall m, (m <= K)%nat -> clear_at o (diff_handler gf o) w (map fst (shifted w u g m))) ->
  (forall m, (m < K)%nat -> INR m * dt < run_time) -> run_time <= INR K * dt -> (K < fuel)%nat ->
  exists w', run_world fuel (S lfuel) o (diff_handler gf o) (pdipm_engine la mi) run_time w = Ok w' /\
    map (fun b => (b_p b, b_v b)) (w_bodies w') = shifted w u g K /\ w_t w' = INR K * dt /\ w_contacts w' = [].
Proof.
  intros Ho Hav Hfit Hid Hjs Hw Hlf Hm HF Hl HG HL Hmi HC Hlt Hle Hfu.
  destruct (session_facts _ _ _ _ _ _ _ (beside_session gf o bs js Ho Hav Hid Hjs hh dt eps tol ps st w la mi Hw)) as (_ & _ & _ & _ & J0 & S0 & _).
  rewrite <- (fall_coasting w F u g HG). apply (beside_run gf o bs js Ho Hav Hfit Hid Hjs hh dt eps tol ps st w none F la mi Hw Hlf Hm HF); auto.
  - eapply fall_jointed; eauto.
  - intros m _. apply fall_balance. exact (proj1 (apply_forces_layout _ _ _ (HF _))).
  - intros m Hk. rewrite (fall_coasting w F u g HG). now apply HC.
Qed.
