(** Kinetic energy over whole runs *)
From Coq Require Import List Arith ZArith Bool Reals Lra Lia.
From Verif Require Import Num Tensor Utils Bodies Forces Constraints Contacts World Lapack Pdipm Lcp Engines Spec GeoSpec BodySpec JointSpec FreshSpec EngineSpec ContactSpec EnergySpec
     RBase ResFacts LinAlg LapackSpec KktSpec PdipmSpec WorldFacts HandlerFacts LayoutFacts HistFacts SysFacts RewindFacts JointFacts JeFacts FreshFacts
     CacheFacts BodyReach GeomFacts PdipmFacts PdipmLoop SolverFacts EngineFacts ContactSys EngineBalance ContactLaw EnergyFacts MomentumFacts EngineTotal PostFacts HeldFacts FreeFacts CollideFacts EngineProps EngineMore FuelFacts.
Import ListNotations.
Open Scope R_scope.

Lemma session_later la mi o hd bs js w fuel ops w' : session la mi o hd bs js w -> exec fuel o hd (pdipm_engine la mi) ops w = Ok w' -> session la mi o hd bs js w'.
Proof.
  intros [f gf heap dt eps tol fd ps st w0 ops0 H1 H2 H3 H4 H5 H6 H7] H. apply (session_history _ _ _ _ _ _ _ (Nat.max f fuel) gf heap dt eps tol fd ps st w0 (ops0 ++ ops)); auto.
  apply (exec_app o hd _ _ _ _ _ w); [apply (exec_fuel o hd _ f)|apply (exec_fuel o hd _ fuel)]; auto; lia.
Qed.
Lemma norm2_vopp (x : vecR) : norm2 (vopp x) = norm2 x.
Proof. unfold norm2. f_equal. rewrite dot_vopp_l, dot_vopp_r. ring. Qed.

Section Runs.
Variables (la : lapack R) (mi fuel : nat) (o : oracle R) (hd : handler R).
Lemma run_snoc cost w errs w1 : run la mi fuel o hd cost w errs w1 ->
  (forall dt w', w_contacts w1 = [] -> step_dt fuel o hd (pdipm_engine la mi) w1 dt = Ok w' -> run la mi fuel o hd cost w (errs ++ [0]) w') /\
  (forall dt it r w', w_contacts w1 <> [] -> step_dt fuel o hd (pdipm_engine la mi) w1 dt = Ok w' -> engine_point la mi w1 dt it r -> w_v w' = vopp (i_x it) ->
     run la mi fuel o hd cost w (errs ++ [cost w1 (vopp (i_x it)) (i_z it) r]) w').
Proof.
  induction 1 as [w|w dt w1 errs w' Hc Hs Hr [I1 I2]|w dt it r w1 errs w' Hc Hs He Hv Hr [I1 I2]]; split; intros; cbn [app].
  - eapply run_free; eauto. constructor.
  - eapply run_contacts; eauto. constructor.
  - eapply run_free; eauto.
  - eapply run_free; eauto.
  - eapply run_contacts; eauto.
  - eapply run_contacts; eauto.
Qed.
Lemma Rsum_snoc l x : Rsum (l ++ [x]) = Rsum l + x.
Proof. induction l as [|a l IH]; [unfold Rsum; cbn; ring|]. unfold Rsum in *. cbn [fold_right app]. rewrite IH. ring. Qed.

Variables (bs : list (body R)) (js : list (joint R)).
Hypothesis HL : lapack_ok la.
Hypothesis Hm : Forall (fun b => 0 <= b_mass b /\ 0 <= b_inertia b) bs.
Hypothesis Hn : Forall (fun b => b_forces b = []) bs.
Notation ssn := (session la mi o hd bs js).

Lemma later_attrs w : ssn w -> Forall2 same_attrs bs (w_bodies w).
Proof. intros Hs. destruct (session_facts _ _ _ _ _ _ _ Hs) as (_ & _ & _ & _ & J0 & S & _). exact (so_attrs _ _ _ _ S). Qed.
Lemma later_mass w : ssn w -> Forall (fun b => 0 <= b_mass b /\ 0 <= b_inertia b) (w_bodies w).
Proof.
  intros Hs. pose proof (later_attrs w Hs) as A. clear - A Hm. revert Hm. induction A as [|a b l l' (_ & E1 & E2 & _) A IH]; intros H; constructor; apply Forall_cons_iff in H; [now rewrite E1, E2|now apply IH].
Qed.
Lemma later_forces w : ssn w -> forall f, world_apply_forces w (w_t w) = Ok f -> f = vzeros (3 * length (w_bodies w)).
Proof. intros Hs f. destruct (session_facts _ _ _ _ _ _ _ Hs) as (_ & _ & _ & _ & J0 & S & _). exact (no_forces _ _ _ _ _ S Hn). Qed.
Lemma later_coeff w (f : body R -> R) a : (forall b b', same_attrs b b' -> f b' = f b) -> ssn w -> Forall (fun b => f b = a) bs -> forall c, In c (w_contacts w) -> mixed w f c = a.
Proof.
  intros Hf Hs Ha c Hc. destruct (session_facts _ _ _ _ _ _ _ Hs) as (_ & _ & _ & _ & J0 & S & _). pose proof (so_pairs _ _ _ _ S) as P. rewrite Forall_forall in P. destruct (P c Hc) as (_ & P1 & P2).
  assert (G : forall i, (i < length bs)%nat -> body_at (w_bodies w) f i = a).
  { intros i Hi. destruct (nth_error bs i) as [b|] eqn:Hb; [|apply nth_error_None in Hb; lia]. destruct (nth_error_Forall2_l _ _ _ _ _ (so_attrs _ _ _ _ S) Hb) as (b' & Hb' & E).
    unfold body_at. rewrite Hb', (Hf _ _ E). rewrite Forall_forall in Ha. apply Ha. eapply nth_error_In; eauto. }
  unfold mixed. rewrite !G by auto. lra.
Qed.
(** solved velocities keep meeting grounded constraints, wherever the bodies are *)
Lemma grounded_velocity w w' J0 v : Forall grounded js -> sound bs js J0 w -> sound bs js J0 w' -> constraint_velocity w v = vzeros (w_num_constraints w) ->
  length v = (3 * length (w_bodies w'))%nat -> constraint_velocity w' v = vzeros (w_num_constraints w').
Proof.
  intros Hg S1 S2 E Lv. assert (Z : Forall (fun a => a = 0) (constraint_velocity w' v)).
  { rewrite cv_entries. apply Forall_forall. intros a Ha. apply in_flat_map in Ha. destruct Ha as (e & He & Ha).
    destruct (so_found _ _ _ _ S1) as (_ & _ & F0 & [_ F1] & _). destruct (so_found _ _ _ _ S2) as (_ & _ & _ & [_ F2] & _).
    apply In_nth_error in He. destruct He as [k Hk]. destruct (nth_error_Forall2 _ _ _ _ _ F2 Hk) as ([[j0 m1] m2] & Hn0 & Q2).
    destruct (nth_error_Forall2 _ _ _ _ _ F0 Hn0) as (j & Hj & (Ej & _)). destruct (nth_error_Forall2_l _ _ _ _ _ F1 Hn0) as ([[j1 k1] k2] & Hn1 & Q1).
    destruct e as [[j2 l1] l2]. destruct Q2 as (-> & -> & a1 & b1 & b2 & _ & Hb & Hok). destruct Q1 as (-> & -> & a1' & b1' & b2' & _ & Hb' & Hok').
    apply joint_bodies_Ok in Hb, Hb'. destruct Hb as [Hb _], Hb' as [Hb' _].
    assert (Ek : j_kind j2 = j_kind j0) by apply Hok. assert (Ek' : j_kind j1 = j_kind j0) by apply Hok'.
    assert (Hh : held (j_kind j1) (0, (0, 0)) (v3_at v m1)).
    { apply (zero_still w v j1 m1 m2 b1' Hb'). apply Forall_forall. intros x Hx. rewrite cv_entries in E. assert (In x (flat_map (entry_vel w v) (w_joints w))) as Q.
      { apply in_flat_map. eexists. split; [eapply nth_error_In; exact Hn1|exact Hx]. } rewrite E in Q. exact (repeat_spec _ _ _ Q). }
    rewrite Ek', <- Ek in Hh. pose proof (still_zero w' v j2 m1 m2 b1 Hb Hh) as Y. rewrite Forall_forall in Hg. specialize (Hg j (nth_error_In _ _ Hj)). unfold grounded in Hg. rewrite Ek in Y. subst j0.
    destruct (j_kind j); try destruct Hg; rewrite Forall_forall in Y; exact (Y a Ha). }
  assert (L : length (constraint_velocity w' v) = w_num_constraints w').
  { rewrite <- (Je_cv bs js J0 w' S2 v Lv), mv_length. apply (wf_length _ _ _ (so_Je _ _ _ _ S2)). }
  rewrite <- L. clear - Z. induction Z as [|a l -> Z IH]; [reflexivity|]. cbn [length vzeros repeat]. unfold vzeros in IH. cbn [repeat]. f_equal. exact IH.
Qed.

(** one step *)
Section Bound.
Variables (cost : world R -> vecR -> vecR -> R -> R) (good : world R -> Prop).
Hypothesis step_cost : forall w dt it r, ssn w -> good w -> w_contacts w <> [] -> world_apply_forces w (w_t w) = Ok (vzeros (3 * length (w_bodies w))) -> engine_point la mi w dt it r ->
  kinetic_energy w (vopp (i_x it)) <= kinetic_energy w (w_v w) + cost w (vopp (i_x it)) (i_z it) r.
Hypothesis step_good : forall w dt w', ssn w -> good w -> step_dt fuel o hd (pdipm_engine la mi) w dt = Ok w' -> good w'.
Lemma energy_run ops w w' : ssn w -> good w -> undisturbed ops -> exec fuel o hd (pdipm_engine la mi) ops w = Ok w' -> exists errs,
  run la mi fuel o hd cost w errs w' /\ kinetic_energy w' (w_v w') <= kinetic_energy w (w_v w) + Rsum errs.
Proof.
  intros Hs Hg Hu H. set (P := fun a => ssn a /\ good a /\ exists errs, run la mi fuel o hd cost w errs a /\ kinetic_energy a (w_v a) <= kinetic_energy w (w_v w) + Rsum errs).
  enough (P w') by apply H0. apply (exec_undisturbed fuel o hd (pdipm_engine la mi) P) with ops w; auto.
  - intros a dt a' (S1 & G1 & errs & R1 & E1) Hd. split; [|split].
    + apply (session_later la mi o hd bs js a fuel [OStepDt dt] a' S1). cbn [exec]. rewrite Hd. reflexivity.
    + exact (step_good a dt a' S1 G1 Hd).
    + destruct (session_energy la mi o hd bs js a fuel dt a' S1 Hd) as (v & c & Ev & Ek). destruct (step_dt_v _ _ _ _ _ _ _ Hd) as (v' & c' & Ev' & Ew). cbn [e_solve pdipm_engine] in Ev'. rewrite Ev in Ev'. injection Ev' as <- <-.
      pose proof (session_world _ _ _ _ _ _ _ S1) as W1. assert (F1 : world_apply_forces a (w_t a) = Ok (vzeros (3 * length (w_bodies a)))).
      { pose proof Ev as Ev'. unfold solve_dynamics in Ev'. cbv zeta in Ev'. bind_inv Ev' as f Ef. rewrite (later_forces a S1 f Ef) in Ef. exact Ef. }
      destruct (run_snoc cost w errs a R1) as [N1 N2]. destruct (w_contacts a) as [|c0 cs] eqn:Ec.
      * exists (errs ++ [0]). split; [exact (N1 dt a' eq_refl Hd)|]. rewrite Rsum_snoc, Ek. pose proof (energy_free la mi bs js a dt HL W1 (later_mass a S1) v c Ec F1 Ev). lra.
      * assert (Hne : w_contacts a <> []) by (rewrite Ec; discriminate). destruct (solved_point la mi bs js a dt HL W1 Hne v c Ev) as (it & r & Hp & ->).
        exists (errs ++ [cost a (vopp (i_x it)) (i_z it) r]). split; [apply (N2 dt); auto; discriminate|]. rewrite Rsum_snoc, Ek. pose proof (step_cost a dt it r S1 G1 Hne F1 Hp). lra.
  - split; [exact Hs|]. split; [exact Hg|]. exists []. split; [constructor|]. unfold Rsum. cbn. lra.
Qed.
End Bound.
Lemma energy_run_inelastic ops w w' : ssn w -> Forall (fun b => b_rest b = 0) bs -> undisturbed ops -> exec fuel o hd (pdipm_engine la mi) ops w = Ok w' -> exists errs,
  run la mi fuel o hd inelastic_cost w errs w' /\ kinetic_energy w' (w_v w') <= kinetic_energy w (w_v w) + Rsum errs.
Proof.
  intros Hs Hr. apply (energy_run inelastic_cost (fun _ => True)); auto. intros a dt it r S1 _ Hne F1 Hp. unfold inelastic_cost. rewrite norm2_vopp.
  apply (energy_point_inelastic la mi bs js a dt HL (session_world _ _ _ _ _ _ _ S1) (later_mass a S1) Hne F1 it r Hp). apply later_coeff; auto. intros b b' E. apply E.
Qed.
Lemma energy_run_frictionless e ops w w' : ssn w -> 0 <= e <= 1 -> Forall (fun b => b_rest b = e /\ b_fric b = 0) bs -> Forall grounded js -> constraint_velocity w (w_v w) = vzeros (w_num_constraints w) ->
  undisturbed ops -> exec fuel o hd (pdipm_engine la mi) ops w = Ok w' -> exists errs,
  run la mi fuel o hd (frictionless_cost e) w errs w' /\ kinetic_energy w' (w_v w') <= kinetic_energy w (w_v w) + Rsum errs.
Proof.
  intros Hs He Hr Hg Hc. apply (energy_run (frictionless_cost e) (fun a => constraint_velocity a (w_v a) = vzeros (w_num_constraints a))); auto.
  - intros a dt it r S1 C1 Hne F1 Hp.
    assert (Q := energy_point_frictionless la mi bs js a dt HL (session_world _ _ _ _ _ _ _ S1) (later_mass a S1) Hne F1 e it r Hp He).
    assert (K : (forall c, In c (w_contacts a) -> mixed a b_rest c = e /\ mixed a b_fric c = 0)).
    { intros c Hin. split; apply later_coeff; auto; try (intros b b' E; apply E); (eapply Forall_impl; [|exact Hr]); intros b E; apply E. }
    specialize (Q K C1). unfold frictionless_cost. rewrite norm2_vopp. apply (Rmult_le_reg_l (1 + e)); [lra|]. rewrite Rmult_plus_distr_l.
    replace ((1 + e) * (r * (slack (length (w_contacts a)) (i_z it) + slip_total a (vopp (i_x it)) + e * slip_total a (w_v a) + norm2 (i_x it) + e * norm2 (w_v a)) / (1 + e)))
      with (r * (slack (length (w_contacts a)) (i_z it) + slip_total a (vopp (i_x it)) + e * slip_total a (w_v a) + norm2 (i_x it) + e * norm2 (w_v a))) by (field; lra). exact Q.
  - intros a dt a' S1 C1 Hd. destruct (step_dt_v _ _ _ _ _ _ _ Hd) as (v & c & Ev & ->). cbn [e_solve pdipm_engine] in Ev.
    destruct (session_facts _ _ _ _ _ _ _ S1) as (Hf & Hrr & Ho & _ & J0 & Sa & Va). pose proof (sound_step_dt bs js J0 o hd Hf Hrr Ho fuel _ a dt a' Sa Hd) as Sa'.
    destruct (solve_balance bs js J0 a la mi Sa HL Va dt v c Ev) as (f & imps & y & _ & Lv & _ & EC). apply (grounded_velocity a a' J0 v Hg Sa Sa' EC).
    rewrite Lv, (so_len _ _ _ _ Sa), (so_len _ _ _ _ Sa'). reflexivity.
Qed.
End Runs.
