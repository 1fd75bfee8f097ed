(** The engine facts, stated for worlds reached from the constructor *)
From Coq Require Import List Arith ZArith Bool Reals Lra Lia.
From Verif Require Import Num Tensor Utils Bodies Forces Constraints Contacts World Lapack Pdipm Lcp Engines Spec GeoSpec BodySpec JointSpec FreshSpec EngineSpec ContactSpec
     RBase ResFacts LinAlg LapackSpec KktSpec PdipmSpec WorldFacts HandlerFacts LayoutFacts HistFacts SysFacts RewindFacts JointFacts JeFacts FreshFacts
     CacheFacts BodyReach GeomFacts PdipmFacts PdipmLoop SolverFacts EngineFacts ContactSys EngineBalance ContactLaw EnergyFacts MomentumFacts EngineTotal PostFacts HeldFacts FreeFacts CollideFacts.
Import ListNotations.
Open Scope R_scope.

Lemma callback_frame gf (o : oracle R) hd : hd = diff_handler gf o \/ hd = ode_handler o -> handler_frame hd /\ handler_respects hd.
Proof. intros [-> | ->]; split; auto using diff_handler_frame, ode_handler_frame, diff_handler_respects, ode_handler_respects. Qed.
Lemma session_world la mi o hd bs js w : session la mi o hd bs js w -> engine_world la mi bs js w.
Proof. intros [fuel gf heap dt eps tol fd ps st w0 ops Hh Ho Hn Hb Ha H0 Hx]. econstructor; eauto. Qed.
Lemma session_facts la mi o hd bs js w : session la mi o hd bs js w ->
  handler_frame hd /\ handler_respects hd /\ broadphase_sane o /\ Forall geom_ok (w_bodies w) /\ exists J0, sound bs js J0 w /\ valid la w.
Proof.
  intros Hs. pose proof (engine_world_sound _ _ _ _ _ (session_world _ _ _ _ _ _ _ Hs)) as HJ. destruct Hs as [fuel gf heap dt eps tol fd ps st w0 ops Hh Ho Hn Hb Ha H0 Hx].
  destruct (callback_frame _ _ _ Hh) as [Hf Hr]. split; [exact Hf|]. split; [exact Hr|]. split; [exact Ho|]. split; [|exact HJ].
  pose proof (world_steps _ geom_steps _ _ _ _ _ _ _ _ _ _ _ _ _ _ _ _ Hf H0 Hx) as F. rewrite Forall_forall in *. intros b Hin.
  destruct (Forall2_In_r _ _ _ _ F Hin) as (a & Hina & Hrel). apply Hrel, available_geom, Ha, Hina.
Qed.
Lemma session_exec la mi o hd bs js w fuel ops w' : session la mi o hd bs js w -> exec fuel o hd (pdipm_engine la mi) ops w = Ok w' ->
  forall J0, sound bs js J0 w -> valid la w -> sound bs js J0 w' /\ valid la w'.
Proof.
  intros Hs Hx J0 S V. destruct (session_facts _ _ _ _ _ _ _ Hs) as (Hf & Hr & Ho & _). split.
  - exact (sound_exec bs js J0 o hd Hf Hr Ho fuel _ ops w w' S Hx).
  - destruct (exec_uncached la mi fuel o hd ops Hf w V) as [_ E]. exact (E w' Hx).
Qed.

(** *** the contact law *)
Lemma engine_problem_inv bs js J0 w dt pr : sound bs js J0 w -> w_contacts w <> [] -> engine_problem w dt = Ok pr ->
  exists f, world_apply_forces w (w_t w) = Ok f /\ length f = (3 * length (w_bodies w))%nat /\ w_fric_dirs w = 2%nat /\ pr = step_prob w dt f.
Proof.
  intros HS Hc H. unfold engine_problem in H. bind_inv H as f Ef. destruct (apply_forces_layout _ _ _ Ef) as [Lf _]. exists f. split; [exact Ef|]. split; [exact Lf|].
  assert (E : contact_problem w (if Nat.ltb 0 (w_num_constraints w) then step_rhs w dt f ++ vzeros (w_num_constraints w) else step_rhs w dt f) = Ok pr).
  { fold (step_rhs w dt f) in H. destruct (Nat.ltb 0 (w_num_constraints w)); [|exact H]. unfold contact_problem in *. bind_inv H as jf Ej. rewrite Ej. cbn [bind]. rewrite <- H. do 2 f_equal.
    rewrite firstn_app, (step_rhs_length _ _ _ _ HS dt f Lf), Nat.sub_diag, firstn_O, app_nil_r. reflexivity. }
  exact (contact_problem_inv bs js J0 w HS dt f pr Hc Lf E).
Qed.
Lemma engine_problem_ok w dt f : w_fric_dirs w = 2%nat -> w_contacts w <> [] -> world_apply_forces w (w_t w) = Ok f -> exists pr, engine_problem w dt = Ok pr.
Proof.
  intros H2 Hc Hf. unfold engine_problem. rewrite Hf. cbn [bind]. unfold contact_problem, Jf. destruct (w_contacts w) eqn:E; [congruence|]. rewrite H2. cbn. eauto.
Qed.
Lemma law_coulomb w v c l b1 b2 g : contact_law 0 w v c l b1 b2 g -> coulomb w v c l (b1 - b2).
Proof.
  intros [(P1 & P2 & P3 & P4) Hn Hc Hk Hs Hd Hp]. set (e := mixed w b_rest c) in *. set (m := mixed w b_fric c) in *.
  assert (Hb : Rabs (b1 - b2) <= m * l). { apply Rabs_le. lra. }
  constructor; fold e m; auto; try lra.
  - intros Pl. assert (A : 0 <= normal_velocity v c + e * normal_velocity (w_v w) c) by lra. nra.
  - set (u := slip_velocity v c) in *. pose proof (Rabs_pos u) as A0. pose proof (Rle_abs u) as A1. pose proof (Rle_abs (- u)) as A2. rewrite Rabs_Ropp in A2.
    destruct (Req_dec g 0) as [Eg|Eg].
    + assert (Eu : Rabs u = 0) by lra. rewrite Eu. assert (u = 0) by lra. rewrite H. ring.
    + assert (Pg : 0 < g) by lra. assert (EB : b1 + b2 = m * l) by nra. rewrite <- EB. apply Rle_antisym.
      * assert (- g * (b1 + b2) <= - Rabs u * (b1 + b2)) by nra. nra.
      * assert ((b1 - b2) * u >= - (Rabs (b1 - b2) * Rabs u)). { rewrite <- Rabs_mult. pose proof (Rle_abs (- ((b1 - b2) * u))) as Q. rewrite Rabs_Ropp in Q. lra. }
        assert (Rabs (b1 - b2) <= b1 + b2) by (apply Rabs_le; lra). nra.
Qed.
Lemma solved_residual nz nineq neq pr it : solves_lcp nz nineq neq pr it -> Forall (fun a => 0 <= a) (i_s it) /\ Forall (fun a => 0 <= a) (i_z it) /\ residual nz pr it <= 0.
Proof.
  intros [[Lx Ls Lz Ly] E1 E2 E3 P1 P2 Hc]. split; [exact P1|]. split; [exact P2|]. unfold residual, equality. rewrite E1, E2, E3.
  assert (Z : forall k, norm2 (vzeros k) = 0) by (intros k; unfold norm2; rewrite dot_zeros_l; apply sqrt_0). rewrite !Z.
  rewrite vsub_self, Z. assert (D : dot (i_s it) (i_z it) = 0); [|lra].
  assert (Ld : length (i_s it) = length (i_z it)) by lia. clear - Hc Ld. revert Hc Ld. generalize (i_s it) as s, (i_z it) as z. induction s as [|a s IH]; intros [|b z] Hc Ld; try discriminate; [reflexivity|].
  rewrite dot_cons, IH; [|intros i; exact (Hc (S i))|cbn in Ld; lia]. pose proof (Hc 0%nat) as H0. unfold vget in H0. cbn in H0. lra.
Qed.
Lemma four nc : (4 * nc = nc + 2 * nc + nc)%nat.
Proof. lia. Qed.
Section Law.
Variables (la : lapack R) (mi : nat) (bs : list (body R)) (js : list (joint R)) (w : world R) (dt : R).
Hypothesis HL : lapack_ok la.
Hypothesis HW : engine_world la mi bs js w.
Hypothesis Hc : w_contacts w <> [].
Notation n := (3 * length (w_bodies w))%nat.
Notation nc := (length (w_contacts w)).

(** what the solver returned *)
Lemma solved_point v c : solve_dynamics la mi w dt = Ok (v, c) -> exists it r, engine_point la mi w dt it r /\ v = vopp (i_x it).
Proof.
  destruct (engine_world_sound _ _ _ _ _ HW) as (J0 & HS & HV). intros H. pose proof H as H'. unfold solve_dynamics in H'. cbv zeta in H'. bind_inv H' as f Ef. clear H'.
  destruct (contact_solve bs js J0 w la mi HS HL dt v c f Hc Ef H) as (E2 & it & (xs & sv & Ev & Eb) & -> & _).
  destruct (engine_problem_ok w dt f E2 Hc Ef) as [pr Ep]. destruct (engine_problem_inv _ _ _ _ _ _ HS Hc Ep) as (f' & Ef' & _ & _ & ->). rewrite Ef in Ef'. injection Ef' as <-.
  exists it, (residual n (step_prob w dt f) it). split; [|reflexivity]. exists (step_prob w dt f), xs, sv. rewrite four. auto.
Qed.
Lemma point_response it r v : engine_point la mi w dt it r -> v = vopp (i_x it) -> exists f err,
  world_apply_forces w (w_t w) = Ok f /\ length f = n /\ length v = n /\ Forall (fun a => 0 < a) (i_z it) /\ length err = n /\ norm2 err <= r /\
  balance w dt f v (impulses nc (i_z it)) (i_y it) err /\ constraint_velocity w v = vzeros (w_num_constraints w) /\
  forall i c, nth_error (w_contacts w) i = Some c -> law r w v c (multipliers nc (i_z it) i).
Proof.
  destruct (engine_world_sound _ _ _ _ _ HW) as (J0 & HS & HV). intros (pr & xs & sv & Ep & Ef & Eb & ->) ->.
  destruct (engine_problem_inv _ _ _ _ _ _ HS Hc Ep) as (f & Ea & Lf & E2 & ->). rewrite four in Ef.
  assert (Hsz : Forall (sized n (nc + 2 * nc + nc) (w_num_constraints w)) [step_prob w dt f]) by (constructor; [eapply step_sized; eauto|constructor]).
  assert (H3 : (0 < lo_lim (mkOpts (ncst C_1em12 : R) 3 mi))%nat) by (cbn; lia).
  destruct (forward_returned la HL _ _ _ _ _ _ _ Hsz H3 Ef 0 it) as (pr & Epr & P1 & P2 & P3 & P4); [now rewrite Eb|]. injection Epr as <-.
  destruct P2 as [Ps Pz]. pose proof (pos_nonneg _ Ps) as Ns. pose proof (pos_nonneg _ Pz) as Nz.
  destruct (point_balance bs js J0 w HS dt f it _ Lf P1 Ns Nz (Rle_refl _)) as (err & Le & Ne & B). exists f, err.
  assert (Lv : length (vopp (i_x it)) = n) by (rewrite vopp_length; apply P1).
  split; [exact Ea|]. split; [exact Lf|]. split; [exact Lv|]. split; [exact Pz|]. split; [exact Le|]. split; [exact Ne|]. split; [exact B|]. split.
  - rewrite <- (Je_cv bs js J0 w HS) by exact Lv. assert (P3' : mv (Je w) (i_x it) = vzeros (w_num_constraints w)) by exact P3. rewrite mv_vopp, P3'. apply vopp_zeros.
  - intros i c Hi. exact (point_law bs js J0 w HS dt f it _ Lf P1 Ns Nz (Rle_refl _) i c Hi).
Qed.
Lemma exact_response it : solves_engine w dt it -> exists f,
  world_apply_forces w (w_t w) = Ok f /\ length f = n /\ length (vopp (i_x it)) = n /\ Forall (fun a => 0 <= a) (i_z it) /\
  balance w dt f (vopp (i_x it)) (impulses nc (i_z it)) (i_y it) (vzeros n) /\ constraint_velocity w (vopp (i_x it)) = vzeros (w_num_constraints w) /\
  forall i c, nth_error (w_contacts w) i = Some c -> law 0 w (vopp (i_x it)) c (multipliers nc (i_z it) i).
Proof.
  destruct (engine_world_sound _ _ _ _ _ HW) as (J0 & HS & HV). intros (pr & Ep & Hs). destruct (engine_problem_inv _ _ _ _ _ _ HS Hc Ep) as (f & Ea & Lf & E2 & ->). rewrite four in Hs.
  destruct (solved_residual _ _ _ _ _ Hs) as (Ns & Nz & Hr). pose proof (sl_pt _ _ _ _ _ Hs) as P1.
  destruct (point_balance bs js J0 w HS dt f it 0 Lf P1 Ns Nz Hr) as (err & Le & Ne & B).
  assert (Ee : err = vzeros n). { rewrite <- Le. apply norm2_zero. pose proof (norm2_nonneg err). lra. }
  assert (Lv : length (vopp (i_x it)) = n) by (rewrite vopp_length; apply P1).
  exists f. rewrite Ee in B. split; [exact Ea|]. split; [exact Lf|]. split; [exact Lv|]. split; [exact Nz|]. split; [exact B|]. split.
  - rewrite <- (Je_cv bs js J0 w HS) by exact Lv. assert (Q : mv (Je w) (i_x it) = vzeros (w_num_constraints w)) by exact (sl_y _ _ _ _ _ Hs). rewrite mv_vopp, Q. apply vopp_zeros.
  - intros i c Hi. exact (point_law bs js J0 w HS dt f it 0 Lf P1 Ns Nz Hr i c Hi).
Qed.
Lemma impulses_coulomb v z : (forall i c, nth_error (w_contacts w) i = Some c -> law 0 w v c (multipliers nc z i)) ->
  Forall2 (fun c im => coulomb w v c (fst im) (snd im)) (w_contacts w) (impulses nc z).
Proof.
  intros H. unfold impulses.
  assert (G : forall cs k, (forall i c, nth_error cs i = Some c -> law 0 w v c (multipliers nc z (k + i))) ->
    Forall2 (fun c im => coulomb w v c (fst im) (snd im)) cs (map (fun i => let '(l, b1, b2, _) := multipliers nc z i in (l, b1 - b2)) (seq k (length cs)))).
  { induction cs as [|c cs IH]; intros k G; [constructor|]. cbn [length seq map]. constructor.
    - specialize (G 0%nat c eq_refl). rewrite Nat.add_0_r in G. unfold law in G. destruct (multipliers nc z k) as [[[l b1] b2] g]. cbn [fst snd]. eapply law_coulomb; eauto.
    - apply IH. intros i c' Hi. specialize (G (S i) c' Hi). now rewrite Nat.add_succ_r in G. }
  apply (G (w_contacts w) 0%nat). exact H.
Qed.
End Law.
