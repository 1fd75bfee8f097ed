(** The engine facts at the level of sessions and steps, in the form the property files use *)
From Coq Require Import List Arith ZArith Bool Reals Lra Lia.
From Verif Require Import Num Tensor Utils Bodies Forces Constraints Contacts World Lapack Pdipm Lcp Engines Spec GeoSpec BodySpec JointSpec FreshSpec EngineSpec ContactSpec
     RBase ResFacts LinAlg LapackSpec KktSpec PdipmSpec WorldFacts HandlerFacts LayoutFacts HistFacts SysFacts RewindFacts JointFacts JeFacts FreshFacts
     CacheFacts BodyReach GeomFacts PdipmFacts PdipmLoop SolverFacts EngineFacts ContactSys EngineBalance ContactLaw EnergyFacts MomentumFacts EngineTotal PostFacts HeldFacts FreeFacts CollideFacts EngineProps.
Import ListNotations.
Open Scope R_scope.

(** *** C23 *)
Lemma engine_newton la mi bs js w dt v c : lapack_ok la -> engine_world la mi bs js w -> solve_dynamics la mi w dt = Ok (v, c) -> exists f imps y,
  world_apply_forces w (w_t w) = Ok f /\ length v = (3 * length (w_bodies w))%nat /\ balance w dt f v imps y (vzeros (3 * length (w_bodies w))) /\
  constraint_velocity w v = vzeros (w_num_constraints w).
Proof. intros HL HW H. destruct (engine_world_sound _ _ _ _ _ HW) as (J0 & S & V). exact (solve_balance bs js J0 w la mi S HL V dt v c H). Qed.
Lemma engine_free la mi bs js w dt v c i b : lapack_ok la -> engine_world la mi bs js w -> solve_dynamics la mi w dt = Ok (v, c) ->
  untouched w i -> nth_error (w_bodies w) i = Some b -> exists f, world_apply_forces w (w_t w) = Ok f /\
  body_momentum b (v3_at v i) = v3add (body_momentum b (b_v b)) (v3scale dt (v3_at f i)).
Proof.
  intros HL HW H U Hb. destruct (engine_world_sound _ _ _ _ _ HW) as (J0 & S & V). destruct (solve_balance bs js J0 w la mi S HL V dt v c H) as (f & imps & y & Ef & Lv & B & _).
  exists f. split; [exact Ef|]. destruct (apply_forces_layout _ _ _ Ef) as [Lf _]. exact (free_body bs js J0 w S i b dt f v imps y Lf U Hb B).
Qed.

(** *** C08: what a step, however often halved, does to a free body *)
Lemma session_free la mi o hd bs js w fuel dt w' i b : lapack_ok la -> session la mi o hd bs js w -> step_dt fuel o hd (pdipm_engine la mi) w dt = Ok w' ->
  untouched w i -> nth_error (w_bodies w) i = Some b -> exists k f b',
  world_apply_forces w (w_t w) = Ok f /\ w_t w' = w_t w + dt / 2 ^ k /\ nth_error (w_bodies w') i = Some b' /\
  body_momentum b (b_v b') = v3add (body_momentum b (b_v b)) (v3scale dt (v3_at f i)) /\
  (w_post_stab w = false -> b_p b' = v3add (b_p b) (v3scale (dt / 2 ^ k) (b_v b'))).
Proof.
  intros HL Hs H U Hb. destruct (session_facts _ _ _ _ _ _ _ Hs) as (Hf & Hr & Ho & Hg & J0 & S & V).
  destruct (step_poses la mi fuel o hd bs js J0 Hf Hr Ho w dt w' S V Hg H) as (v & c & k & w2 & dp & Es & _ & _ & _ & Hdp & Et & _ & HP).
  destruct (solve_balance bs js J0 w la mi S HL V dt v c Es) as (f & imps & y & Ef & Lv & B & _). destruct (apply_forces_layout _ _ _ Ef) as [Lf _].
  pose proof (free_body bs js J0 w S i b dt f v imps y Lf U Hb B) as Q.
  destruct (HP i b Hb) as (b' & Hb' & Ep). exists k, f, b'. split; [exact Ef|]. split; [exact Et|]. split; [exact Hb'|].
  assert (S' : sound bs js J0 w') by (apply (sound_exec bs js J0 o hd Hf Hr Ho fuel (pdipm_engine la mi) [OStepDt dt] w w' S); cbn; now rewrite H).
  destruct (step_dt_v _ _ _ _ _ _ _ H) as (v' & c' & Es' & Ev). cbn [e_solve pdipm_engine] in Es'. rewrite Es in Es'. injection Es' as <- <-.
  pose proof (aligned_reads _ _ _ (so_v _ _ _ _ S') Hb') as Eb. rewrite Ev in Eb. rewrite Eb. split; [exact Q|].
  intros Hps. destruct Hdp as [[_ ->]|[Hps' _]]; [|congruence]. rewrite Ep.
  assert (Z : v3_at (vzeros (3 * length (w_bodies w))) i = (0, (0, 0))) by (unfold v3_at; rewrite !vget_zeros; reflexivity).
  rewrite Z. destruct (b_p b) as [r [x y0]]. unfold v3add, v3scale, v2add, v2scale. cbn [fst snd]. rnum. apply f_equal2; [ring|]. apply f_equal2; ring.
Qed.

(** *** C35, C36 *)
Lemma session_momentum la mi o hd bs js w fuel dt w' : lapack_ok la -> session la mi o hd bs js w -> Forall pushless js ->
  step_dt fuel o hd (pdipm_engine la mi) w dt = Ok w' -> exists f,
  world_apply_forces w (w_t w) = Ok f /\ momentum w' (w_v w') = v2add (momentum w (w_v w)) (v2scale dt (total_force w f)).
Proof. intros HL Hs Hp H. destruct (session_facts _ _ _ _ _ _ _ Hs) as (Hf & Hr & Ho & Hg & J0 & S & V). exact (step_momentum la mi fuel o hd bs js J0 HL Hf w dt w' S V Hp H). Qed.
Lemma session_momentum_exec la mi o hd bs js w fuel ops w' : lapack_ok la -> session la mi o hd bs js w -> Forall pushless js -> Forall (fun b => b_forces b = []) bs -> undisturbed ops ->
  exec fuel o hd (pdipm_engine la mi) ops w = Ok w' -> momentum w' (w_v w') = momentum w (w_v w).
Proof. intros HL Hs Hp Hn Hu H. destruct (session_facts _ _ _ _ _ _ _ Hs) as (Hf & Hr & Ho & Hg & J0 & S & V). exact (exec_momentum la mi fuel o hd bs js J0 HL Hf Hr Ho ops w w' S V Hp Hn Hu H). Qed.

Lemma ode_call_points o eps clk bs i j b1 b2 cs bs' clk' c : ode_handler o eps clk bs i j = Ok (cs, bs', clk') -> In c cs ->
  nth_error bs i = Some b1 -> nth_error bs j = Some b2 ->
  c_i1 c = i /\ c_i2 c = j /\ exists q, c_p1 c = v2sub q (g_pos (b_geom b1)) /\ c_p2 c = v2sub q (g_pos (b_geom b2)).
Proof.
  unfold ode_handler, get_body. intros H Hc H1 H2. rewrite H1, H2 in H. cbn [bind] in H. destruct (existsb _ _); [injection H as <- _ _; destruct Hc|].
  set (g := fun (acc : list (contact R) * bool) x => _) in H.
  assert (G : forall l acc, (forall c, In c (fst acc) -> c_i1 c = i /\ c_i2 c = j /\ exists q, c_p1 c = v2sub q (g_pos (b_geom b1)) /\ c_p2 c = v2sub q (g_pos (b_geom b2))) ->
    forall c, In c (fst (fold_left g l acc)) -> c_i1 c = i /\ c_i2 c = j /\ exists q, c_p1 c = v2sub q (g_pos (b_geom b1)) /\ c_p2 c = v2sub q (g_pos (b_geom b2))).
  { clear. induction l as [|[[pt nrm] dep] l IH]; intros acc Ha; [exact Ha|]. cbn [fold_left]. apply IH. destruct acc as [cs0 dn]. unfold g. destruct dn; [exact Ha|].
    destruct (nltb _ _); [exact Ha|]. destruct (nltb _ _); [exact Ha|]. cbn [fst]. intros c Hc. apply in_app_or in Hc. destruct Hc as [Hc|[<-|[]]]; [now apply Ha|]. cbn. eauto. }
  specialize (G (o_narrow o clk (b_geom b1) (b_geom b2)) ([], false)). destruct (fold_left g _ _) as [cs0 dn]. injection H as <- _ _. apply G; [intros ? []|exact Hc].
Qed.
Lemma session_current la mi o hd bs js w : session la mi o hd bs js w -> contacts_current o hd w.
Proof.
  intros Hs. destruct (session_facts _ _ _ _ _ _ _ Hs) as (Hf & _). destruct Hs as [fuel gf heap dt eps tol fd ps st w0 ops Hh Ho Hn Hb Ha H0 Hx].
  eapply exec_current; [exact Hf| |exact Hx]. eapply init_current; [exact Hf|exact H0].
Qed.
Lemma session_consistent la mi o hd bs js w : session la mi o hd bs js w -> hd = ode_handler o \/ regular_contacts w -> EngineSpec.consistent w.
Proof.
  intros Hs Hh c b1 b2 Hc H1 H2. pose proof (session_current _ _ _ _ _ _ _ Hs) as Hcur. destruct (session_facts _ _ _ _ _ _ _ Hs) as (_ & _ & _ & Hg & _).
  assert (Ode : hd = ode_handler o -> v2add (b_pos b1) (c_p1 c) = v2add (b_pos b2) (c_p2 c)).
  { intros E. destruct Hcur as (k & calls & _ & Hw & Hrep). rewrite Hw in Hc. apply in_flat_map in Hc. destruct Hc as ([[i j] new] & Hin & Hc). cbn [snd] in Hc.
    destruct (Hrep i j new Hin) as (clk & bs0 & bs1 & clk1 & Hst & Hd). rewrite E in Hd.
    assert (Hn : exists a1 a2, nth_error bs0 i = Some a1 /\ nth_error bs0 j = Some a2).
    { unfold ode_handler, get_body in Hd. destruct (nth_error bs0 i); [|discriminate]. cbn [bind] in Hd. destruct (nth_error bs0 j); [|discriminate]. eauto. }
    destruct Hn as (a1 & a2 & A1 & A2). destruct (ode_call_points _ _ _ _ _ _ _ _ _ _ _ _ Hd Hc A1 A2) as (<- & <- & q & -> & ->).
    destruct (still_nth _ _ _ _ Hst H1) as (d1 & D1 & S1). destruct (still_nth _ _ _ _ Hst H2) as (d2 & D2 & S2). rewrite A1 in D1. rewrite A2 in D2. injection D1 as <-. injection D2 as <-.
    rewrite Forall_forall in Hg.
    assert (P : forall a b, still a = still b -> In b (w_bodies w) -> g_pos (b_geom a) = b_pos b).
    { intros a b Hab Hb. specialize (Hg b Hb). destruct Hg as [G1 _]. destruct (still_shape _ _ Hab) as (_ & _ & _ & _ & _ & E'). rewrite E'. congruence. }
    rewrite (P a1 b1 S1), (P a2 b2 S2) by (eapply nth_error_In; eauto). unfold v2add, v2sub. cbn [fst snd]. rnum. apply f_equal2; ring. }
  destruct Hh as [E|Hreg]; [now apply Ode|].
  assert (Hd : (exists gf, hd = diff_handler gf o) \/ hd = ode_handler o) by (destruct Hs as [fuel gf heap dt eps tol fd ps st w0 ops [->| ->] _ _ _ _ _ _]; eauto).
  destruct Hd as [[gf ->]|E]; [|now apply Ode].
  destruct (current_consistent gf o w c b1 b2 Hcur Hc H1 H2 (Hreg c b1 b2 Hc H1 H2)) as (_ & Q & _). exact Q.
Qed.
Lemma session_angular la mi o hd bs js w fuel dt w' q : lapack_ok la -> session la mi o hd bs js w -> Forall between_bodies js -> EngineSpec.consistent w -> w_post_stab w = false ->
  step_dt fuel o hd (pdipm_engine la mi) w dt = Ok w' -> exists f,
  world_apply_forces w (w_t w) = Ok f /\ angular_momentum q w' (w_v w') = angular_momentum q w (w_v w) + dt * total_torque q w f.
Proof. intros HL Hs Hp Hc Hps H. destruct (session_facts _ _ _ _ _ _ _ Hs) as (Hf & Hr & Ho & Hg & J0 & S & V). exact (step_angular la mi fuel o hd bs js J0 HL Hf q w dt w' S V Hp Hc Hg Hps H). Qed.

(** *** C37 *)
Lemma kinetic_same w w' x y : Forall2 same_attrs (w_bodies w) (w_bodies w') -> kinetic w' x y = kinetic w x y.
Proof.
  intros F. unfold kinetic. f_equal. apply (mapi_attrs _ _ _ F). intros i b b' (_ & E1 & E2 & _). now rewrite E1, E2.
Qed.
Section Energy.
Variables (la : lapack R) (mi : nat) (bs : list (body R)) (js : list (joint R)) (w : world R) (dt : R).
Hypothesis HL : lapack_ok la.
Hypothesis HW : engine_world la mi bs js w.
Hypothesis Hm : Forall (fun b => 0 <= b_mass b /\ 0 <= b_inertia b) (w_bodies w).
Notation n := (3 * length (w_bodies w))%nat.
Notation nc := (length (w_contacts w)).
Notation zero := (vzeros n).
Notation inelastic := (forall c, In c (w_contacts w) -> mixed w b_rest c = 0).
Notation frictionless e := (forall c, In c (w_contacts w) -> mixed w b_rest c = e /\ mixed w b_fric c = 0).
Lemma world_mass : w_M w = world_M (w_bodies w).
Proof. destruct (engine_world_sound _ _ _ _ _ HW) as (J0 & S & _). exact (so_M _ _ _ _ S). Qed.
Lemma world_vlen : length (w_v w) = n.
Proof. destruct (engine_world_sound _ _ _ _ _ HW) as (J0 & S & _). exact (so_vlen _ _ _ _ S). Qed.
Lemma dot_nothing (x : vecR) : dot x zero = 0. Proof. apply dot_zeros_r. Qed.
Lemma energy_free v c : w_contacts w = [] -> world_apply_forces w (w_t w) = Ok zero -> solve_dynamics la mi w dt = Ok (v, c) ->
  kinetic_energy w v <= kinetic_energy w (w_v w).
Proof.
  intros Hc Hf H. destruct (engine_newton _ _ _ _ _ _ _ _ HL HW H) as (f & imps & y & Ef & Lv & B & C). rewrite Hf in Ef. injection Ef as <-.
  assert (Ei : imps = impulses nc []). { destruct B as [Li _]. rewrite Hc in *. destruct imps; [reflexivity|discriminate]. } rewrite Ei in B.
  pose proof (energy_inelastic w dt zero v [] y zero 0 world_mass Hm Lv world_vlen (vzeros_length _) (vzeros_length _) B C) as E.
  rewrite dot_nothing in E. enough (kinetic_energy w v <= kinetic_energy w (w_v w) + dt * 0 + 0 * (slack nc [] + norm2 v)) by lra. apply E.
  - intros i c0 Hi. rewrite Hc in Hi. destruct i; discriminate.
  - unfold norm2. rewrite dot_zeros_l, sqrt_0. lra.
  - intros c0 Hin. rewrite Hc in Hin. destruct Hin.
Qed.
Section Contacts.
Hypothesis Hc : w_contacts w <> [].
Hypothesis Hf : world_apply_forces w (w_t w) = Ok zero.
Lemma energy_exact_inelastic it : solves_engine w dt it -> inelastic -> kinetic_energy w (vopp (i_x it)) <= kinetic_energy w (w_v w).
Proof.
  intros Hs Hi. destruct (exact_response la mi bs js w dt HW Hc it Hs) as (f & Ef & Lf & Lv & Nz & B & C & L). rewrite Hf in Ef. injection Ef as <-.
  pose proof (energy_inelastic w dt zero _ (i_z it) (i_y it) zero 0 world_mass Hm Lv world_vlen Lf (vzeros_length _) B C L) as E. rewrite dot_nothing in E.
  enough (kinetic_energy w (vopp (i_x it)) <= kinetic_energy w (w_v w) + dt * 0 + 0 * (slack nc (i_z it) + norm2 (vopp (i_x it)))) by lra. apply E; auto.
  unfold norm2. rewrite dot_zeros_l, sqrt_0. lra.
Qed.
Lemma energy_exact_frictionless e it : solves_engine w dt it -> 0 <= e <= 1 -> frictionless e -> constraint_velocity w (w_v w) = vzeros (w_num_constraints w) ->
  kinetic_energy w (vopp (i_x it)) <= kinetic_energy w (w_v w).
Proof.
  intros Hs He Hi Hv. destruct (exact_response la mi bs js w dt HW Hc it Hs) as (f & Ef & Lf & Lv & Nz & B & C & L). rewrite Hf in Ef. injection Ef as <-.
  pose proof (energy_frictionless w dt zero _ (i_z it) (i_y it) zero 0 world_mass Hm Lv world_vlen Lf (vzeros_length _) B C L) as E.
  assert (Z : norm2 (zero : vecR) <= 0) by (unfold norm2; rewrite dot_zeros_l, sqrt_0; lra). specialize (E Z Nz e He Hi Hv). rewrite dot_nothing in E.
  replace (0 * _) with 0 in E by ring. nra.
Qed.
Lemma energy_point_inelastic it r : engine_point la mi w dt it r -> inelastic ->
  kinetic_energy w (vopp (i_x it)) <= kinetic_energy w (w_v w) + r * (slack nc (i_z it) + norm2 (i_x it)).
Proof.
  intros Hs Hi. destruct (point_response la mi bs js w dt HL HW Hc it r _ Hs eq_refl) as (f & err & Ef & Lf & Lv & Pz & Le & Ne & B & C & L). rewrite Hf in Ef. injection Ef as <-.
  pose proof (energy_inelastic w dt zero _ (i_z it) (i_y it) err r world_mass Hm Lv world_vlen Lf Le B C L Ne Hi) as E. rewrite dot_nothing in E.
  assert (Z : norm2 (vopp (i_x it)) = norm2 (i_x it)) by (unfold norm2; f_equal; rewrite dot_vopp_l, dot_vopp_r; ring). rewrite Z in E. lra.
Qed.
Lemma energy_point_frictionless e it r : engine_point la mi w dt it r -> 0 <= e <= 1 -> frictionless e -> constraint_velocity w (w_v w) = vzeros (w_num_constraints w) ->
  (1 + e) * kinetic_energy w (vopp (i_x it)) <= (1 + e) * kinetic_energy w (w_v w) +
    r * (slack nc (i_z it) + slip_total w (vopp (i_x it)) + e * slip_total w (w_v w) + norm2 (i_x it) + e * norm2 (w_v w)).
Proof.
  intros Hs He Hi Hv. destruct (point_response la mi bs js w dt HL HW Hc it r _ Hs eq_refl) as (f & err & Ef & Lf & Lv & Pz & Le & Ne & B & C & L). rewrite Hf in Ef. injection Ef as <-.
  pose proof (energy_frictionless w dt zero _ (i_z it) (i_y it) err r world_mass Hm Lv world_vlen Lf Le B C L) as E. specialize (E Ne (pos_nonneg _ Pz) e He Hi Hv). rewrite dot_nothing in E.
  assert (Z : norm2 (vopp (i_x it)) = norm2 (i_x it)) by (unfold norm2; f_equal; rewrite dot_vopp_l, dot_vopp_r; ring). rewrite Z in E. lra.
Qed.
End Contacts.
End Energy.
(** the energy after a step is that of the engine's velocity *)
Lemma session_energy la mi o hd bs js w fuel dt w' : session la mi o hd bs js w -> step_dt fuel o hd (pdipm_engine la mi) w dt = Ok w' -> exists v c,
  solve_dynamics la mi w dt = Ok (v, c) /\ kinetic_energy w' (w_v w') = kinetic_energy w v.
Proof.
  intros Hs H. destruct (session_facts _ _ _ _ _ _ _ Hs) as (Hf & _). destruct (step_dt_v _ _ _ _ _ _ _ H) as (v & c & Es & ->). exists v, c. split; [exact Es|].
  unfold kinetic_energy. f_equal. apply kinetic_same. eapply step_dt_attrs; eauto.
Qed.

(** *** C44, C57 *)
Lemma session_held la mi o hd bs js w fuel ops w' : lapack_ok la -> session la mi o hd bs js w -> exec fuel o hd (pdipm_engine la mi) ops w = Ok w' ->
  forall j i b0 b b', In j js -> nth_error bs i = Some b0 -> b_id b0 = j_b1 j -> nth_error (w_bodies w) i = Some b -> nth_error (w_bodies w') i = Some b' -> held (j_kind j) (b_p b) (b_p b').
Proof. intros HL Hs H. destruct (session_facts _ _ _ _ _ _ _ Hs) as (Hf & Hr & Ho & Hg & J0 & S & V). exact (exec_held la mi fuel o hd bs js J0 HL Hf Hr Ho ops w w' S V Hg H). Qed.
Lemma session_centre la mi o hd bs js w fuel dt w' : lapack_ok la -> session la mi o hd bs js w -> Forall pushless js -> step_dt fuel o hd (pdipm_engine la mi) w dt = Ok w' ->
  mass_centre w' = v2add (mass_centre w) (v2scale (w_t w' - w_t w) (momentum w' (w_v w'))).
Proof. intros HL Hs Hp H. destruct (session_facts _ _ _ _ _ _ _ Hs) as (Hf & Hr & Ho & Hg & J0 & S & V). exact (step_centre la mi fuel o hd bs js J0 HL Hf Hr Ho w dt w' S V Hg Hp H). Qed.
Lemma engine_post la mi bs js w dp : lapack_ok la -> engine_world la mi bs js w -> post_stabilization la w = Ok dp -> length dp = (3 * length (w_bodies w))%nat /\
  constraint_velocity w dp = vopp (constraint_velocity w (w_v w)) /\
  exists lam y, length lam = length (w_contacts w) /\ length y = w_num_constraints w /\
    forall x, length x = (3 * length (w_bodies w))%nat -> kinetic w x dp = contact_power (w_contacts w) (map (fun l => (l, 0)) lam) x + dot y (constraint_velocity w x).
Proof. intros HL HW H. destruct (engine_world_sound _ _ _ _ _ HW) as (J0 & S & V). exact (post_balance bs js J0 w la S HL V dp H). Qed.
