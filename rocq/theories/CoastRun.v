(** Runs of bodies coasting beside a structure at rest return (proofs for C79 and C80) *)
From Coq Require Import List Arith ZArith Bool Reals Lra Lia.
From Verif Require Import Num Tensor Utils Bodies Forces Constraints Contacts World Lapack Pdipm Lcp Engines Spec GeoSpec BodySpec JointSpec FreshSpec EngineSpec ContactSpec StaticsSpec
     RBase ResFacts LinAlg LapackSpec KktSpec PdipmSpec BodyFacts WorldFacts HandlerFacts LayoutFacts HistFacts SysFacts RewindFacts JointFacts JeFacts FreshFacts TimeFacts FuelFacts
     CacheFacts EngineFacts ContactSys EngineBalance EngineTotal PostFacts CollideFacts FlightFacts EngineProps EngineMore IndepFacts RunTotal EnergyRun StaticsFacts StaticsProps.
Import ListNotations.
Open Scope R_scope.

Section CoastRun.
Variables (la : lapack R) (mi gf : nat) (o : oracle R) (bs : list (body R)) (js : list (joint R)) (J0 : list jent) (w0 : world R)
  (rest : nat -> bool) (F : R -> vecR) (n : nat).
Notation hd := (diff_handler gf o).
Notation eng := (pdipm_engine la mi).
Notation dt := (w_dt w0).
Hypothesis HL : lapack_ok la.
Hypothesis Hmi : (0 < mi)%nat.
Hypothesis Ho : broadphase_sane o.
Hypothesis Hlf : loop_free js.
Hypothesis S0 : sound bs js J0 w0.
Hypothesis Hm : Forall (fun b : body R => 0 < b_mass b /\ 0 < b_inertia b) bs.
Hypothesis HF : forall t, world_apply_forces w0 t = Ok (F t).
Hypothesis Hfd : w_fric_dirs w0 = 2%nat.
Hypothesis Hst : jointed w0 rest F.
Hypothesis Hbal : forall m, (m < n)%nat -> in_balance w0 rest (F (w_t w0 + INR m * dt)).
Hypothesis HC : forall m, (m <= n)%nat -> clear_at o hd w0 (map fst (coasting w0 rest F m)).
Let Hf := diff_handler_frame gf o.
Let Hr := diff_handler_respects gf o.
Notation coasted := (coasted la bs js J0 w0 rest F).

Lemma coasted_total m a f : (m < n)%nat -> coasted m a -> Forall (fit gf) (w_bodies a) -> exists a', step_dt (S f) o hd eng a dt = Ok a'.
Proof.
  intros Hmn HA Fa. pose proof HA as [Sa V G C M EC Et Es].
  assert (Eh : w_heap a = w_heap w0) by (clear - C; cfg_fields C; auto).
  pose proof (attrs_common _ _ _ (so_attrs _ _ _ _ S0) (so_attrs _ _ _ _ Sa)) as A0.
  assert (Ef : world_apply_forces a (w_t a) = Ok (F (w_t a))) by (rewrite (apply_forces_same w0 a _ Eh A0); apply HF).
  assert (Fd : w_fric_dirs a = 2%nat) by (clear - C Hfd; cfg_fields C; congruence).
  destruct (solve_total bs js J0 a la mi Sa HL Hm (loop_free_independent bs js J0 a Sa Hlf) dt _ Hmi Ef Fd) as (v & c & Ev); [rewrite EC; intros ? []|].
  destruct (coasted_vel la mi bs js J0 w0 rest F n HL S0 Hm HF Hst Hbal m a v c Hmn HA Ev) as (Lv & _ & _).
  destruct (set_v_total (with_cache a c) v) as [w1 E1]; [exact Lv|].
  pose proof (sound_set_v _ _ _ _ _ _ (sound_cache _ _ _ _ c Sa) E1) as S1.
  assert (F1 : Forall (fit gf) (w_bodies w1)) by (refine (fit_all _ _ _ _ Fa); exact (set_v_bodies _ (fit_steps gf) _ _ _ E1)).
  destruct (move_all_total w1 dt (calm_joints bs js J0 w1 S1)) as (wm & Em & _).
  pose proof (sound_move _ _ _ _ _ _ S1 Em) as Sm.
  assert (Fm : Forall (fit gf) (w_bodies wm)).
  { refine (fit_all _ _ _ _ F1). apply move_all_inv in Em. destruct Em as [? ->]. cbn. apply HistFacts.Forall2_map_r. intros. now apply fit_set_p. }
  destruct (find_contacts_total gf o wm Ho) as [wf Efc]; [eapply Forall_impl; [|exact Fm]; intros b; apply fit_manageable|].
  pose proof (sound_find _ _ _ _ _ Hf Hr Ho _ _ Sm Efc) as Sf.
  assert (Ff : Forall (fit gf) (w_bodies wf)).
  { refine (fit_all _ _ _ _ Fm). apply Forall2_forget'; [apply fit_steps|]. eapply find_contacts_frame; eauto. }
  destruct (coasted_first la mi o hd bs js J0 w0 rest F n HL Hf S0 Hm HF Hst Hbal HC m a v c w1 wm wf Hmn HA Ev E1 Em Efc) as [Cf _].
  unfold step_dt. cbn [e_solve e_post pdipm_engine]. rewrite Ev. cbn [bind]. rewrite E1. cbn [bind step_loop]. rewrite Em. cbn [bind]. rewrite Efc. cbn [bind].
  assert (N : no_penetration wf = true) by (unfold no_penetration; now rewrite Cf). rewrite N. cbn [bind].
  destruct (w_post_stab wf); [|cbn [bind]; eauto].
  assert (Vf : valid la wf).
  { destruct (solve_uncached la mi a dt V) as [_ Q]. specialize (Q v c Ev).
    assert (V1 : valid la w1).
    { apply (valid_kinds la (with_cache a c)); auto; [exact (kinds_set_v _ _ _ E1)|exact (set_v_cfg _ _ _ E1)|]. apply set_v_inv in E1. destruct E1 as [_ ->]. reflexivity. }
    assert (Vm : valid la wm).
    { apply (valid_kinds la w1); auto; [exact (kinds_move _ _ _ Em)|exact (move_all_cfg _ _ _ Em)|]. apply move_all_inv in Em. destruct Em as [? ->]. reflexivity. }
    apply (valid_kinds la wm); auto; [exact (kinds_find _ _ _ _ Hf Efc)|exact (find_contacts_cfg _ _ _ _ Efc)|]. apply find_contacts_inv in Efc. destruct Efc as (?&?&?& ->). reflexivity. }
  destruct (post_total bs js J0 wf la Sf HL Hm (loop_free_independent bs js J0 wf Sf Hlf)) as [dp Ed]. rewrite Ed. cbn [bind].
  destruct (post_balance bs js J0 wf la Sf HL Vf dp Ed) as (Ld & _).
  destruct (set_v_total wf (map (fun x => ndiv x (nofZ 2)) dp)) as [wa Ea]; [rewrite map_length; exact Ld|]. rnum. rewrite Ea. cbn [bind].
  pose proof (sound_set_v _ _ _ _ _ _ Sf Ea) as Saa. assert (Faa : Forall (fit gf) (w_bodies wa)) by (refine (fit_all _ _ _ _ Ff); exact (set_v_bodies _ (fit_steps gf) _ _ _ Ea)).
  destruct (move_all_total wa dt (calm_joints bs js J0 wa Saa)) as (wb & Eb & _). rewrite Eb. cbn [bind]. pose proof (sound_move _ _ _ _ _ _ Saa Eb) as Sb.
  assert (Fb : Forall (fit gf) (w_bodies wb)).
  { refine (fit_all _ _ _ _ Faa). apply move_all_inv in Eb. destruct Eb as [? ->]. cbn. apply HistFacts.Forall2_map_r. intros. now apply fit_set_p. }
  destruct (set_v_total wb (w_v wf)) as [wc Ec]; [rewrite (so_vlen _ _ _ _ Sf), (so_len _ _ _ _ Sf), (so_len _ _ _ _ Sb); reflexivity|]. rewrite Ec. cbn [bind].
  assert (Fc : Forall (fit gf) (w_bodies wc)) by (refine (fit_all _ _ _ _ Fb); exact (set_v_bodies _ (fit_steps gf) _ _ _ Ec)).
  destruct (find_contacts_total gf o wc Ho) as [wd Ed']; [eapply Forall_impl; [|exact Fc]; intros b; apply fit_manageable|]. rewrite Ed'. cbn [bind]. eauto.
Qed.
Lemma coasted_fit fuel m a a' : Forall (fit gf) (w_bodies a) -> coasted m a -> step_dt fuel o hd eng a dt = Ok a' -> Forall (fit gf) (w_bodies a').
Proof.
  intros Fa HA H. refine (fit_all _ _ _ _ Fa). eapply (step_dt_bodies _ (fit_steps gf)); eauto. apply Forall2_refl', fit_steps.
Qed.
(** any number of steps *)
Lemma coasts f : coasted 0 w0 -> Forall (fit gf) (w_bodies w0) ->
  forall m, (m <= n)%nat -> exists a, exec (S f) o hd eng (map (@OStep R) (repeat false m)) w0 = Ok a /\ coasted m a /\ Forall (fit gf) (w_bodies a).
Proof.
  intros H0 F0. induction m as [|m IH]; intros Hmn.
  - exists w0. split; [reflexivity|]. auto.
  - destruct IH as (a & Ea & Ca & Fa); [lia|]. destruct (coasted_total m a f ltac:(lia) Ca Fa) as [a' Ea']. exists a'.
    assert (Q : exec (S f) o hd eng (map (@OStep R) (repeat false (S m))) w0 = Ok a').
    { replace (repeat false (S m)) with (repeat false m ++ [false]) by (symmetry; exact (repeat_cons m false)).
      rewrite map_app. apply (exec_app o hd _ _ _ _ _ a); [exact Ea|]. cbn [map exec]. unfold step. rewrite (coasted_dt _ _ _ _ _ _ _ _ _ Ca), Ea'. reflexivity. }
    split; [exact Q|]. split; [|exact (coasted_fit _ _ _ _ Fa Ca Ea')].
    eapply (coasted_step la mi (S f) o hd bs js J0 w0 rest F n); eauto.
Qed.
End CoastRun.
