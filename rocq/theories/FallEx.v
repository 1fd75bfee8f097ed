(** Two joined blocks falling without end (example for C95) *)
From Coq Require Import List Arith ZArith Bool Reals Lra Lia.
From Verif Require Import Num Tensor Utils Bodies Forces Constraints Contacts World Lapack LapackRef Pdipm Lcp Engines Game Infer Demo Spec GeoSpec BodySpec JointSpec FreshSpec ContactSpec EngineSpec ImpactSpec SlopeSpec StaticsSpec DemoSpec
     RBase ResFacts LinAlg LapackSpec BodyFacts RigidFacts GeomFacts BodyReach WorldFacts HandlerFacts LayoutFacts HistFacts SatFacts FreshFacts CollideFacts EngineFacts JointFacts JeFacts MomentumFacts FlightFacts EngineProps EngineMore SceneInit RunTotal
     EnergyRun SysFacts StaticsFacts StaticsProps GameFacts GameProps GameStart GameFree InferFacts InferRun SlopeProps BesideRun DemoFacts GradDemo GradDemoFacts DemoJoint FallSpec FallFacts LuFacts FloatEx RealEx ContactEx.
Import ListNotations.
Open Scope R_scope.



Section Pair.
Variables (r r2 : body R).
Hypothesis Hr : slab 0 (0, (120, 100)) 60 60 1 r.
Hypothesis Hr2 : slab 1 (0, (160, 100)) 60 60 1 r2.
Hypothesis Hn1 : In (b_id r) (g_no_contact (b_geom r2)).
Hypothesis Hn2 : In (b_id r2) (g_no_contact (b_geom r)).
Hypothesis Hf0 : b_forces r = [0%nat].
Hypothesis Hf1 : b_forces r2 = [1%nat].
Notation o := (pair_oracle (T := R)).
Notation hd := (diff_handler 18 o).
Notation hh := [FGrav 100 (Some (0, (0, 100))); FGrav 100 (Some (0, (0, 100)))].
Lemma pair_clear (a : world R) : Forall2 moved [r; r2] (w_bodies a) -> contacts_current o hd a -> w_contacts a = [].
Proof.
  intros Mv Cu. destruct (w_contacts a) as [|c cs] eqn:Ec; [reflexivity|exfalso].
  assert (Hc : In c (w_contacts a)) by (rewrite Ec; now left). clear Ec cs.
  destruct (current_report _ _ _ _ Cu Hc pair_sane) as (Hne & L1 & L2 & new & Hin & Hrep).
  inversion Mv as [|x0 y0 l0 l0' M0 Mv' E0 E0']; subst. inversion Mv' as [|x1 y1 l1 l1' M1 Mv'' E1 E1']; subst. inversion Mv''; subst. symmetry in E0'. rewrite E0' in *.
  destruct Hrep as (clk & bs0 & bs1 & clk1 & Hst & Hd).
  destruct (still_nth _ _ 0%nat y0 Hst eq_refl) as (a0 & A0 & S0). destruct (still_nth _ _ 1%nat y1 Hst eq_refl) as (a1 & A1 & S1).
  assert (Xa : forall e b d, still e = still b -> moved d b -> excl e = excl d).
  { intros e b d He Hm. rewrite <- (moved_excl _ _ Hm). apply (f_equal excl) in He. unfold still in He. now rewrite !excl_with_v, !excl_forget in He. }
  pose proof (Xa _ _ _ S0 M0) as X0. pose proof (Xa _ _ _ S1 M1) as X1.
  assert (Ex : forall i j b b' (d d' : body R), nth_error bs0 i = Some b -> nth_error bs0 j = Some b' -> excl b = excl d -> excl b' = excl d' -> In (b_id d) (g_no_contact (b_geom d')) -> hd (w_eps a) clk bs0 i j = Ok (new, bs1, clk1) -> False).
  { intros i j b b' d d' Hb Hb' Xd Xd' Hn Hh. unfold diff_handler, get_body in Hh. rewrite Hb, Hb' in Hh. cbn [bind] in Hh.
    assert (Y : existsb (Nat.eqb (b_id b)) (g_no_contact (b_geom b')) = true).
    { unfold excl in Xd, Xd'. injection Xd as -> _. injection Xd' as _ ->. apply existsb_exists. exists (b_id d). split; [exact Hn|apply Nat.eqb_refl]. }
    rewrite Y in Hh. injection Hh as <- _ _. destruct Hin. }
  cbn [length] in L1, L2. destruct (c_i1 c) as [|[|k]] eqn:I1; [| |lia]; (destruct (c_i2 c) as [|[|k]] eqn:I2; [| |lia]); try congruence.
  - exact (Ex 0%nat 1%nat a0 a1 r r2 A0 A1 X0 X1 Hn1 Hd).
  - exact (Ex 1%nat 0%nat a1 a0 r2 r A1 A0 X1 X0 Hn2 Hd).
Qed.
Lemma pair_falls : exists w F, world_init o hd hh [r; r2] [fixed_init r r2] STEP EPSILON TOL 2 true true = Ok w /\
  broadphase_sane o /\ Forall available [r; r2] /\ Forall (fit 18) [r; r2] /\ NoDup (map b_id [r; r2]) /\ Forall (built [r; r2]) [fixed_init r r2] /\ loop_free [fixed_init r r2] /\ linked [fixed_init r r2] /\
  Forall (fun b : body R => 0 < b_mass b /\ 0 < b_inertia b) [r; r2] /\ (forall t, world_apply_forces w t = Ok (F t)) /\ falling w F (0, 0) (0, 100) /\
  (forall m, EngineSpec.clear_at o hd w (map fst (shifted w (0, 0) (0, 100) m))).
Proof.
  assert (Av : Forall available [r; r2]) by (constructor; [exact (sl_available _ _ _ _ _ _ Hr)|constructor; [exact (sl_available _ _ _ _ _ _ Hr2)|constructor]]).
  assert (Fi : Forall (fit 18) [r; r2]) by (constructor; [apply (slab_fit _ _ _ _ _ _ _ Hr); lra || lia|constructor; [apply (slab_fit _ _ _ _ _ _ _ Hr2); lra || lia|constructor]]).
  assert (Id : NoDup (map b_id [r; r2])) by (cbn; rewrite (sl_id _ _ _ _ _ _ Hr), (sl_id _ _ _ _ _ _ Hr2); repeat constructor; cbn; intuition discriminate).
  assert (Bu : Forall (built [r; r2]) [fixed_init r r2]) by (constructor; [|constructor]; apply built_fixed; [now left|right; now left|]; rewrite (sl_id _ _ _ _ _ _ Hr), (sl_id _ _ _ _ _ _ Hr2); discriminate).
  assert (Cl : forall w, world_init o hd hh [r; r2] [fixed_init r r2] STEP EPSILON TOL 2 true false = Ok w -> w_contacts w = []).
  { intros w H. apply pair_clear; [exact (beside_moved _ _ _ _ _ _ _ _ _ _ _ H)|]. eapply init_current; [apply diff_handler_frame|exact H]. }
  destruct (scene_starts 18 o [r; r2] [fixed_init r r2] pair_sane ltac:(discriminate) Av Fi Id Bu hh STEP EPSILON TOL 2%nat true Cl) as [w Hw].
  exists w, (fun _ => [0; 0; 100; 0; 0; 100]). split; [exact Hw|]. split; [exact pair_sane|]. split; [exact Av|]. split; [exact Fi|]. split; [exact Id|]. split; [exact Bu|].
  pose proof (init_forget _ _ _ _ _ _ _ _ _ _ _ _ (diff_handler_frame 18 o) Hw) as E. destruct (w_bodies w) as [|r0 [|r20 [|]]] eqn:Eb; try discriminate E. cbn [map] in E. assert (E0 : forget r0 = forget r) by congruence. assert (E1 : forget r20 = forget r2) by congruence.
  destruct (forget_keeps _ _ E0) as (P0 & V0 & _ & F0 & M0 & I0). destruct (forget_keeps _ _ E1) as (P1 & V1 & _ & F1 & M1 & I1).
  split; [apply (loop_free_add [] (fixed_init r r2) []); [constructor|]; left; exists 0%nat; split; [left; exact (sl_id _ _ _ _ _ _ Hr)|intros j []]|].
  split; [constructor; [discriminate|constructor]|].
  split; [constructor; [|constructor; [|constructor]]; rewrite ?(sl_mass _ _ _ _ _ _ Hr), ?(sl_mass _ _ _ _ _ _ Hr2), ?(sl_inertia _ _ _ _ _ _ Hr), ?(sl_inertia _ _ _ _ _ _ Hr2); lra|].
  split.
  { intros t. destruct (beside_clock _ _ _ _ _ _ _ _ _ _ _ Hw) as (_ & _ & _ & _ & Eh). unfold world_apply_forces. rewrite Eb, Eh. cbn [mapM]. unfold body_apply_forces. rewrite F0, F1, Hf0, Hf1. cbn. rnum. repeat (apply f_equal2 || apply f_equal); ring || reflexivity. }
  split.
  { intros i b Hb. rewrite Eb in Hb. destruct i as [|[|i]]; cbn in Hb; [| |destruct i; discriminate Hb]; injection Hb as <-.
    - split; [rewrite V0; exact (sl_v _ _ _ _ _ _ Hr)|]. intros t. unfold acceleration, v3_at, vget, v2scale. cbn. rewrite M0, I0, (sl_mass _ _ _ _ _ _ Hr), (sl_inertia _ _ _ _ _ _ Hr). rnum. prs; field.
    - split; [rewrite V1; exact (sl_v _ _ _ _ _ _ Hr2)|]. intros t. unfold acceleration, v3_at, vget, v2scale. cbn. rewrite M1, I1, (sl_mass _ _ _ _ _ _ Hr2), (sl_inertia _ _ _ _ _ _ Hr2). rnum. prs; field. }
  intros m a Mv _ _ Cu. apply pair_clear; [|exact Cu]. pose proof (beside_moved _ _ _ _ _ _ _ _ _ _ _ Hw) as M. eapply Forall2_trans'; [apply moved_steps|exact M|exact Mv].
Qed.
End Pair.
