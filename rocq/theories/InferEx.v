(** The chain of the inference experiment hangs still (examples for C79 and C80) *)
From Coq Require Import List Arith ZArith Lia Bool Reals Lra.
From Verif Require Import Num Tensor Utils Bodies Forces Constraints Contacts World Lapack LapackRef Pdipm Engines Game Infer
     Spec GeoSpec BodySpec JointSpec FreshSpec ContactSpec LapackSpec EngineSpec GameSpec StaticsSpec InferSpec RBase ResFacts LinAlg LuFacts WorldFacts HandlerFacts
     BodyFacts RigidFacts GeomFacts BodyReach LayoutFacts HistFacts SatFacts FreshFacts CollideFacts EngineFacts JointFacts JeFacts HeldFacts MomentumFacts FlightFacts EngineProps EngineMore SceneInit RunTotal FuelFacts CacheFacts GroupFacts EnergyRun
     SysFacts StaticsFacts StaticsProps CoastRun GameFacts GameProps GameStart GameFree InferFacts InferRun FloatEx RealEx ContactEx.
Import ListNotations.
Open Scope R_scope.

Section Ex.
Variables (fs : list (R -> v3 R)) (mass : R) (n : nat).
Hypothesis Hn : (1 <= n)%nat.
Hypothesis Hm : 0 < mass.
Notation o := (@pair_oracle R).
Notation hd := (diff_handler 18 (@pair_oracle R)).
Lemma chain_runs : exists bs w, make_world o hd fs mass n = Ok w /\ chained fs mass n bs /\ world_init o hd (chain_heap fs mass n) bs (chain_joints n) STEP EPSILON TOL 2 true true = Ok w /\
  forall K, approaching fs n K -> exists w', exec 9 o hd (pdipm_engine ref_lapack 10) (map (@OStep R) (repeat false K)) w = Ok w'.
Proof.
  destruct (make_world_chain o hd fs mass n Hn) as (bs & Ch & E).
  destruct (chain_starts fs mass n 18 o bs Hn pair_sane Ch (chain_heap fs mass n) STEP TOL 2 true (le_n 18)) as [w Hw]; [unfold TOL; rnum; lra|].
  exists bs, w. split; [rewrite E; exact Hw|]. split; [exact Ch|]. split; [exact Hw|]. intros K Ha.
  pose proof (chain_session fs mass n 18 o bs w Hn pair_sane Ch Hw ref_lapack 10) as Se.
  destruct (session_facts _ _ _ _ _ _ _ Se) as (Hf & Hr & _ & Gm & J0 & Sd & V).
  pose proof (run_clear fs mass n 18 o bs w Hn pair_sane Ch Hw K Ha) as HC.
  assert (F0 : Forall (fit 18) (w_bodies w)).
  { refine (fit_all _ _ _ _ (chain_fit fs mass n 18 bs Hn Ch (le_n 18))). apply Forall2_forget'; [apply fit_steps|]. exact (init_forget _ _ _ _ _ _ _ _ _ _ _ _ Hf Hw). }
  destruct (coasts ref_lapack 10 18 o bs (chain_joints n) J0 w (hangs n) (loads fs mass n) K ref_lapack_ok ltac:(lia) pair_sane (hinges_free (n - 1)) Sd (chain_masses fs mass n bs Hn Hm Ch) (w0_forces fs mass n 18 o bs w Hn Ch Hw)) with (f := 8%nat) (m := K) as (a & Ea & _).
  - destruct (w0_clock fs mass n 18 o bs w Hw) as (_ & _ & _ & ->). reflexivity.
  - exact (chain_structure fs mass n 18 o bs w Hn Ch Hw).
  - intros m _. exact (chain_balance fs mass n 18 o bs w Hn Ch Hw _).
  - exact HC.
  - exact (coast_start ref_lapack o hd bs (chain_joints n) J0 w (hangs n) (loads fs mass n) Sd V Gm (session_current _ _ _ _ _ _ _ Se) (chain_structure fs mass n 18 o bs w Hn Ch Hw) (HC 0%nat (Nat.le_0_l _))).
  - exact F0.
  - apply le_n.
  - eauto.
Qed.
Lemma chain_coasts K : approaching fs n K -> exists bs w F w',
  make_world o hd fs mass n = Ok w /\
  session ref_lapack 10 o hd bs (chain_joints n) w /\ Forall (fun b : body R => 0 < b_mass b /\ 0 < b_inertia b) bs /\ 0 < w_dt w /\
  (forall t, world_apply_forces w t = Ok (F t)) /\ jointed w (fun i => (i <? n)%nat) F /\ (forall t, in_balance w (fun i => (i <? n)%nat) (F t)) /\
  (forall m, (m <= K)%nat -> EngineSpec.clear_at o hd w (map fst (coasting w (fun i => (i <? n)%nat) F m))) /\
  exec 9 o hd (pdipm_engine ref_lapack 10) (map (@OStep R) (repeat false K)) w = Ok w'.
Proof.
  intros Ha. destruct chain_runs as (bs & w & E & Ch & Hw & R). destruct (R K Ha) as [w' Hw']. exists bs, w, (loads fs mass n), w'. split; [exact E|]. split; [exact (chain_session fs mass n 18 o bs w Hn pair_sane Ch Hw _ _)|].
  split; [exact (chain_masses fs mass n bs Hn Hm Ch)|]. split; [destruct (w0_clock fs mass n 18 o bs w Hw) as (-> & _); lra|]. split; [exact (w0_forces fs mass n 18 o bs w Hn Ch Hw)|]. split; [exact (chain_structure fs mass n 18 o bs w Hn Ch Hw)|].
  split; [exact (chain_balance fs mass n 18 o bs w Hn Ch Hw)|]. split; [exact (run_clear fs mass n 18 o bs w Hn pair_sane Ch Hw K Ha)|exact Hw'].
Qed.
End Ex.
(** nothing pushes the projectile *)
Lemma unpushed n k : fst (shot [] n k) = (0, (50, 50 + 50 * INR (n - 1))).
Proof.
  unfold shot. assert (G : forall t p, fst (coast (1 / 30) t (shot_acceleration []) p (0, (0, 0)) k) = p); [|apply G]. induction k as [|k IH]; intros t p; [reflexivity|]. cbn [coast].
  assert (E : v3add (0, (0, 0)) (v3scale (1 / 30) (shot_acceleration [] t)) = (0, (0, 0))) by (unfold shot_acceleration, v3add, v3scale, v2add, v2scale; cbn [pushes fst snd]; rnum; apply f_equal2; [|apply f_equal2]; field).
  rewrite E, IH. destruct p as [a [b c]]. unfold v3add, v3scale, v2add, v2scale. cbn [fst snd]. rnum. apply f_equal2; [|apply f_equal2]; ring.
Qed.
Lemma unpushed_far n k : approaching [] n k.
Proof. intros m _. rewrite unpushed. cbn [fst snd]. lra. Qed.
Lemma chain_still mass n steps : (1 <= n)%nat -> 0 < mass -> exists bs w F w',
  make_world (@pair_oracle R) (diff_handler 18 (@pair_oracle R)) [] mass n = Ok w /\
  session ref_lapack 10 (@pair_oracle R) (diff_handler 18 (@pair_oracle R)) bs (chain_joints n) w /\ Forall (fun b : body R => 0 < b_mass b /\ 0 < b_inertia b) bs /\ 0 < w_dt w /\
  at_rest w /\ w_contacts w = [] /\ EngineSpec.clear_at (@pair_oracle R) (diff_handler 18 (@pair_oracle R)) w (map b_p (w_bodies w)) /\
  (forall t, world_apply_forces w t = Ok (F t) /\ equilibrium w (F t)) /\
  exec 9 (@pair_oracle R) (diff_handler 18 (@pair_oracle R)) (pdipm_engine ref_lapack 10) (map (@OStep R) (repeat false steps)) w = Ok w'.
Proof.
  intros Hn Hm. destruct (chain_runs [] mass n Hn Hm) as (bs & w & E & Ch & Hw & R). destruct (R steps (unpushed_far n steps)) as [w' Hw'].
  pose proof (chain_session [] mass n 18 (@pair_oracle Rdefinitions.R) bs w Hn pair_sane Ch Hw ref_lapack 10) as Se. destruct (session_facts _ _ _ _ _ _ _ Se) as (_ & _ & _ & _ & J0 & Sd & _).
  exists bs, w, (loads [] mass n), w'. split; [exact E|]. split; [exact Se|].
  split; [exact (chain_masses [] mass n bs Hn Hm Ch)|]. split; [destruct (w0_clock [] mass n 18 _ bs w Hw) as (-> & _); lra|].
  assert (V0 : forall i b, nth_error (w_bodies w) i = Some b -> b_v b = (0, (0, 0))).
  { intros i b Hb. destruct (w0_cases [] mass n 18 _ bs w Hn Ch Hw i b Hb) as [Hi| ->]; [exact (proj1 (proj2 (w0_link [] mass n 18 _ bs w Hn Ch Hw i b Hi Hb)))|exact (proj1 (proj2 (w0_shot [] mass n 18 _ bs w Hn Ch Hw b Hb)))]. }
  split; [|split; [exact (chain_quiet [] mass n 18 _ bs Hn pair_sane Ch _ _ _ _ _ _ _ _ Hw)|split; [|split; [|exact Hw']]]].
  - unfold at_rest. apply (vec3_ext (length (w_bodies w))); [exact (so_vlen _ _ _ _ Sd)|apply vzeros_length|]. intros i Hi. destruct (nth_error (w_bodies w) i) as [b|] eqn:Hb; [|apply nth_error_None in Hb; lia].
    rewrite <- (aligned_reads _ _ _ (so_v _ _ _ _ Sd) Hb), (V0 i b Hb). unfold v3_at. rewrite !vget_zeros. reflexivity.
  - pose proof (run_clear [] mass n 18 _ bs w Hn pair_sane Ch Hw 0 (unpushed_far n 0) 0 (le_n 0)) as C. rewrite coasting_0 in C by (intros i b Hb _; eauto). rewrite map_map in C. exact C.
  - intros t. split; [exact (w0_forces [] mass n 18 _ bs w Hn Ch Hw t)|]. intros x (Lx & Cx & _). right.
    assert (L0 : length (w_bodies w) = S n) by (exact (w0_len [] mass n 18 _ bs w Ch Hw)).
    assert (Ll : length (loads [] mass n t) = (3 * length (w_bodies w))%nat) by (unfold loads; rewrite cat3_length, map_length, seq_length, L0; reflexivity).
    rewrite (dot_fields w) by auto. rewrite (Rsum_mapi_ext _ (fun _ _ => 0)).
    + generalize (w_bodies w). unfold mapi. generalize 0%nat. intros k l. revert k. induction l as [|b l IH]; intros k; [reflexivity|]. cbn. specialize (IH (S k)). unfold Rsum in *. cbn. lra.
    + intros i b Hb. destruct (w0_cases [] mass n 18 _ bs w Hn Ch Hw i b Hb) as [Hi| ->].
      * rewrite loads_at by lia. pose proof (chain_level [] mass n 18 _ bs w Hn Ch Hw x Cx i Hi) as Q. unfold load. destruct (Nat.ltb_spec i n) as [_|]; [|lia]. destruct (v3_at x i) as [a [b1 c]]. cbn [snd] in Q. subst c. destruct i; unfold d3, weight; cbn [fst snd]; ring.
      * rewrite loads_at by lia. unfold load. rewrite Nat.ltb_irrefl. unfold d3. cbn [pushes fst snd]. ring.
Qed.
