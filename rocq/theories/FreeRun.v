(** Worlds without constraints whose bodies do not meet: they start and run (proofs for C90) *)
From Coq Require Import List Arith ZArith Lia Bool Reals Lra.
From Verif Require Import Num Tensor Utils Bodies Forces Constraints Contacts World Lapack Pdipm Engines
     Spec GeoSpec BodySpec JointSpec FreshSpec ContactSpec LapackSpec EngineSpec StaticsSpec RBase ResFacts LinAlg BodyFacts RigidFacts GeomFacts BodyReach WorldFacts HandlerFacts
     LayoutFacts HistFacts SatFacts FreshFacts CollideFacts EngineFacts JointFacts JeFacts HeldFacts MomentumFacts FlightFacts EngineProps EngineMore SceneInit RunTotal FuelFacts CacheFacts GroupFacts EnergyRun
     SysFacts StaticsFacts StaticsProps CoastRun GameProps GameStart.
Import ListNotations.
Open Scope R_scope.

Section Free.
Variables (gf : nat) (o : oracle R) (bs : list (body R)).
Hypothesis Ho : broadphase_sane o.
Hypothesis Hne : bs <> [].
Hypothesis Hav : Forall available bs.
Hypothesis Hfit : Forall (fit gf) bs.
Hypothesis Hid : NoDup (map b_id bs).
Notation hd := (diff_handler gf o).
Let Hf := diff_handler_frame gf o.

(** *** the constructor *)
Lemma free_starts hh dt eps tol fd ps : (forall w, world_init o hd hh bs [] dt eps tol fd ps false = Ok w -> w_contacts w = []) ->
  exists w, world_init o hd hh bs [] dt eps tol fd ps true = Ok w.
Proof.
  intros Hq. assert (W : exists w, world_init o hd hh bs [] dt eps tol fd ps false = Ok w).
  { clear Hq. unfold world_init. destruct bs as [|b0 bs0] eqn:Eb; [congruence|]. rewrite <- Eb in *. cbn [mapM bind]. unfold set_v. rewrite cat3_length, map_length. cbn [w_bodies]. rewrite Nat.eqb_refl. cbn [bind].
    match goal with |- context [find_contacts _ _ ?x] => assert (FC : exists w2, find_contacts o hd x = Ok w2) end.
    { apply find_contacts_total; [exact Ho|]. cbn [w_bodies with_state]. apply Forall_forall. intros b Hin. destruct (In_nth_error _ _ Hin) as [i Hi]. rewrite mapi_nth in Hi.
      destruct (nth_error bs i) as [c|] eqn:Ec; [|discriminate]. cbn [option_map] in Hi. injection Hi as <-. pose proof Hfit as HM. rewrite Forall_forall in HM.
      destruct (fit_manageable gf c (HM c (nth_error_In _ _ Ec))) as (M1 & M2 & M3 & M4). split; [exact M1|]. split; [exact M2|]. split; [exact M3|exact M4]. }
    destruct FC as [w2 ->]. cbn [bind andb]. eauto. }
  destruct W as [w W]. apply (init_strict _ _ _ _ _ _ _ _ _ _ _ W). rewrite (Hq w W). intros c [].
Qed.

(** *** the run *)
Section Run.
Variables (hh : fheap R) (dt eps tol : R) (ps st : bool) (w0 : world R) (F : R -> vecR) (la : lapack R) (mi : nat).
Hypothesis Hw : world_init o hd hh bs [] dt eps tol 2 ps st = Ok w0.
Hypothesis Hm : Forall (fun b : body R => 0 < b_mass b /\ 0 < b_inertia b) bs.
Hypothesis HF : forall t, world_apply_forces w0 t = Ok (F t).
Hypothesis HL : lapack_ok la.
Hypothesis Hmi : (0 < mi)%nat.
Definition loose (_ : nat) : bool := false.
Notation flying := (coasting w0 loose F).

Lemma free_session : session la mi o hd bs [] w0.
Proof. eapply session_history with (gf := gf) (w0 := w0) (ops := []) (fuel := 0%nat); [left; reflexivity|exact Ho|exact Hid|constructor|exact Hav|exact Hw|reflexivity]. Qed.
Lemma free_clock : w_dt w0 = dt /\ w_t w0 = 0 /\ w_eps w0 = eps /\ w_fric_dirs w0 = 2%nat /\ w_heap w0 = hh.
Proof. destruct (world_init_inv _ _ _ _ _ _ _ _ _ _ _ _ Hw) as (-> & -> & _ & -> & _ & _ & -> & -> & _). auto. Qed.
Lemma free_same i b c : nth_error (w_bodies w0) i = Some b -> nth_error bs i = Some c -> forget b = forget c.
Proof.
  intros Hb Hc. pose proof (init_forget _ _ _ _ _ _ _ _ _ _ _ _ Hf Hw) as E. apply (f_equal (fun l => nth_error l i)) in E. rewrite !nth_error_map, Hb, Hc in E. now injection E.
Qed.
Lemma free_moved : Forall2 moved bs (w_bodies w0).
Proof. apply Forall2_forget'; [apply moved_steps|]. exact (init_forget _ _ _ _ _ _ _ _ _ _ _ _ Hf Hw). Qed.
Lemma free_structure : jointed w0 loose F.
Proof.
  apply structure_jointed. split; [|intros i b _ Q; discriminate Q]. intros j i1 i2 Hin. destruct (world_init_joints _ _ _ _ _ _ _ _ _ _ _ _ Hf Hw) as [G _]. destruct (w_joints w0) as [|e l]; [destruct Hin|]. inversion G.
Qed.
Lemma v3_at_zero x n : length x = (3 * n)%nat -> (forall i, v3_at x i = (0, (0, 0))) -> x = vzeros (3 * n).
Proof.
  intros Lx H. apply nth_error_ext. intros k. unfold vzeros. destruct (Nat.lt_ge_cases k (3 * n)) as [Hk|Hk].
  - rewrite (nth_error_repeat _ Hk). rewrite (nth_error_nth' x 0) by lia. f_equal. specialize (H (k / 3)%nat). unfold v3_at, vget in H.
    pose proof (Nat.div_mod k 3 ltac:(lia)) as D. pose proof (Nat.mod_upper_bound k 3 ltac:(lia)) as M. set (q := (k / 3)%nat) in *. set (m := (k mod 3)%nat) in *.
    injection H as H0 H1 H2. destruct m as [|[|[|m]]]; [..|lia].
    + replace k with (3 * q)%nat by lia. exact H0.
    + replace k with (3 * q + 1)%nat by lia. exact H1.
    + replace k with (3 * q + 2)%nat by lia. exact H2.
  - rewrite !(proj2 (nth_error_None _ _)) by (rewrite ?repeat_length; lia). reflexivity.
Qed.
Lemma free_balance f : in_balance w0 loose f.
Proof.
  intros x Lx _ Hx. rewrite (v3_at_zero x _ Lx) by (intros i; apply Hx; reflexivity). apply dot_zeros_l.
Qed.
Theorem free_run K lfuel fuel run_time : (forall m, (m <= K)%nat -> clear_at o hd w0 (map fst (flying m))) ->
  (forall m, (m < K)%nat -> INR m * dt < run_time) -> run_time <= INR K * dt -> (K < fuel)%nat ->
  exists w', run_world fuel (S lfuel) o hd (pdipm_engine la mi) run_time w0 = Ok w' /\ map (fun b => (b_p b, b_v b)) (w_bodies w') = flying K /\ w_t w' = INR K * dt /\ w_contacts w' = [].
Proof.
  intros HC Hlt Hle Hfu. destruct free_clock as (Edt & Et & _ & Efd & _).
  destruct (session_facts _ _ _ _ _ _ _ free_session) as (_ & Hr & _ & Gm & J0 & Sd & V).
  assert (Bal : forall m, (m < K)%nat -> in_balance w0 loose (F (w_t w0 + INR m * w_dt w0))) by (intros; apply free_balance).
  pose proof (coast_start la o hd bs [] J0 w0 loose F Sd V Gm (session_current _ _ _ _ _ _ _ free_session) free_structure (HC 0%nat ltac:(lia))) as C0.
  assert (F0 : Forall (fit gf) (w_bodies w0)).
  { refine (fit_all _ _ _ _ Hfit). apply Forall2_forget'; [apply fit_steps|]. exact (init_forget _ _ _ _ _ _ _ _ _ _ _ _ Hf Hw). }
  assert (G : forall d j a f, (j + d = K)%nat -> (d < f)%nat -> coasted la bs [] J0 w0 loose F j a -> Forall (fit gf) (w_bodies a) ->
    exists w', run_world f (S lfuel) o hd (pdipm_engine la mi) run_time a = Ok w' /\ coasted la bs [] J0 w0 loose F K w').
  { induction d as [|d IH]; intros j a f Hj Hd Ca Fa; (destruct f as [|f]; [lia|]); cbn [run_world]; pose proof (cs_t _ _ _ _ _ _ _ _ _ Ca) as Ta; rewrite Et, Edt, Rplus_0_l in Ta; rewrite Ta.
    - assert (EK : j = K) by lia. subst j. change (nltb (INR K * dt) run_time) with (Rltb (INR K * dt) run_time). destruct (Rltb_spec (INR K * dt) run_time) as [Q|Q]; [lra|]. exists a. auto.
    - assert (Hjk : (j < K)%nat) by lia. change (nltb (INR j * dt) run_time) with (Rltb (INR j * dt) run_time). destruct (Rltb_spec (INR j * dt) run_time) as [_|Q]; [|specialize (Hlt j Hjk); lra].
      destruct (coasted_total la mi gf o bs [] J0 w0 loose F K HL Hmi Ho loop_free_nil Sd Hm HF Efd free_structure Bal HC j a lfuel Hjk Ca Fa) as [a' Ea'].
      unfold step. rewrite (coasted_dt _ _ _ _ _ _ _ _ _ Ca), Ea'. cbn [bind].
      assert (Ca' : coasted la bs [] J0 w0 loose F (S j) a') by (eapply (coasted_step la mi (S lfuel) o hd bs [] J0 w0 loose F K); eauto using free_structure).
      assert (Fa' : Forall (fit gf) (w_bodies a')) by (eapply (coasted_fit la mi gf o); eauto).
      exact (IH (S j) a' f ltac:(lia) ltac:(lia) Ca' Fa'). }
  destruct (G K 0%nat w0 fuel ltac:(lia) Hfu C0 F0) as (w' & E & Ca). exists w'. split; [exact E|]. split; [exact (cs_state _ _ _ _ _ _ _ _ _ Ca)|]. split.
  - rewrite (cs_t _ _ _ _ _ _ _ _ _ Ca), Et, Edt. lra.
  - exact (cs_contacts _ _ _ _ _ _ _ _ _ Ca).
Qed.
End Run.
End Free.
