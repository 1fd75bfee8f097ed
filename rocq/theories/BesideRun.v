(** Scenes with constraints in which nothing touches: they start and run (proofs for C79 and C94) *)
From Coq Require Import List Arith ZArith Lia Bool Reals Lra.
From Verif Require Import Num Tensor Utils Bodies Forces Constraints Contacts World Lapack Pdipm Engines
     Spec GeoSpec BodySpec JointSpec FreshSpec ContactSpec LapackSpec EngineSpec StaticsSpec RBase ResFacts LinAlg BodyFacts RigidFacts GeomFacts BodyReach WorldFacts HandlerFacts
     LayoutFacts HistFacts SatFacts FreshFacts CollideFacts EngineFacts JointFacts JeFacts HeldFacts MomentumFacts FlightFacts EngineProps EngineMore SceneInit RunTotal FuelFacts CacheFacts GroupFacts EnergyRun
     SysFacts StaticsFacts StaticsProps CoastRun GameProps GameStart.
Import ListNotations.
Open Scope R_scope.

Section Beside.
Variables (gf : nat) (o : oracle R) (bs : list (body R)) (js : list (joint R)).
Hypothesis Ho : broadphase_sane o.
Hypothesis Hne : bs <> [].
Hypothesis Hav : Forall available bs.
Hypothesis Hfit : Forall (fit gf) bs.
Hypothesis Hid : NoDup (map b_id bs).
Hypothesis Hjs : Forall (built bs) js.
Notation hd := (diff_handler gf o).
Let Hf := diff_handler_frame gf o.

(** *** the constructor *)
Lemma scene_starts hh dt eps tol fd ps : (forall w, world_init o hd hh bs js dt eps tol fd ps false = Ok w -> w_contacts w = []) ->
  exists w, world_init o hd hh bs js dt eps tol fd ps true = Ok w.
Proof.
  intros Hq. assert (W : exists w, world_init o hd hh bs js dt eps tol fd ps false = Ok w).
  { clear Hq. unfold world_init. destruct bs as [|b0 bs0] eqn:Eb; [congruence|]. rewrite <- Eb in *.
    assert (EJ : exists l, mapM (fun j : joint R => do i1 <- index_of bs (j_b1 j); match j_b2 j with Some id => do i2 <- index_of bs id; Ok (j, i1, Some i2) | None => Ok (j, i1, None) end) js = Ok l).
    { apply mapM_exists. intros j Hj. pose proof Hjs as HB. rewrite Forall_forall in HB. specialize (HB j Hj).
      destruct HB as [b1 pos H1|b1 b2 pos H1 H2 N|b1 b2 H1 H2 N|b1 H1|b1 H1|b1 H1|b1 H1];
        repeat match goal with |- context [joint_init ?a ?c ?p] => let K := fresh in let I1 := fresh in let I2 := fresh in destruct (joint_init_fields a c p) as (K & I1 & I2 & _); rewrite I1, I2; clear K I1 I2; cbn [option_map] end;
        cbn [j_b1 j_b2 fixed_init x_init y_init rot_init axis_init total_init]; try change (j_b1 (total_init b1)) with (b_id b1); try change (j_b2 (total_init b1)) with (@None nat);
        destruct (index_of_total bs _ H1) as (i & c & Ei & _); rewrite Ei; cbn [bind]; try (eexists; reflexivity);
        destruct (index_of_total bs _ H2) as (i' & c' & Ei' & _); rewrite Ei'; cbn [bind]; eexists; reflexivity. }
    destruct EJ as [l EJ]. rewrite EJ. cbn [bind]. unfold set_v. rewrite cat3_length, map_length. cbn [w_bodies]. rewrite Nat.eqb_refl. cbn [bind].
    match goal with |- context [find_contacts _ _ ?x] => assert (FC : exists w2, find_contacts o hd x = Ok w2) end.
    { apply find_contacts_total; [exact Ho|]. cbn [w_bodies with_state]. apply Forall_forall. intros b Hin. destruct (In_nth_error _ _ Hin) as [i Hi]. rewrite mapi_nth in Hi.
      destruct (nth_error bs i) as [c|] eqn:Ec; [|discriminate]. cbn [option_map] in Hi. injection Hi as <-. pose proof Hfit as HM. rewrite Forall_forall in HM.
      destruct (fit_manageable gf c (HM c (nth_error_In _ _ Ec))) as (M1 & M2 & M3 & M4). split; [exact M1|]. split; [exact M2|]. split; [exact M3|exact M4]. }
    destruct FC as [w2 ->]. cbn [bind andb]. eauto. }
  destruct W as [w W]. apply (init_strict _ _ _ _ _ _ _ _ _ _ _ W). rewrite (Hq w W). intros c [].
Qed.

(** *** the run *)
Section Run.
Variables (hh : fheap R) (dt eps tol : R) (ps st : bool) (w0 : world R) (rest : nat -> bool) (F : R -> vecR) (la : lapack R) (mi : nat).
Hypothesis Hw : world_init o hd hh bs js dt eps tol 2 ps st = Ok w0.
Hypothesis Hlf : loop_free js.
Hypothesis Hm : Forall (fun b : body R => 0 < b_mass b /\ 0 < b_inertia b) bs.
Hypothesis HF : forall t, world_apply_forces w0 t = Ok (F t).
Hypothesis Hst : jointed w0 rest F.
Hypothesis HL : lapack_ok la.
Hypothesis Hmi : (0 < mi)%nat.

Lemma beside_session : session la mi o hd bs js w0.
Proof. eapply session_history with (gf := gf) (w0 := w0) (ops := []) (fuel := 0%nat); [left; reflexivity|exact Ho|exact Hid|exact Hjs|exact Hav|exact Hw|reflexivity]. Qed.
Lemma beside_clock : w_dt w0 = dt /\ w_t w0 = 0 /\ w_eps w0 = eps /\ w_fric_dirs w0 = 2%nat /\ w_heap w0 = hh.
Proof. destruct (world_init_inv _ _ _ _ _ _ _ _ _ _ _ _ Hw) as (-> & -> & _ & -> & _ & _ & -> & -> & _). auto. Qed.
Lemma beside_same i b c : nth_error (w_bodies w0) i = Some b -> nth_error bs i = Some c -> forget b = forget c.
Proof.
  intros Hb Hc. pose proof (init_forget _ _ _ _ _ _ _ _ _ _ _ _ Hf Hw) as E. apply (f_equal (fun l => nth_error l i)) in E. rewrite !nth_error_map, Hb, Hc in E. now injection E.
Qed.
Lemma beside_moved : Forall2 moved bs (w_bodies w0).
Proof. apply Forall2_forget'; [apply moved_steps|]. exact (init_forget _ _ _ _ _ _ _ _ _ _ _ _ Hf Hw). Qed.
Theorem beside_run K lfuel fuel run_time : (forall m, (m < K)%nat -> in_balance w0 rest (F (INR m * dt))) ->
  (forall m, (m <= K)%nat -> clear_at o hd w0 (map fst (coasting w0 rest F m))) ->
  (forall m, (m < K)%nat -> INR m * dt < run_time) -> run_time <= INR K * dt -> (K < fuel)%nat ->
  exists w', run_world fuel (S lfuel) o hd (pdipm_engine la mi) run_time w0 = Ok w' /\ map (fun b => (b_p b, b_v b)) (w_bodies w') = coasting w0 rest F K /\ w_t w' = INR K * dt /\ w_contacts w' = [].
Proof.
  intros HB HC Hlt Hle Hfu. destruct beside_clock as (Edt & Et & _ & Efd & _).
  destruct (session_facts _ _ _ _ _ _ _ beside_session) as (_ & Hr & _ & Gm & J0 & Sd & V).
  assert (Bal : forall m, (m < K)%nat -> in_balance w0 rest (F (w_t w0 + INR m * w_dt w0))) by (intros m Hk; rewrite Et, Edt, Rplus_0_l; auto).
  pose proof (coast_start la o hd bs js J0 w0 rest F Sd V Gm (session_current _ _ _ _ _ _ _ beside_session) Hst (HC 0%nat ltac:(lia))) as C0.
  assert (F0 : Forall (fit gf) (w_bodies w0)).
  { refine (fit_all _ _ _ _ Hfit). apply Forall2_forget'; [apply fit_steps|]. exact (init_forget _ _ _ _ _ _ _ _ _ _ _ _ Hf Hw). }
  assert (G : forall d j a f, (j + d = K)%nat -> (d < f)%nat -> coasted la bs js J0 w0 rest F j a -> Forall (fit gf) (w_bodies a) ->
    exists w', run_world f (S lfuel) o hd (pdipm_engine la mi) run_time a = Ok w' /\ coasted la bs js J0 w0 rest F K w').
  { induction d as [|d IH]; intros j a f Hj Hd Ca Fa; (destruct f as [|f]; [lia|]); cbn [run_world]; pose proof (cs_t _ _ _ _ _ _ _ _ _ Ca) as Ta; rewrite Et, Edt, Rplus_0_l in Ta; rewrite Ta.
    - assert (EK : j = K) by lia. subst j. change (nltb (INR K * dt) run_time) with (Rltb (INR K * dt) run_time). destruct (Rltb_spec (INR K * dt) run_time) as [Q|Q]; [lra|]. exists a. auto.
    - assert (Hjk : (j < K)%nat) by lia. change (nltb (INR j * dt) run_time) with (Rltb (INR j * dt) run_time). destruct (Rltb_spec (INR j * dt) run_time) as [_|Q]; [|specialize (Hlt j Hjk); lra].
      destruct (coasted_total la mi gf o bs js J0 w0 rest F K HL Hmi Ho Hlf Sd Hm HF Efd Hst Bal HC j a lfuel Hjk Ca Fa) as [a' Ea'].
      unfold step. rewrite (coasted_dt _ _ _ _ _ _ _ _ _ Ca), Ea'. cbn [bind].
      assert (Ca' : coasted la bs js J0 w0 rest F (S j) a') by (eapply (coasted_step la mi (S lfuel) o hd bs js J0 w0 rest F K); eauto).
      assert (Fa' : Forall (fit gf) (w_bodies a')) by (eapply (coasted_fit la mi gf o); eauto).
      exact (IH (S j) a' f ltac:(lia) ltac:(lia) Ca' Fa'). }
  destruct (G K 0%nat w0 fuel ltac:(lia) Hfu C0 F0) as (w' & E & Ca). exists w'. split; [exact E|]. split; [exact (cs_state _ _ _ _ _ _ _ _ _ Ca)|]. split.
  - rewrite (cs_t _ _ _ _ _ _ _ _ _ Ca), Et, Edt. lra.
  - exact (cs_contacts _ _ _ _ _ _ _ _ _ Ca).
Qed.
End Run.
End Beside.

(** *** polygons with an edge between them have no contact *)
Lemma edge_apart gf o eps clk bs i j (b1 b2 : body R) cs bs' clk' : nth_error bs i = Some b1 -> nth_error bs j = Some b2 -> is_circle b1 = false -> is_circle b2 = false ->
  (0 < length (b_verts b1))%nat -> (0 < length (b_verts b2))%nat ->
  (exists e m, In e (edges (b_verts b1)) /\ separation (b_verts b2) (offset b1 b2) e m /\ eps < m) \/
  (exists e m, In e (edges (b_verts b2)) /\ separation (b_verts b1) (offset b2 b1) e m /\ eps < m) ->
  diff_handler gf o eps clk bs i j = Ok (cs, bs', clk') -> cs = [].
Proof.
  intros H1 H2 K1 K2 N1 N2 Ha H.
  unfold diff_handler, get_body in H. rewrite H1, H2 in H. cbn [bind] in H. destruct (existsb _ _); [now injection H|]. rewrite K1, K2 in H. cbn [andb orb] in H.
  bind_inv H as r Er. destruct r as [[ps b1'] b2']. injection H as <- _ _. unfold hull_hull in Er. bind_inv Er as s Es.
  change (nltb eps (sep_dist s)) with (Rltb eps (sep_dist s)) in Er. destruct (Rltb_spec eps (sep_dist s)) as [_|Q]; [injection Er as <- _ _; reflexivity|].
  destruct (sat_value _ _ _ _ N1 Es) as (_ & _ & Hs). destruct Ha as [(e & m & He & Hm & Hd)|(e & m & He & Hm & Hd)].
  - destruct Hs as [Hs|Hs]; [lra|]. specialize (Hs e m He Hm). lra.
  - bind_inv Er as s2 Es2. destruct (sat_value _ _ _ _ N2 Es2) as (_ & _ & Hs2). change (nltb eps (sep_dist s2)) with (Rltb eps (sep_dist s2)) in Er.
    destruct (Rltb_spec eps (sep_dist s2)) as [_|Q2]; [injection Er as <- _ _; reflexivity|]. destruct Hs2 as [Hs2|Hs2]; [lra|].
    assert (V : b_verts (set_last b1 (sep_idx s)) = b_verts b1) by (unfold b_verts, set_last; destruct b1 as [? k ? ? ? ? ? ? ? ? ?]; now destruct k).
    assert (P : offset b2 (set_last b1 (sep_idx s)) = offset b2 b1) by (unfold offset, b_pos, set_last; destruct b1 as [? k ? ? ? ? ? ? ? ? ?]; now destruct k).
    specialize (Hs2 e m He). rewrite V, P in Hs2. specialize (Hs2 Hm). lra.
Qed.
