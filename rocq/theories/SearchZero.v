(** Links without mass cannot be simulated (proofs for C93) *)
From Coq Require Import List Arith ZArith Lia Bool Reals Lra.
From Verif Require Import Num Tensor Utils Bodies Forces Constraints Contacts World Lapack Pdipm Engines Game Infer Search
     Spec GeoSpec BodySpec JointSpec FreshSpec ContactSpec LapackSpec EngineSpec GameSpec StaticsSpec InferSpec SearchSpec RBase ResFacts LinAlg BodyFacts RigidFacts GeomFacts BodyReach WorldFacts HandlerFacts
     LayoutFacts HistFacts SatFacts FreshFacts CollideFacts EngineFacts EngineBalance JointFacts JeFacts HeldFacts MomentumFacts FlightFacts EngineProps EngineMore SceneInit RunTotal FuelFacts CacheFacts GroupFacts EnergyRun
     SysFacts StaticsFacts StaticsProps CoastRun GameFacts GameProps GameStart GameFree InferFacts InferRun SearchFacts SearchProps.
Import ListNotations.
Open Scope R_scope.

Section Zero.
Variables (fs : list (R -> v3 R)) (n gf : nat) (o : oracle R) (bs : list (body R)) (w0 : world R).
Hypothesis Hn : (1 <= n)%nat.
Hypothesis Ho : broadphase_sane o.
Hypothesis Ch : chained fs 0 n bs.
Notation hd := (diff_handler gf o).
Hypothesis Hw : world_init o hd (chain_heap fs 0 n) bs (chain_joints n) STEP EPSILON TOL 2 true true = Ok w0.

(** the last link swings about its upper joint *)
Definition swing : vecR := field (fun i => Nat.eqb i (n - 1)) (S n) (fun i => (1, (match i with O => - (20) | S _ => - (25) end, 0))).
Lemma swing_len : length swing = (3 * length (w_bodies w0))%nat.
Proof. unfold swing. rewrite field_length, (w0_len fs 0 n gf o bs w0 Ch Hw). reflexivity. Qed.
Lemma swing_other i : i <> (n - 1)%nat -> v3_at swing i = zero3.
Proof. intros H. apply field_out. now apply Nat.eqb_neq. Qed.
Lemma swing_last : v3_at swing (n - 1) = (1, (match (n - 1)%nat with O => - (20) | S _ => - (25) end, 0)).
Proof. unfold swing. rewrite field_at by lia. now rewrite Nat.eqb_refl. Qed.

Lemma swing_pins : constraint_velocity w0 swing = vzeros (w_num_constraints w0).
Proof.
  destruct (session_facts _ _ _ _ _ _ _ (chain_session fs 0 n gf o bs w0 Hn Ho Ch Hw {| la_getrf := fun _ => Err EFuel; la_getrs := fun _ b => b; la_inv := fun _ => Err EFuel |} 0)) as (_ & _ & _ & _ & J0 & Sd & _).
  apply zeros_forall; [|exact (cv_length _ _ _ _ _ Sd swing_len)]. rewrite cv_entries. apply flat_map_zero. intros [[j i1] i2] Hin.
  assert (P : forall i b, (i < n)%nat -> nth_error (w_bodies w0) i = Some b -> b_pos b = (300, 50 + 50 * INR i)) by (intros i b Hi Hb; unfold b_pos; rewrite (proj1 (w0_link fs 0 n gf o bs w0 Hn Ch Hw i b Hi Hb)); reflexivity).
  assert (Pj : forall (b : body R) c p, j_pos (joint_init b c p) = p) by (intros; unfold joint_init; destruct (cart_to_polar _); reflexivity).
  destruct (w0_joints fs 0 n gf o bs w0 Hn Ch Hw j i1 i2 Hin) as [(-> & -> & ->)|(Hi & -> & ->)].
  - destruct (Nat.eq_dec 0 (n - 1)) as [E|E]; [|apply entry_zero; [now apply swing_other|discriminate]].
    unfold entry_vel. destruct (nth_error (w_bodies w0) 0) as [b|] eqn:Hb; [|constructor]. rewrite (P 0%nat b ltac:(lia) Hb). pose proof swing_last as El. rewrite <- E in El. rewrite El. unfold nail. rewrite Pj. destruct (joint_init_fields (ideal 0) None (300, 30)) as (K & _). rewrite K.
    unfold measured, v2l, point_velocity, v2sub. cbn [fst snd INR]. rnum. apply Forall_cons; [lra|]. apply Forall_cons; [lra|constructor].
  - destruct (Nat.eq_dec i1 (n - 1)) as [E|E].
    + unfold entry_vel. destruct (nth_error (w_bodies w0) i1) as [b|] eqn:Hb; [|constructor]. rewrite (P i1 b ltac:(lia) Hb). unfold hinge. rewrite Pj. destruct (joint_init_fields (ideal i1) (Some (ideal (i1 - 1))) (300, 25 + 50 * INR i1)) as (K & _). rewrite K.
      destruct (nth_error (w_bodies w0) (i1 - 1)) as [c|] eqn:Hc; [|apply nth_error_None in Hc; rewrite (w0_len fs 0 n gf o bs w0 Ch Hw) in Hc; lia].
      rewrite (swing_other (i1 - 1)) by lia. pose proof swing_last as El. rewrite <- E in El. rewrite El. destruct i1 as [|i]; [lia|].
      unfold measured, v2l. rewrite point_zero. unfold point_velocity, v2sub. cbn [fst snd]. rnum. apply Forall_cons; [lra|]. apply Forall_cons; [lra|constructor].
    + destruct (Nat.eq_dec i1 n) as [->|E']; [lia|]. apply entry_zero; [now apply swing_other|]. intros i Ei. injection Ei as <-. apply swing_other. lia.
Qed.
Lemma swing_light : mv (w_M w0) swing = vzeros (3 * length (w_bodies w0)).
Proof.
  destruct (session_facts _ _ _ _ _ _ _ (chain_session fs 0 n gf o bs w0 Hn Ho Ch Hw {| la_getrf := fun _ => Err EFuel; la_getrs := fun _ b => b; la_inv := fun _ => Err EFuel |} 0)) as (_ & _ & _ & _ & J0 & Sd & _).
  rewrite (so_M _ _ _ _ Sd). assert (LM : length (mv (world_M (w_bodies w0)) swing) = (3 * length (w_bodies w0))%nat).
  { rewrite mv_length. rewrite <- (so_M _ _ _ _ Sd). apply (wf_length _ _ _ (proj1 (so_symm _ _ _ _ Sd))). }
  apply (vec3_ext (length (w_bodies w0))); [exact LM|apply vzeros_length|]. intros i Hi.
  assert (Z : v3_at (vzeros (3 * length (w_bodies w0)) : vecR) i = zero3) by (unfold v3_at, vget, vzeros; rewrite !nth_repeat; reflexivity). rewrite Z.
  destruct (nth_error (w_bodies w0) i) as [b|] eqn:Hb; [|apply nth_error_None in Hb; lia]. rewrite (v3_at_mv_M _ _ _ _ swing_len Hb).
  destruct (Nat.eq_dec i (n - 1)) as [E|E].
  - destruct (w0_nth fs 0 n gf o bs w0 Hn Ch Hw i b Hb) as (c & Hc & F). destruct (forget_keeps _ _ F) as (_ & _ & _ & _ & Em & Ei). destruct (ch_link _ _ _ _ Ch i c ltac:(lia) Hc) as [B _].
    unfold mass3. rewrite Em, Ei, (be_mass _ _ _ _ B), (be_inertia _ _ _ _ B). unfold Rdiv. apply f_equal2; [|apply f_equal2]; rnum; ring.
  - rewrite swing_other by exact E. unfold mass3. cbn [fst snd]. rnum. apply f_equal2; [|apply f_equal2]; ring.
Qed.
Theorem massless la mi lfuel w' : lapack_ok la -> step lfuel o hd (pdipm_engine la mi) false w0 <> Ok w'.
Proof.
  intros HL H. unfold step in H. destruct (step_dt_v _ _ _ _ _ _ _ H) as (v & c & Es & _). cbn [e_solve pdipm_engine] in Es.
  destruct (session_facts _ _ _ _ _ _ _ (chain_session fs 0 n gf o bs w0 Hn Ho Ch Hw la mi)) as (_ & _ & _ & _ & J0 & Sd & V).
  unfold solve_dynamics in Es. cbv zeta in Es. rewrite (w0_forces fs 0 n gf o bs w0 Hn Ch Hw) in Es. rewrite (chain_quiet fs 0 n gf o bs Hn Ho Ch _ _ _ _ _ _ _ _ Hw) in Es. cbn [bind] in Es. bind_inv Es as ic Ei. destruct ic as [inv cache].
  assert (Hi : la_inv la (sys w0) = Ok inv).
  { destruct (w_cache w0) as [inv'|] eqn:Ec; [injection Ei as -> _; now apply V in Ec|]. bind_inv Ei as inv' Ei'. injection Ei as -> _. exact Ei'. }
  destruct (inv_ok _ HL _ _ _ (wf_sys _ _ _ _ Sd) Hi) as [[Wi Wr] HI]. set (x := swing ++ vzeros (w_num_constraints w0)).
  assert (Lx : length x = (3 * length (w_bodies w0) + w_num_constraints w0)%nat) by (unfold x; rewrite app_length, vzeros_length, swing_len; reflexivity).
  destruct (HI x Lx) as [_ Ex]. unfold x in Ex at 1. rewrite (mv_sys _ _ _ _ Sd _ _ swing_len (vzeros_length _)) in Ex. rewrite (Je_cv _ _ _ _ Sd _ swing_len), swing_pins, swing_light in Ex.
  rewrite vm_zeros, vsub_zeros_r in Ex by apply vzeros_length. replace (vzeros (3 * length (w_bodies w0)) ++ vzeros (w_num_constraints w0)) with (vzeros (T := R) (3 * length (w_bodies w0) + w_num_constraints w0)) in Ex by (unfold vzeros; apply repeat_app).
  rewrite mv_zeros in Ex. assert (Q : v3_at x (n - 1) = v3_at swing (n - 1)).
  { unfold x, v3_at, vget. rewrite !app_nth1 by (rewrite swing_len, (w0_len fs 0 n gf o bs w0 Ch Hw); lia). reflexivity. }
  rewrite <- Ex, swing_last in Q. apply (f_equal fst) in Q. cbn [fst] in Q. unfold v3_at, vget, vzeros in Q. cbn [fst] in Q. rewrite nth_repeat in Q. rnum. lra.
Qed.
End Zero.

Theorem no_mass fs n gf o la mi fuel lfuel run_time p : (1 <= n)%nat -> broadphase_sane o -> lapack_ok la -> 0 < run_time -> ~ filmed fuel lfuel o (diff_handler gf o) (pdipm_engine la mi) fs n run_time 0 p.
Proof.
  intros Hn Ho HL Ht (w & w' & Ew & Er). destruct (make_world_chain o (diff_handler gf o) fs 0 n Hn) as (bs & Ch & E). rewrite E in Ew. destruct fuel as [|fuel]; [discriminate Er|]. cbn [positions_run_world] in Er.
  assert (T0 : w_t w = 0) by apply (w0_clock fs 0 n gf o bs w Ew). rewrite T0 in Er. change (nltb 0 run_time) with (Rltb 0 run_time) in Er. rewrite (proj2 (Rltb_true _ _) Ht) in Er. bind_inv Er as w1 E1.
  exact (massless fs n gf o bs w Hn Ho Ch Ew la mi lfuel w1 HL E1).
Qed.
Theorem no_guess fs n gf o la mi fuel lfuel run_time jac truth r : (1 <= n)%nat -> broadphase_sane o -> lapack_ok la -> 0 < run_time ->
  infer_mass fuel lfuel o (diff_handler gf o) (pdipm_engine la mi) fs n run_time jac truth 0 <> Ok r.
Proof.
  intros Hn Ho HL Ht H. destruct r as [[[m L] ls] ms]. unfold infer_mass in H. bind_inv H as g Eg. bind_inv H as r Er. clear H. assert (exists x, max_iter = S x) as (x & Ex) by (eexists; reflexivity). rewrite Ex in Er. clear Ex. cbn [iterations] in Er. bind_inv Er as w Ew. bind_inv Er as w1 Ew1. bind_inv Er as p Ep.
  apply observed in Ep. exact (no_mass fs n gf o la mi fuel lfuel run_time p Hn Ho HL Ht Ep).
Qed.
