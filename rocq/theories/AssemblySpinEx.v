(** Two discs that turn about each other, over two steps (example for C81) *)
From Coq Require Import List Arith ZArith Lia Bool Reals Lra.
From Verif Require Import Num Tensor Utils Bodies Forces Constraints Contacts World Lapack LapackRef Pdipm Lcp Engines
     Spec GeoSpec BodySpec JointSpec FreshSpec EngineSpec WellSpec DriftSpec AssemblySpec ResFacts RBase LinAlg LapackSpec PdipmSpec LuFacts WorldFacts HandlerFacts LayoutFacts HistFacts JointFacts JeFacts CacheFacts GeomFacts
     EngineFacts CollideFacts FlightFacts ContactSys EngineBalance MomentumFacts PostFacts HeldFacts FloatEx RealEx ContactEx RunTotal EngineEx EngineProps EngineMore EnergyRun DriftFacts DriftProps DriftEx AssemblyFacts AssemblyProps AssemblySpin RewindFacts.
Import ListNotations.
Open Scope R_scope.

Definition pair (i : nat) : bool := Nat.eqb i 0 || Nat.eqb i 1.
Lemma spin_massive : massive spin_world.
Proof. repeat (apply Forall_cons; [cbn; rnum; lra|]). apply Forall_nil. Qed.
Lemma spin_assembly : assembly spin_world pair.
Proof.
  constructor.
  - assert (T : forall a b, (a = 0 /\ b = 1 \/ a = 1 /\ b = 0)%nat -> together spin_world a b).
    { intros a b H. apply (together_tied _ _ (fixed_init spin0 spin1) a); [constructor| |reflexivity]. cbn. destruct H as [[-> ->]|[-> ->]]; tauto. }
    intros i k Hi Hk. unfold pair in Hi, Hk. apply orb_true_iff in Hi, Hk. rewrite !Nat.eqb_eq in Hi, Hk. destruct Hi as [->| ->], Hk as [->| ->]; try constructor; apply T; tauto.
  - intros j i1 i2 [E|[]]. injection E as <- <- <-. reflexivity.
Qed.
Lemma spin_spread : spread spin_world pair = 25 / 2.
Proof. unfold spread, over, arm, centre, total_mass, over, component, v2sub, mapi. cbn. rnum. field. Qed.
Lemma two_far eps clk (l : list (body R)) c0 c1 r : nth_error l 0 = Some c0 -> nth_error l 1 = Some c1 -> is_circle c0 = true -> is_circle c1 = true -> b_rad c0 = 1 -> b_rad c1 = 1 ->
  fst (b_pos c0) + 3 < fst (b_pos c1) -> eps = 1 / 10 -> disc_hd eps clk l 0%nat 1%nat = Ok r -> fst (fst r) = [].
Proof.
  intros H0 H1 K0 K1 R0 R1 L -> H. unfold disc_hd, diff_handler, get_body in H. rewrite H0, H1 in H. cbn [bind] in H.
  destruct (existsb _ _) in H; [injection H as <-; reflexivity|]. rewrite K0, K1 in H. cbn [andb bind] in H. rewrite (far_discs c0 c1 _ _ K0 K1 R0 R1 eq_refl eq_refl L) in H. cbn in H. injection H as <-. reflexivity.
Qed.
Lemma spin_twice mi : (0 < mi)%nat -> exists w' w'', step_dt 9 pair_oracle disc_hd (pdipm_engine ref_lapack mi) spin_world (1/2) = Ok w' /\
  step_dt 9 pair_oracle disc_hd (pdipm_engine ref_lapack mi) w' (1/2) = Ok w'' /\ w_contacts w' = [] /\ w_v w' = w_v spin_world /\ w_t w' <> w_t spin_world /\ world_apply_forces w' (w_t w') = Ok (vzeros 6).
Proof.
  intros Hmi. destruct (smooth_steps ref_lapack mi 10 pair_oracle spin_bodies [fixed_init spin0 spin1] spin_world ref_lapack_ok Hmi pair_sane spin_smooth [] (1/2) (1/10) 0 2 false false spin_init 9 [] spin_world [false; false]) as [w E]; [lia|reflexivity|].
  cbn [map exec] in E. bind_inv E as w1 E1. bind_inv E as w2 E2. injection E as <-. unfold step in E1, E2. change (w_dt spin_world) with (1/2) in E1. fold disc_hd in E1, E2.
  pose proof (step_dt_cfg _ _ _ _ _ _ _ E1) as C. pose proof C as C'. apply cfg_fields in C'. destruct C' as (_ & C1 & C2 & C3).
  assert (Dt : w_dt w1 = 1 / 2) by (cfg_fields C; congruence || (unfold spin_world in *; cbn in *; congruence)).
  assert (Ep : w_eps w1 = 1 / 10) by (cfg_fields C; congruence || (unfold spin_world in *; cbn in *; congruence)).
  rewrite Dt in E2. exists w1, w2. split; [exact E1|]. split; [exact E2|].
  destruct (session_facts _ _ _ _ _ _ _ (spin_session mi)) as (Hf & Hr & Ho & Hg & J0 & S0 & V).
  destruct (step_poses ref_lapack mi 9 pair_oracle disc_hd spin_bodies [fixed_init spin0 spin1] J0 Hf Hr Ho spin_world (1/2) w1 S0 V Hg E1) as (v & c & k & w3 & dp & Es & _ & _ & _ & Hdp & Et & _ & HQ).
  destruct (step_dt_v _ _ _ _ _ _ _ E1) as (v' & c' & Es' & Ev'). cbn [e_solve pdipm_engine] in Es'. rewrite Es in Es'. apply (f_equal (fun x => match x with Ok y => fst y | Err _ => v end)) in Es'. cbn in Es'. subst v'.
  assert (Ev : v = w_v spin_world).
  { apply (steady ref_lapack mi spin_bodies [fixed_init spin0 spin1] J0 spin_world ref_lapack_ok S0 V (sm_masses _ _ _ _ spin_smooth) (1/2) v c); auto; try reflexivity.
    unfold constraint_velocity. cbn. unfold v2l, point_velocity, v2sub. cbn. rnum. unfold vzeros. cbn. repeat (apply f_equal2; [ring|]). reflexivity. }
  pose proof (sound_step_dt spin_bodies _ J0 pair_oracle disc_hd Hf Hr Ho 9 (pdipm_engine ref_lapack mi) spin_world (1/2) w1 S0 E1) as S1.
  destruct (HQ 0%nat spin0 eq_refl) as (b0 & Hb0 & P0). destruct (HQ 1%nat spin1 eq_refl) as (b1 & Hb1 & P1).
  assert (Zd : forall i, v3_at dp i = (0, (0, 0))) by (intros i; destruct Hdp as [[_ ->]|[X _]]; [unfold v3_at; rewrite !vget_zeros; reflexivity|discriminate X]).
  rewrite Zd, Ev in P0, P1. pose proof (so_attrs _ _ _ _ S1) as AT.
  destruct (nth_error_Forall2_l _ _ _ _ _ AT (eq_refl : nth_error spin_bodies 0 = Some spin0)) as (b0' & Hb0' & A0). rewrite Hb0 in Hb0'. injection Hb0' as <-.
  destruct (nth_error_Forall2_l _ _ _ _ _ AT (eq_refl : nth_error spin_bodies 1 = Some spin1)) as (b1' & Hb1' & A1). rewrite Hb1 in Hb1'. injection Hb1' as <-.
  assert (L2 : length (w_bodies w1) = 2%nat) by (rewrite (so_len _ _ _ _ S1); reflexivity).
  split; [|split; [congruence|split]].
  - assert (W1 : session ref_lapack mi pair_oracle disc_hd spin_bodies [fixed_init spin0 spin1] w1) by (apply (session_later ref_lapack mi _ _ _ _ spin_world 9 [OStepDt (1/2)] w1 (spin_session mi)); cbn [exec]; rewrite E1; reflexivity).
    destruct (session_current _ _ _ _ _ _ _ W1) as (k' & calls & Ec & -> & Hrep). cbn [o_collide pair_oracle] in Ec. rewrite map_length, L2 in Ec. change (all_pairs 2) with [(0, 1)%nat] in Ec.
    destruct calls as [|[p new] [|? ?]]; try discriminate Ec. injection Ec as ->. cbn [flat_map snd]. rewrite app_nil_r.
    destruct (Hrep 0%nat 1%nat new (or_introl eq_refl)) as (clk & l & l1 & clk1 & Hl & Hh). rewrite Ep in Hh.
    assert (T : forall i b, nth_error (w_bodies w1) i = Some b -> exists c, nth_error l i = Some c /\ still c = still b).
    { intros i b Hb. assert (Q : nth_error (map still l) i = Some (still b)) by (rewrite Hl, nth_error_map, Hb; reflexivity). rewrite nth_error_map in Q. destruct (nth_error l i) as [d|]; [|discriminate]. exists d. cbn [option_map] in Q. split; [reflexivity|congruence]. }
    destruct (T _ _ Hb0) as (c0 & Hc0 & Q0). destruct (T _ _ Hb1) as (c1 & Hc1 & Q1).
    pose proof (step_dt_bodies _ moved_steps 9 pair_oracle disc_hd (pdipm_engine ref_lapack mi) spin_world spin_world (1/2) w1 Hf (Forall2_refl' _ moved_steps _) E1) as MV.
    destruct (nth_error_Forall2_l _ _ _ _ _ MV (eq_refl : nth_error (w_bodies spin_world) 0 = Some spin0)) as (d0 & Hd0 & M0). rewrite Hb0 in Hd0. injection Hd0 as <-.
    destruct (nth_error_Forall2_l _ _ _ _ _ MV (eq_refl : nth_error (w_bodies spin_world) 1 = Some spin1)) as (d1 & Hd1 & M1). rewrite Hb1 in Hd1. injection Hd1 as <-.
    destruct (moved_disc _ _ M0 eq_refl) as [K0 R0]. destruct (moved_disc _ _ M1 eq_refl) as [K1 R1].
    destruct (CollideFacts.still_shape _ _ Q0) as (_ & F0 & G0 & I0 & _). destruct (CollideFacts.still_shape _ _ Q1) as (_ & F1 & G1 & I1 & _).
    apply (two_far (1/10) clk l c0 c1 (new, l1, clk1) Hc0 Hc1); try congruence.
    + rewrite I0, R0. reflexivity.
    + rewrite I1, R1. reflexivity.
    + rewrite F0, F1. unfold b_pos. rewrite P0, P1. unfold v3add, v3scale, v2add, v2scale. cbn. rnum. lra.
  - rewrite Et. change (w_t spin_world) with 0. assert (0 < 1 / 2 / 2 ^ k) by (apply Rdiv_lt_0_compat; [lra|apply pow_lt; lra]). lra.
  - unfold world_apply_forces. destruct (w_bodies w1) as [|x [|y [|? ?]]]; try discriminate L2. cbn in Hb0, Hb1. injection Hb0 as ->. injection Hb1 as ->.
    destruct A0 as (_ & _ & _ & _ & _ & _ & F0 & _). destruct A1 as (_ & _ & _ & _ & _ & _ & F1 & _). cbn [mapM]. unfold body_apply_forces. rewrite F0, F1. reflexivity.
Qed.
Lemma spin_moves : 0 < spread spin_world pair /\ moves_as_one spin_world pair (1, (0, 5/2)) (w_v spin_world) /\ ~ moves_as_one spin_world pair (1, (0, 0)) (w_v spin_world).
Proof.
  split; [rewrite spin_spread; lra|]. split.
  - intros i b Hb Hi. unfold pair in Hi. apply orb_true_iff in Hi. rewrite !Nat.eqb_eq in Hi. destruct Hi as [->| ->]; cbn in Hb; injection Hb as <-; unfold arm, centre, total_mass, over, point_velocity, v2sub, mapi, v3_at, vget; cbn; rnum; (apply f_equal2; [reflexivity|]); apply f_equal2; field.
  - intros H. specialize (H 0%nat spin0 eq_refl eq_refl). apply (f_equal (fun q => snd (snd q))) in H. revert H. unfold arm, centre, total_mass, over, point_velocity, v2sub, mapi, v3_at, vget. cbn. rnum. intros H. lra.
Qed.
Lemma spin_slows : exists la mi o hd bs js w fuel dt w' w'' f,
  lapack_ok la /\ session la mi o hd bs js w /\ massive w /\ assembly w pair /\ length (w_bodies w) = 2%nat /\ w_post_stab w = false /\ 
  step_dt fuel o hd (pdipm_engine la mi) w dt = Ok w' /\ step_dt fuel o hd (pdipm_engine la mi) w' dt = Ok w'' /\
  w_contacts w' = [] /\ world_apply_forces w' (w_t w') = Ok f /\ (forall i, v3_at f i = (0, (0, 0))) /\
  fst (v3_at (w_v w') 0) = 1 /\ fst (v3_at (w_v w') 1) = 1 /\ 0 < fst (v3_at (w_v w'') 0) < 1 /\ fst (v3_at (w_v w'') 1) = fst (v3_at (w_v w'') 0).
Proof.
  destruct (spin_twice 10) as (w' & w'' & E1 & E2 & Ec & Ev & Et & Ef); [lia|].
  exists ref_lapack, 10%nat, pair_oracle, disc_hd, spin_bodies, [fixed_init spin0 spin1], spin_world, 9%nat, (1/2), w', w'', (vzeros 6).
  assert (Z : forall i, v3_at (vzeros 6) i = (0, (0, 0))) by (intros i; unfold v3_at; rewrite !vget_zeros; reflexivity).
  split; [exact ref_lapack_ok|]. split; [apply spin_session|]. split; [exact spin_massive|]. split; [exact spin_assembly|]. split; [reflexivity|]. split; [reflexivity|]. split; [exact E1|]. split; [exact E2|]. split; [exact Ec|]. split; [exact Ef|]. split; [exact Z|].
  split; [rewrite Ev; reflexivity|]. split; [rewrite Ev; reflexivity|].
  assert (NC : forall c, In c (w_contacts w') -> pair (c_i1 c) = false /\ pair (c_i2 c) = false) by (rewrite Ec; intros c []).
  destruct (assembly_slows ref_lapack 10 pair_oracle disc_hd spin_bodies [fixed_init spin0 spin1] spin_world w' pair 0 spin0 9 (1/2) ref_lapack_ok (spin_session 10) spin_massive spin_assembly eq_refl eq_refl eq_refl E1 9%nat (1/2) w'' (vzeros 6) E2 Ef (fun i _ => Z i) NC)
    as (u & u' & Hu & Hu' & _ & Es & EI).
  pose proof (Hu 0%nat spin0 eq_refl eq_refl) as U0. apply (f_equal fst) in U0. cbn [fst] in U0. rewrite Ev in U0. change (fst (v3_at (w_v spin_world) 0)) with 1 in U0. rewrite <- U0 in Es, EI. 
  assert (L2 : length (w_bodies w') = 2%nat).
  { destruct (session_facts _ _ _ _ _ _ _ (spin_session 10)) as (Hf & Hr & Ho & Hg & J0 & S0 & V).
    pose proof (sound_step_dt spin_bodies _ J0 pair_oracle disc_hd Hf Hr Ho 9 (pdipm_engine ref_lapack 10) spin_world (1/2) w' S0 E1) as S1. rewrite (so_len _ _ _ _ S1). reflexivity. }
  destruct (w_bodies w') as [|x [|y [|? ?]]] eqn:EB; try discriminate L2.
  assert (B0 : nth_error (w_bodies w') 0 = Some x) by (rewrite EB; reflexivity). assert (B1 : nth_error (w_bodies w') 1 = Some y) by (rewrite EB; reflexivity).
  pose proof (Hu' 0%nat x B0 eq_refl) as U1. pose proof (Hu' 1%nat y B1 eq_refl) as U2. rewrite U1, U2. cbn [fst]. split; [|reflexivity].
  pose proof (inertia_pos spin_world pair spin_massive) as I0. specialize (I0 ltac:(exists 0%nat, spin0; split; reflexivity)). rewrite spin_spread in EI. set (h := w_t w' - w_t spin_world) in *.
  assert (Hh : 0 < (h * 1) * (h * 1)) by (apply (Rsqr_pos_lt (h * 1)); unfold h; intros Q; apply Et; lra).
  split.
  - apply (Rmult_lt_reg_l (total_inertia w' pair)); [lra|]. rewrite Es. lra.
  - apply (Rmult_lt_reg_l (total_inertia w' pair)); [lra|]. rewrite Es. lra.
Qed.
