(** Concrete worlds for the examples about overlaps in strict worlds *)
From Coq Require Import List Arith ZArith Bool Reals Lra Lia Floats.
From Verif Require Import Num Tensor Utils Bodies Forces Constraints Contacts World Lapack LapackRef Pdipm Lcp Engines
     Spec GeoSpec BodySpec JointSpec EngineSpec FreshSpec ContactSpec RewindSpec StrictSpec ResFacts RBase LapackSpec LuFacts BodyFacts RigidFacts GeomFacts BodyReach PlaneFacts HandlerFacts WorldFacts FreshFacts LayoutFacts SatFacts CollideFacts
     FloatEx RealEx ContactEx EngineEx StrictFacts StrictEx RewindFacts OverlapCover TunnelFacts PropContact.
Import ListNotations.
Open Scope R_scope.

(** any two manageable bodies, one of them a circle, that do not overlap can be put in a strict world *)
Lemma strict_two b1 b2 : available b1 -> available b2 -> manageable 18 b1 -> manageable 18 b2 -> is_circle b1 = true \/ is_circle b2 = true -> overlap_at_most 0 b1 b2 ->
  exists w, strict_run 18 pair_oracle 0 free_engine w /\ map still (w_bodies w) = map still [b1; b2] /\ w_eps w = 1/10 /\ w_tol w = 1/100.
Proof.
  intros A1 A2 M1 M2 Hc Ho.
  assert (E : exists w, world_init pair_oracle (diff_handler 18 pair_oracle) [] [b1; b2] [] (1/2) (1/10) (1/100) 2 false true = Ok w /\ map still (w_bodies w) = map still [b1; b2]).
  { unfold world_init. cbn [mapM bind forallb fold_left]. unfold set_v. rewrite cat3_length, map_length. cbn [w_bodies length Nat.eqb Nat.mul Nat.add bind].
    set (w1 := with_state _ _ _ _ _ _ _ _). assert (S1 : map still [b1; b2] = map still (w_bodies w1)) by (unfold w1; cbn; rewrite !still_with_v; reflexivity).
    destruct (find_contacts_total 18 pair_oracle w1 pair_sane) as (w2 & E2).
    { apply (still_all 18 [b1; b2]); [exact S1|]. apply Forall_cons; [exact M1|]. apply Forall_cons; [exact M2|]. apply Forall_nil. }
    rewrite E2. cbn [bind]. pose proof (find_contacts_frame _ _ _ _ (diff_handler_frame _ _) E2) as F.
    assert (S2 : map still (w_bodies w2) = map still [b1; b2]) by (rewrite (map_still_forget _ _ F); now symmetry).
    assert (P : no_penetration w2 = true).
    { apply no_penetration_spec. rewrite Forall_forall. intros c Hin. pose proof (find_contacts_current _ _ _ _ (diff_handler_frame _ _) E2) as (k & calls & Hk & Hw & Hr).
      rewrite Hw in Hin. apply in_flat_map in Hin. destruct Hin as ([[i j] new] & Hcall & Hin). cbn [snd] in Hin.
      assert (Hij : In (i, j) (o_collide pair_oracle k (map b_geom (w_bodies w2)))) by (rewrite <- Hk; exact (in_map fst _ _ Hcall)).
      destruct (two_world_nth _ _ _ S2) as (a1 & a2 & Eb & Z1 & Z2). rewrite Eb in Hij. cbn in Hij. destruct Hij as [Hij|[]]. injection Hij as <- <-.
      destruct (Hr _ _ new Hcall) as (clk & bs0 & bs1 & clk1 & Hs & Hd).
      destruct (still_nth _ _ 0%nat a1 Hs ltac:(rewrite Eb; reflexivity)) as (c1 & Ec1 & Y1). destruct (still_nth _ _ 1%nat a2 Hs ltac:(rewrite Eb; reflexivity)) as (c2 & Ec2 & Y2).
      assert (Et : w_tol w2 = 1 / 100) by (apply find_contacts_cfg in E2; cfg_fields E2; rewrite Htol; reflexivity). rnum. apply Rleb_true. rewrite Et. apply Rle_trans with 0; [|lra].
      destruct M1 as (_ & T1 & _). destruct M2 as (_ & T2 & _).
      assert (X1 : still b1 = still c1) by congruence. assert (X2 : still b2 = still c2) by congruence.
      assert (Q : is_circle c1 = true \/ is_circle c2 = true) by (destruct (still_shape _ _ X1) as (_ & _ & Q1 & _); destruct (still_shape _ _ X2) as (_ & _ & Q2 & _); rewrite <- Q1, <- Q2; exact Hc).
      exact (handler_depth 18 pair_oracle _ _ bs0 0 1 c1 c2 _ _ _ c 0 Ec1 Ec2 (still_tidy _ _ X1 T1) (still_tidy _ _ X2 T2) Q (still_overlap 0 c1 b1 c2 b2 (eq_sym X1) (eq_sym X2) Ho) Hd Hin). }
    rewrite P. cbn [negb andb]. exists w2. auto. }
  destruct E as (w & E & S). exists w. split; [|split; [exact S|]].
  - exists [], [b1; b2], [], (1/2), (1/10), (1/100), 2%nat, w, []. split; [apply Forall_cons; [exact A1|]; apply Forall_cons; [exact A2|]; apply Forall_nil|]. split; [exact E|reflexivity].
  - apply world_init_inv in E. tauto.
Qed.
Lemma box_and_ball : exists w a1 a2, strict_run 18 pair_oracle 0 free_engine w /\ w_bodies w = [a1; a2] /\
  padded w a1 a2 /\ ~ excluded a1 a2 /\ ~ excluded a2 a1 /\ tidy a1 /\ tidy a2 /\ is_circle a1 = false /\ is_circle a2 = true /\ measured (w_tol w) a1 a2 /\ 0 <= w_tol w.
Proof.
  destruct (rect_ex 0 0 0 2 2) as (b1 & H1); [lra|lra|]. set (b2 := ball 1 (3/2) 0 (1/2)).
  destruct (plain_convex _ _ _ _ _ _ H1) as [Sc Ins]; [lra|lra|]. pose proof (plain_circle _ _ _ _ _ _ H1) as Cb. pose proof (plain_verts _ _ _ _ _ _ H1) as Vb.
  destruct (strict_two b1 b2) as (w & Hs & Hb & He & Ht); [eapply plain_available; eauto|apply ball_available|eapply plain_manageable; eauto; lra|apply ball_manageable; lra|right; reflexivity| |].
  { exists (-1, 0). split; [unfold unit_vec; cbn; lra|]. intros q1 q2 P1 P2. apply (polygon_points _ _ Cb) in P1. apply (proj1 (circle_points b2 q2 eq_refl)) in P2. change (b_pos b2) with (3/2, 0) in P2. change (b_rad b2) with (1/2) in P2.
    assert (L : aff 0 1 0 (v2sub q1 (b_pos b1)) <= 1). { apply (in_hull_aff (b_verts b1)); [exact P1|]. intros z Hz. rewrite Vb in Hz. unfold corners in Hz. unfold aff. repeat (destruct Hz as [<-|Hz]; [cbn; lra|]). destruct Hz. }
    rewrite (pr_pos _ _ _ _ _ _ H1) in L. unfold aff, v2sub in L. rnum. cbn [fst snd] in *. pose proof (unit_dot (1, 0) (3/2, 0) q2) as D. unfold unit_vec in D. cbn [fst snd] in D. rewrite PlaneFacts.dist_sym in D. specialize (D ltac:(lra)). lra. }
  destruct (two_world_nth _ _ _ Hb) as (a1 & a2 & Ew & S1 & S2). exists w, a1, a2.
  pose proof (still_shape _ _ S1) as (I1 & P1 & C1 & R1 & V1 & G1). pose proof (still_shape _ _ S2) as (I2 & P2 & C2 & R2 & V2 & G2).
  split; [exact Hs|]. split; [exact Ew|].
  split; [unfold padded; rewrite He, <- (still_eps _ _ S1), <- (still_eps _ _ S2), (pr_eps _ _ _ _ _ _ H1); split; [apply (still_solid _ _ S1); unfold solid; rewrite (pr_kind _ _ _ _ _ _ H1); cbn; lra|]; split; [apply (still_solid _ _ S2); cbn; lra|]; cbn; lra|].
  split; [unfold excluded; rewrite <- I1, <- G2; cbn; tauto|]. split; [unfold excluded; rewrite <- I2, <- G1, (pr_nc _ _ _ _ _ _ H1); cbn; tauto|].
  split; [apply (still_tidy _ _ S1); unfold tidy; now rewrite Cb|]. split; [apply (still_tidy _ _ S2); cbn; lra|].
  split; [congruence|]. split; [rewrite <- C2; reflexivity|]. rewrite Ht. split; [|lra]. unfold measured. rewrite <- C1, <- C2, Cb, <- R2. cbn. lra.
Qed.

(** a fast ball in front of a ball at rest, in a strict world with steps of 1/8 *)
Definition shot : res (world float) := (
  do a <- circle_init 0 [0; 0] 1 [0; 64; 0] 1 1 0 0x1p-4;
  do b <- circle_init 1 [4; 0] 1 [0; 0; 0] 1 1 0 0x1p-4;
  world_init pair_oracle (diff_handler 10 pair_oracle) [] [a; b] [] 0x1p-3 0x1p-4 0x1p-20 2 false true)%float.

(** the touching discs of StrictEx take a step *)
Lemma pair_step : forall vx vy e vx' vy' e' mi, (0 < mi)%nat -> let w := pair_world vx vy e vx' vy' e' in exists k w' b1 b2 b1' b2' y,
  strict_run 10 pair_oracle (S k) (pdipm_engine ref_lapack mi) w /\ broadphase_complete (@pair_oracle R) /\
  step_dt (S k) pair_oracle (diff_handler 10 pair_oracle) (pdipm_engine ref_lapack mi) w (1/2) = Ok w' /\
  nth_error (w_bodies w) 0 = Some b1 /\ nth_error (w_bodies w) 1 = Some b2 /\
  nth_error (w_bodies w') 0 = Some b1' /\ nth_error (w_bodies w') 1 = Some b2' /\ padded w b1 b2 /\
  ~ excluded b1 b2 /\ ~ excluded b2 b1 /\ tidy b1 /\ tidy b2 /\ is_circle b1 = true /\ is_circle b2 = true /\ 0 <= w_tol w <= b_rad b1 + b_rad b2 /\ w_t w < w_t w' /\
  (forall q, body_points b1 q -> dist (snd (b_v b1')) (0, 0) + Rabs (fst (b_v b1')) * dist q (b_pos b1) <= y) /\
  (forall q, body_points b2 q -> dist (snd (b_v b2')) (0, 0) + Rabs (fst (b_v b2')) * dist q (b_pos b2) <= y).
Proof.
  intros vx vy e vx' vy' e' mi Hmi w.
  destruct (smooth_progress ref_lapack mi 10 pair_oracle _ [] _ ref_lapack_ok Hmi pair_sane (pair_smooth vx vy e vx' vy' e') [] (1/2) (1/10) (1/100) 2 false (pair_init vx vy e vx' vy' e') 0 [] _ (1/2) 0 eq_refl)
    as (v & Hv & Hstep); [lra|apply pair_room|cbn; lra|].
  destruct (pair_slow vx vy e vx' vy' e' v) as (s & Ps & Hs). destruct (Hstep s Hs Ps) as (k & w' & Hk & Et & _). specialize (Hk (S k) ltac:(lia)). fold w in Hk, Et.
  assert (Hrun : strict_run 10 pair_oracle (S k) (pdipm_engine ref_lapack mi) w).
  { exists [], (pair_bodies vx vy e vx' vy' e'), [], (1/2), (1/10), (1/100), 2%nat, w, []. split; [apply (ss_available _ _ _ _ (pair_smooth vx vy e vx' vy' e'))|]. split; [apply pair_init|reflexivity]. }
  set (b1 := disc 0 0 vx vy e 0). set (b2 := disc 1 2 vx' vy' e' 0).
  assert (L : length (w_bodies w') = 2%nat). { destruct (rejected_moves _ _ _ _ _ _ _ (diff_handler_frame _ _) (strict_run_reachable _ _ _ _ _ Hrun) eq_refl Hk) as (? & ? & _ & _ & L & _). exact L. }
  destruct (w_bodies w') as [|b1' [|b2' [|? ?]]] eqn:Eb; try discriminate.
  set (z1 := dist (snd (b_v b1')) (0, 0) + Rabs (fst (b_v b1')) * 1). set (z2 := dist (snd (b_v b2')) (0, 0) + Rabs (fst (b_v b2')) * 1).
  assert (P1 : 0 <= z1) by (unfold z1; pose proof (dist_nonneg (snd (b_v b1')) (0, 0)); pose proof (Rabs_pos (fst (b_v b1'))); lra).
  assert (P2 : 0 <= z2) by (unfold z2; pose proof (dist_nonneg (snd (b_v b2')) (0, 0)); pose proof (Rabs_pos (fst (b_v b2'))); lra).
  exists k, w', b1, b2, b1', b2', (z1 + z2). rewrite Eb. split; [exact Hrun|]. split; [apply pair_complete|]. split; [exact Hk|]. repeat (split; [reflexivity|]).
  split; [unfold padded; cbn; lra|]. split; [unfold excluded; cbn; tauto|]. split; [unfold excluded; cbn; tauto|]. split; [unfold tidy; cbn; lra|]. split; [unfold tidy; cbn; lra|].
  split; [reflexivity|]. split; [reflexivity|]. split; [cbn; lra|]. split.
  { rewrite Et. assert (0 < 1 / 2 / 2 ^ k); [|lra]. apply Rdiv_lt_0_compat; [lra|]. apply pow_lt. lra. }
  split; intros q Hq.
  - pose proof (circle_speed b1 (b_v b1') q eq_refl Hq) as Q. change (b_rad b1) with 1 in Q. fold z1 in Q. lra.
  - pose proof (circle_speed b2 (b_v b2') q eq_refl Hq) as Q. change (b_rad b2) with 1 in Q. fold z2 in Q. lra.
Qed.
