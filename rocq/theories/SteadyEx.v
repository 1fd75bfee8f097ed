(** Two balls with a gap between them, and discs in a row, for the theorems about nearby velocities *)
From Coq Require Import List Arith ZArith Lia Bool Reals Lra.
From Verif Require Import Num Tensor Utils Bodies Forces Constraints Contacts World Lapack LapackRef Pdipm Lcp Engines
     Spec GeoSpec BodySpec JointSpec FreshSpec EngineSpec WellSpec ContactSpec ResFacts RBase LinAlg LapackSpec PdipmSpec LuFacts HandlerFacts LayoutFacts WorldFacts
     EngineFacts ContactSys EngineBalance EnergyFacts MomentumFacts EngineProps EngineMore RunTotal FloatEx RealEx ContactEx EngineEx WellFacts WellProps WellEx SteadyFacts.
Import ListNotations.
Open Scope R_scope.

(** a disc moving to the right with velocity [v], and one at rest 4 further on; tolerance 0, steps of 1/2 *)
Definition gap_discs (v : R) : list (body R) := [disc 0 0 v 0 0 0; disc 1 4 0 0 0 0].
Definition gap_world (v : R) : world R := disc_world (gap_discs v) [].
Lemma gap_init v : world_init pair_oracle disc_hd [] (gap_discs v) [] (1/2) (1/10) 0 2 false false = Ok (gap_world v).
Proof.
  unfold world_init, gap_discs. cbn [mapM bind forallb fold_left]. change (nofZ 0) with (IZR 0).
  unfold set_v. rewrite cat3_length, map_length. cbn [w_bodies length Nat.eqb Nat.mul Nat.add bind].
  unfold find_contacts. cbn [w_bodies with_state w_clk w_eps o_collide pair_oracle].
  change (all_pairs _) with [(0, 1)]%nat. cbn [fold_left].
  unfold disc_hd, diff_handler. cbn -[circle_circle disc world_M].
  rewrite (far_discs _ _ (0, 0) (4, 0)); try reflexivity. cbn. lra.
Qed.
Lemma gap_forces v t : world_apply_forces (gap_world v) t = Ok (vzeros 6).
Proof. unfold world_apply_forces. cbn. rnum. reflexivity. Qed.
Lemma gap_smooth v : smooth 10 (gap_discs v) [] (gap_world v).
Proof.
  assert (Hp : Forall plain_disc (gap_discs v)) by (apply Forall_list2; do 6 eexists; reflexivity). constructor.
  - constructor; [cbn; intuition discriminate|constructor; [cbn; tauto|constructor]].
  - constructor.
  - eapply Forall_impl; [|exact Hp]. apply plain_disc_available.
  - eapply Forall_impl; [|exact Hp]. apply plain_disc_shape.
  - eapply Forall_impl; [|exact Hp]. intros b Hb. now apply plain_disc_mass.
  - eapply Forall_impl; [|exact Hp]. intros b Hb. now apply plain_disc_mass.
  - constructor.
  - intros t. eexists. apply gap_forces.
  - cbn. lra.
  - reflexivity.
  - reflexivity.
Qed.
Lemma gap_engine_world v mi : engine_world ref_lapack mi (gap_discs v) [] (gap_world v).
Proof.
  apply (engine_history _ _ _ _ _ 0 10 pair_oracle disc_hd [] (1/2) (1/10) 0 2 false false (gap_world v) []).
  - left; reflexivity.
  - apply pair_sane.
  - constructor; [cbn; intuition discriminate|constructor; [cbn; tauto|constructor]].
  - constructor.
  - exact (gap_init v).
  - reflexivity.
Qed.
(** the engine leaves the velocities alone *)
Lemma gap_solve v mi : (0 < mi)%nat -> exists c, e_solve (pdipm_engine ref_lapack mi) (gap_world v) (1/2) = Ok (w_v (gap_world v), c).
Proof.
  intros Hmi.
  destruct (smooth_steps ref_lapack mi 10 pair_oracle _ [] _ ref_lapack_ok Hmi pair_sane (gap_smooth v) [] (1/2) (1/10) 0 2 false false (gap_init v) 9 [] (gap_world v) [false]) as [w H]; [lia|reflexivity|].
  cbn [map exec] in H. unfold step in H. bind_inv H as w1 E. clear H. destruct (step_dt_v _ _ _ _ _ _ _ E) as (x & c & Es & _). clear E. change (w_dt (gap_world v)) with (1/2) in Es.
  exists c. rewrite Es. do 2 f_equal.
  pose proof (no_contacts ref_lapack mi _ _ _ _ x c ref_lapack_ok (gap_engine_world v mi) eq_refl Es) as Hx.
  destruct (engine_world_sound _ _ _ _ _ (gap_engine_world v mi)) as (J0 & HS & _).
  apply (response_unique _ _ _ _ HS (1/2) x [] (w_v (gap_world v)) []).
  - repeat (apply Forall_cons; [cbn; rnum; lra|]). apply Forall_nil.
  - intros c0 [].
  - exact Hx.
  - exists (vzeros 6), []. split; [apply gap_forces|]. split; [reflexivity|]. split; [|split; [reflexivity|constructor]].
    split; [reflexivity|]. split; [reflexivity|]. intros z Lz. change (3 * length (w_bodies (gap_world v)))%nat with 6%nat. rewrite dot_zeros_r, dot_zeros_l. unfold contact_power. cbn [w_contacts gap_world disc_world map2 Rsum fold_right]. rewrite dot_nil_l. ring.
Qed.
(** detection between two circles *)
Lemma two_circles w b1 b2 : w_bodies w = [b1; b2] -> is_circle b1 = true -> is_circle b2 = true -> g_no_contact (b_geom b2) = [] ->
  find_contacts pair_oracle disc_hd w = Ok (with_state w [b1; b2] (w_joints w) (w_t w) (w_v w) (mk_contacts 0 1 (circle_circle b1 b2 (w_eps w))) (w_cache w) (S (w_clk w))).
Proof.
  intros Eb C1 C2 N. unfold find_contacts. rewrite Eb. cbn [o_collide pair_oracle map length]. change (all_pairs _) with [(0, 1)]%nat. cbn [fold_left bind].
  unfold disc_hd, diff_handler. cbn [get_body nth_error bind]. rewrite N, C1, C2. reflexivity.
Qed.
Lemma circles_pen (b1 b2 : body R) (eps t : R) : forallb (fun c => nleb (c_pen c) t) (mk_contacts 0 1 (circle_circle b1 b2 eps)) = true <->
  b_rad b1 + b_rad b2 - v2norm (v2sub (b_pos b1) (b_pos b2)) < - eps \/ b_rad b1 + b_rad b2 - v2norm (v2sub (b_pos b1) (b_pos b2)) <= t.
Proof.
  unfold circle_circle. set (z := nsub (nadd (b_rad b1) (b_rad b2)) _). change (b_rad b1 + b_rad b2 - _) with z. clearbody z. rnum.
  destruct (Rltb z (- eps)) eqn:E.
  - apply Rltb_true in E. cbn. tauto.
  - apply Rltb_false in E. cbn. rnum. rewrite andb_true_r, Rleb_true. split; [tauto|]. intros [H|H]; [lra|exact H].
Qed.
Lemma axis_norm x y : v2norm (v2sub (x, 0) (y, 0)) = Rabs (x - y).
Proof. unfold v2norm, v2dot, v2sub. cbn [fst snd]. rnum. rewrite Rminus_0_r. apply sqrt_axis. lra. Qed.
(** the two discs at the positions x and 4 of the axis, moving as at the start *)
Record discs_at (v x : R) (w : world R) : Prop := {
  da_joints : w_joints w = [];
  da_t : w_t w = 0;
  da_cfg : cfg w = cfg (gap_world v);
  da_v : w_v w = w_v (gap_world v);
  da_bodies : exists b1 b2, w_bodies w = [b1; b2] /\ b_kind b1 = KCircle 1 /\ b_kind b2 = KCircle 1 /\ g_no_contact (b_geom b2) = [] /\
    b_p b1 = (0, (x, 0)) /\ b_p b2 = (0, (4, 0)) /\ b_v b1 = (0, (v, 0)) /\ b_v b2 = (0, (0, 0)) }.
Lemma trial_move v w s : discs_at v 0 w -> exists wa w1, move_all w s = Ok wa /\ find_contacts pair_oracle disc_hd wa = Ok w1 /\ discs_at v (s * v) w1 /\
  (no_penetration w1 = true <-> 2 - Rabs (s * v - 4) <= 0).
Proof.
  intros [HJ Ht Hc Hv (b1 & b2 & Eb & K1 & K2 & N2 & P1 & P2 & V1 & V2)].
  assert (Hm : forall b : body R, b_kind b = KCircle 1 -> b_kind (move b s) = KCircle 1 /\ g_no_contact (b_geom (move b s)) = g_no_contact (b_geom b) /\ b_p (move b s) = v3add (b_p b) (v3scale s (b_v b)) /\ b_v (move b s) = b_v b).
  { intros b Kb. unfold move, set_p. rewrite Kb. cbn. auto. }
  destruct (Hm b1 K1) as (Ka1 & Na1 & Pa1 & Va1). destruct (Hm b2 K2) as (Ka2 & Na2 & Pa2 & Va2).
  assert (Q1 : b_p (move b1 s) = (0, (s * v, 0))). { rewrite Pa1, P1, V1. unfold v3add, v3scale, v2add, v2scale. cbn [fst snd]. rnum. f_equal; [ring|f_equal; ring]. }
  assert (Q2 : b_p (move b2 s) = (0, (4, 0))). { rewrite Pa2, P2, V2. unfold v3add, v3scale, v2add, v2scale. cbn [fst snd]. rnum. f_equal; [ring|f_equal; ring]. }
  cfg_fields Hc. cbn [gap_world disc_world w_tol w_eps] in Htol, Heps.
  unfold move_all. rewrite HJ, Eb. cbn [map mapM bind]. eexists. eexists. split; [reflexivity|].
  rewrite (two_circles _ (move b1 s) (move b2 s)); [|reflexivity|unfold is_circle; now rewrite Ka1|unfold is_circle; now rewrite Ka2|now rewrite Na2]. split; [reflexivity|]. split.
  - constructor; try reflexivity; try assumption. exists (move b1 s), (move b2 s). rewrite Na2, Va1, Va2. auto 10.
  - unfold no_penetration. cbn [w_contacts with_state w_tol w_eps with_joints with_bodies]. rewrite circles_pen, Htol, Heps. unfold b_pos. rewrite Q1, Q2. cbn [snd]. rewrite axis_norm. unfold b_rad. rewrite Ka1, Ka2.
    replace (1 + 1 - Rabs (s * v - 4)) with (2 - Rabs (s * v - 4)) by ring. split; [intros [H|H]; lra|tauto].
Qed.
Lemma trial_back v x w : discs_at v x w -> exists w1, rewind w [0; 0; 0; 0; 4; 0] [] = Ok w1 /\ discs_at v 0 w1.
Proof.
  intros [HJ Ht Hc Hv (b1 & b2 & Eb & K1 & K2 & N2 & P1 & P2 & V1 & V2)]. unfold rewind, world_set_p. cbn [w_joints with_bodies with_state]. rewrite HJ, Eb. cbn [combine mapM bind].
  eexists. split; [reflexivity|]. constructor; try reflexivity; try assumption. cbn [w_bodies with_joints with_bodies with_state mapi mapi_from]. unfold set_p. rewrite K1, K2.
  do 2 eexists. split; [reflexivity|]. cbn. auto 10.
Qed.
Section Steps.
Variables (v : R) (mi fuel : nat).
Hypothesis Hmi : (0 < mi)%nat.
Notation w := (gap_world v).
Notation eng := (pdipm_engine ref_lapack mi).
Lemma gap_start c : exists w1, set_v (with_cache w c) (w_v w) = Ok w1 /\ discs_at v 0 w1.
Proof.
  eexists. split; [reflexivity|]. constructor; try reflexivity. do 2 eexists. split; [reflexivity|]. cbn. auto 10.
Qed.
Lemma gap_accepted : v <= 4 -> exists w', step_dt (S fuel) pair_oracle disc_hd eng w (1/2) = Ok w' /\ w_t w' = 1/2 /\ exists b1 b2, w_bodies w' = [b1; b2] /\ b_pos b1 = (v / 2, 0) /\ b_pos b2 = (4, 0).
Proof.
  intros Hv. destruct (gap_solve v mi Hmi) as (c & Es). unfold step_dt. cbv zeta. rewrite Es. cbn [bind]. destruct (gap_start c) as (w1 & E1 & H1). rewrite E1. cbn [bind step_loop].
  destruct (trial_move v w1 (1/2) H1) as (wa & w2 & Ea & E2 & [HJ Ht Hc Hw (b1 & b2 & Eb & K1 & K2 & N2 & P1 & P2 & V1 & V2)] & Hn). rewrite Ea. cbn [bind]. rewrite E2. cbn [bind].
  rewrite (proj2 Hn) by (rewrite Rabs_left; lra). cbn [bind]. cfg_fields Hc. rewrite Hps. cbn [w_post_stab gap_world disc_world bind]. eexists. split; [reflexivity|]. cbn [w_t with_t with_state w_bodies]. rewrite Ht. split; [rnum; lra|].
  exists b1, b2. split; [exact Eb|]. unfold b_pos. rewrite P1, P2. cbn [snd]. split; [f_equal; field|reflexivity].
Qed.
Lemma gap_halved : 4 < v <= 5 -> exists w', step_dt (S (S fuel)) pair_oracle disc_hd eng w (1/2) = Ok w' /\ w_t w' = 1/4 /\ exists b1 b2, w_bodies w' = [b1; b2] /\ b_pos b1 = (v / 4, 0) /\ b_pos b2 = (4, 0).
Proof.
  intros Hv. destruct (gap_solve v mi Hmi) as (c & Es). unfold step_dt. cbv zeta. rewrite Es. cbn [bind]. destruct (gap_start c) as (w1 & E1 & H1). rewrite E1. cbn [bind step_loop].
  destruct (trial_move v w1 (1/2) H1) as (wa & w2 & Ea & E2 & H2 & Hn). rewrite Ea. cbn [bind]. rewrite E2. cbn [bind].
  destruct (no_penetration w2) eqn:En; [pose proof (proj1 Hn eq_refl) as Q; rewrite Rabs_left in Q by lra; lra|]. pose proof (da_cfg _ _ _ H2) as Hc. cfg_fields Hc. rewrite Hstrict, Hdt. cbn [w_strict w_dt gap_world disc_world negb andb].
  rnum. replace (Rltb (1/2) (1/2/4)) with false by (symmetry; apply Rltb_false; lra).
  destruct (trial_back v _ w2 H2) as (w3 & E3 & H3). change (cat3 (map b_p (w_bodies w))) with [0; 0; 0; 0; 4; 0]. change (map _ (w_joints w)) with (@nil (R * option R)). rewrite E3. cbn [bind step_loop]. clear Hn En.
  destruct (trial_move v w3 (1/2/2) H3) as (wb & w4 & Eb' & E4 & [HJ Ht Hc' Hw (b1 & b2 & Eb & K1 & K2 & N2 & P1 & P2 & V1 & V2)] & Hn). rewrite Eb'. cbn [bind]. rewrite E4. cbn [bind].
  rewrite (proj2 Hn) by (rewrite Rabs_left; lra). cbn [bind]. clear - Hc' Ht Eb P1 P2. cfg_fields Hc'. rewrite Hps. cbn [w_post_stab gap_world disc_world bind]. eexists. split; [reflexivity|]. cbn [w_t with_t with_state w_bodies]. rewrite Ht. split; [rnum; lra|].
  exists b1, b2. split; [exact Eb|]. unfold b_pos. rewrite P1, P2. cbn [snd]. split; [f_equal; field|reflexivity].
Qed.
End Steps.
Lemma gap_set v v' : set_v (gap_world v) [0; v'; 0; 0; 0; 0] = Ok (gap_world v').
Proof. reflexivity. Qed.
Lemma gap_session v mi : session ref_lapack mi pair_oracle disc_hd (gap_discs v) [] (gap_world v).
Proof.
  destruct (gap_smooth v) as [A1 A2 A3 _ _ _ _ _ _ _ _].
  apply (session_history _ _ _ _ _ _ _ 0 10 [] (1/2) (1/10) 0 2 false false (gap_world v) []); [left; reflexivity|apply pair_sane|exact A1|exact A2|exact A3|exact (gap_init v)|reflexivity].
Qed.

(** *** different restitutions: three discs in a row, and the same discs at rest *)
Lemma gain_response : response gain_world (1/2) [0; -1/2; 0; 0; 5/2; 0; 0; 2; 0] [(7/2, 0); (1, 0)].
Proof.
  apply (solutions ref_lapack 10 (three_discs 3 1 0 1 1 0) [] gain_world (1/2) _ _ (three_engine_world 3 1 0 1 1 0 10) eq_refl ltac:(discriminate)).
  exists gain_solution. split; [|split].
  - destruct gain_problem as (pr & E & Hs). exists pr. split; [|exact Hs]. unfold engine_problem. change gain_world with (three_disc_world 3 1 0 1 1 0) at 1 2. rewrite three_forces. exact E.
  - cbn. unfold vopp. cbn. rnum. repeat (f_equal; try field).
  - unfold impulses, multipliers, vget. cbn. rnum. repeat (f_equal; try field).
Qed.
Definition rest_world : world R := three_disc_world 0 1 0 1 0 0.
Lemma gain_rest : set_v gain_world (vzeros 9) = Ok rest_world.
Proof. reflexivity. Qed.
Lemma rest_response : response rest_world (1/2) (vzeros 9) [(0, 0); (0, 0)].
Proof.
  exists (vzeros 9), []. split; [apply three_forces|]. split; [reflexivity|]. split; [|split; [reflexivity|]].
  - split; [reflexivity|]. split; [reflexivity|]. intros x Lx. change (3 * length (w_bodies rest_world))%nat with 9%nat in *. rewrite dot_zeros_r, dot_zeros_l, dot_nil_l.
    do 9 (destruct x as [|? x]; [discriminate|]). destruct x; [|discriminate]. unfold kinetic, contact_power, component, relative_velocity, point_velocity, v3_at, vget. cbn. rnum. ring.
  - repeat (apply Forall2_cons; [constructor; unfold mixed, normal_velocity, slip_velocity, component, relative_velocity, point_velocity, v3_at, vget; cbn; rnum; rewrite ?Rabs_R0; try lra|]); try apply Forall2_nil; try (intros; lra).
Qed.
