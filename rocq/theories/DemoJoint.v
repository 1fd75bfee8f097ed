(** fixed_joint_demo (proofs for C95) *)
From Coq Require Import List Arith ZArith Bool Reals Lra Lia.
From Verif Require Import Num Tensor Utils Bodies Forces Constraints Contacts World Lapack LapackRef Pdipm Lcp Engines Game Infer Demo Spec GeoSpec BodySpec JointSpec FreshSpec ContactSpec EngineSpec ImpactSpec SlopeSpec StaticsSpec DemoSpec
     RBase ResFacts LinAlg LapackSpec BodyFacts RigidFacts GeomFacts BodyReach WorldFacts HandlerFacts LayoutFacts HistFacts SatFacts FreshFacts CollideFacts EngineFacts JointFacts JeFacts MomentumFacts FlightFacts EngineProps EngineMore SceneInit RunTotal
     EnergyRun SysFacts StaticsFacts StaticsProps GameFacts GameProps GameStart GameFree InferFacts InferRun SlopeProps BesideRun DemoFacts GradDemo GradDemoFacts.
Import ListNotations.
Open Scope R_scope.


Lemma slab_nc id p w h mass b nc : slab id p w h mass b -> slab id p w h mass (with_no_contact b nc).
Proof.
  intros [(b0 & ops & H & E) K P I V M J]. constructor; auto. exists b0, (ops ++ [BNoContact nc]). split; [exact H|]. unfold bexec in *. rewrite fold_left_app, <- E. reflexivity.
Qed.
(** *** a block above the plane *)
Lemma block_above x y z b1 b2 : b_verts b1 = map (rotate (PI / 32)) (corners 900 10) -> b_verts b2 = map (rotate 0) (corners 60 60) ->
  b_pos b1 = (500, z) -> b_pos b2 = (x, y) -> 1 / 10 < sin (PI / 32) * (x - 530) - cos (PI / 32) * (y + 30 - z) - 5 ->
  exists e m, In e (edges (b_verts b1)) /\ separation (b_verts b2) (offset b1 b2) e m /\ 1 / 10 < m.
Proof.
  intros V1 V2 P1 P2 Hy. destruct incline_trig as [Hs Hc]. rewrite V1, V2. unfold offset. rewrite P1, P2, map_rotate_0.
  set (s := sin (PI / 32)) in *. set (c := cos (PI / 32)) in *.
  assert (SC : s * s + c * c = 1) by (pose proof (sin2_cos2 (PI / 32)) as Q; unfold Rsqr in Q; exact Q).
  set (A := rotate (PI / 32) (- (900 / 2), - (10 / 2))). set (B := rotate (PI / 32) (900 / 2, - (10 / 2))).
  exists (A, B), (s * (x - 530) - c * (y + 30 - z) - 5). split; [cbn; tauto|].
  assert (L : dist A B = 900).
  { unfold dist, A, B, rotate. cbn [fst snd]. fold s c. match goal with |- sqrt ?t = _ => replace t with (900 * 900 * (s * s + c * c)) by field end. rewrite SC, Rmult_1_r. apply sqrt_square. lra. }
  assert (Ed : forall v, edge_dist (A, B) v = s * fst v - c * snd v - 5).
  { intros v. unfold edge_dist. cbn [fst snd]. rewrite L. unfold tri2, det2, A, B, rotate. cbn [fst snd]. fold s c.
    match goal with |- ?t / 900 = _ => replace t with (900 * (s * fst v - c * snd v) - 4500 * (s * s + c * c)) by field end. rewrite SC. field. }
  split; [split|exact Hy].
  - exists (- (60 / 2), 60 / 2). split; [cbn; tauto|]. rewrite Ed. cbn. rnum. lra.
  - intros v Hv. rewrite Ed. destruct Hv as [<-|[<-|[<-|[<-|[]]]]]; cbn; rnum; lra.
Qed.

Section Joint.
Variables (gf : nat) (o : oracle R) (r r2 p : body R).
Hypothesis Ho : broadphase_sane o.
Hypothesis Hr : slab 0 (0, (120, 100)) 60 60 1 r.
Hypothesis Hr2 : slab 1 (0, (160, 100)) 60 60 1 r2.
Hypothesis Hp : slab 2 plane_pose2 900 10 1 p.
Hypothesis Hn1 : In (b_id r) (g_no_contact (b_geom r2)).
Hypothesis Hn2 : In (b_id r2) (g_no_contact (b_geom r)).
Notation hd := (diff_handler gf o).
Notation bodies := [r; r2; p].
Lemma joint_clear (a : world R) y : Forall2 moved bodies (w_bodies a) -> w_eps a = 1 / 10 -> map b_p (w_bodies a) = [(0, (120, y)); (0, (160, y)); plane_pose2] -> y <= 417 ->
  contacts_current o hd a -> w_contacts a = [].
Proof.
  intros Mv Eps Hpp Hy Cu. destruct (w_contacts a) as [|c cs] eqn:Ec; [reflexivity|exfalso].
  assert (Hc : In c (w_contacts a)) by (rewrite Ec; now left). clear Ec cs.
  destruct (current_report _ _ _ _ Cu Hc Ho) as (Hne & L1 & L2 & new & Hin & Hrep).
  inversion Mv as [|x0 y0 l0 l0' M0 Mv' E0 E0']; subst. inversion Mv' as [|x1 y1 l1 l1' M1 Mv'' E1 E1']; subst. inversion Mv'' as [|x2 y2 l2 l2' M2 Mv3 E2 E2']; subst. inversion Mv3; subst. symmetry in E0'. rewrite E0' in *. cbn [map] in Hpp.
  assert (P0 : b_p y0 = (0, (120, y))) by congruence. assert (P1 : b_p y1 = (0, (160, y))) by congruence. assert (P2 : b_p y2 = plane_pose2) by congruence. clear Mv Mv' Mv'' Mv3 Hpp.
  destruct Hrep as (clk & bs0 & bs1 & clk1 & Hst & Hd). rewrite Eps in Hd.
  destruct (still_nth _ _ 0%nat y0 Hst eq_refl) as (a0 & A0 & S0). destruct (still_nth _ _ 1%nat y1 Hst eq_refl) as (a1 & A1 & S1). destruct (still_nth _ _ 2%nat y2 Hst eq_refl) as (a2 & A2 & S2).
  assert (Pr : forall x z, still x = still z -> b_p x = b_p z /\ b_verts x = b_verts z /\ is_circle x = is_circle z).
  { intros x z E. split; [apply (f_equal b_p) in E; unfold still in E; cbn in E; now rewrite !forget_p in E|]. split.
    - apply (f_equal b_verts) in E. change (b_verts (forget x) = b_verts (forget z)) in E. now rewrite !forget_verts in E.
    - apply (f_equal b_kind) in E. unfold is_circle. destruct x as [? k ? ? ? ? ? ? ? ? ?], z as [? k' ? ? ? ? ? ? ? ? ?]. cbn in *. destruct k, k'; cbn in E; congruence. }
  assert (Xa : forall e b d, still e = still b -> moved d b -> excl e = excl d).
  { intros e b d He Hm. rewrite <- (moved_excl _ _ Hm). apply (f_equal excl) in He. unfold still in He. now rewrite !excl_with_v, !excl_forget in He. }
  pose proof (Xa _ _ _ S0 M0) as X0. pose proof (Xa _ _ _ S1 M1) as X1.
  assert (Ex : forall i j b b' (d d' : body R), nth_error bs0 i = Some b -> nth_error bs0 j = Some b' -> excl b = excl d -> excl b' = excl d' -> In (b_id d) (g_no_contact (b_geom d')) -> hd (1 / 10) clk bs0 i j = Ok (new, bs1, clk1) -> False).
  { intros i j b b' d d' Hb Hb' Xd Xd' Hn Hh. unfold diff_handler, get_body in Hh. rewrite Hb, Hb' in Hh. cbn [bind] in Hh.
    assert (Y : existsb (Nat.eqb (b_id b)) (g_no_contact (b_geom b')) = true).
    { unfold excl in Xd, Xd'. injection Xd as -> _. injection Xd' as _ ->. apply existsb_exists. exists (b_id d). split; [exact Hn|apply Nat.eqb_refl]. }
    rewrite Y in Hh. injection Hh as <- _ _. destruct Hin. }
  destruct (Pr _ _ S0) as (Q0 & V0 & K0), (Pr _ _ S1) as (Q1 & V1 & K1), (Pr _ _ S2) as (Q2 & V2 & K2).
  destruct (slab_moved _ _ _ _ _ _ _ Hr M0) as [C0 W0]. destruct (slab_moved _ _ _ _ _ _ _ Hr2 M1) as [C1 W1]. destruct (slab_moved _ _ _ _ _ _ _ Hp M2) as [C2 W2].
  rewrite C0 in K0. rewrite C1 in K1. rewrite C2 in K2. unfold b_rot in W0, W1, W2. rewrite W0, P0 in V0. rewrite W1, P1 in V1. rewrite W2, P2 in V2. rewrite P0 in Q0. rewrite P1 in Q1. rewrite P2 in Q2. cbn [fst plane_pose2] in V0, V1, V2.
  assert (O0 : b_pos a0 = (120, y)) by (unfold b_pos; now rewrite Q0). assert (O1 : b_pos a1 = (160, y)) by (unfold b_pos; now rewrite Q1). assert (O2 : b_pos a2 = (500, 500)) by (unfold b_pos; now rewrite Q2).
  destruct incline_trig as [[T0 T1] [T2 T3]].
  pose proof (block_above 120 y 500 a2 a0 V2 V0 O2 O0 ltac:(nra)) as Sep0. pose proof (block_above 160 y 500 a2 a1 V2 V1 O2 O1 ltac:(nra)) as Sep1.
  assert (N0 : (0 < length (b_verts a0))%nat) by (rewrite V0; cbn; lia). assert (N1 : (0 < length (b_verts a1))%nat) by (rewrite V1; cbn; lia). assert (N2 : (0 < length (b_verts a2))%nat) by (rewrite V2; cbn; lia).
  cbn [length] in L1, L2. destruct (c_i1 c) as [|[|[|k]]] eqn:I1; [| | |lia]; (destruct (c_i2 c) as [|[|[|k]]] eqn:I2; [| | |lia]); try congruence.
  - exact (Ex 0%nat 1%nat a0 a1 r r2 A0 A1 X0 X1 Hn1 Hd).
  - rewrite (edge_apart _ _ _ _ _ _ _ _ _ _ _ _ A0 A2 K0 K2 N0 N2 (or_intror Sep0) Hd) in Hin. destruct Hin.
  - exact (Ex 1%nat 0%nat a1 a0 r2 r A1 A0 X1 X0 Hn2 Hd).
  - rewrite (edge_apart _ _ _ _ _ _ _ _ _ _ _ _ A1 A2 K1 K2 N1 N2 (or_intror Sep1) Hd) in Hin. destruct Hin.
  - rewrite (edge_apart _ _ _ _ _ _ _ _ _ _ _ _ A2 A0 K2 K0 N2 N0 (or_introl Sep0) Hd) in Hin. destruct Hin.
  - rewrite (edge_apart _ _ _ _ _ _ _ _ _ _ _ _ A2 A1 K2 K1 N2 N1 (or_introl Sep1) Hd) in Hin. destruct Hin.
Qed.

(** *** the world *)
Hypothesis Hg : (18 <= gf)%nat.
Hypothesis Hf0 : b_forces r = [0%nat].
Hypothesis Hf1 : b_forces r2 = [1%nat].
Hypothesis Hf2 : b_forces p = [].
Notation hh := [FGrav 100 (Some (0, (0, 100))); FGrav 100 (Some (0, (0, 100)))].
Notation joints := [fixed_init r r2; total_init p].
Lemma joint_available : Forall available bodies.
Proof. constructor; [exact (sl_available _ _ _ _ _ _ Hr)|]. constructor; [exact (sl_available _ _ _ _ _ _ Hr2)|]. constructor; [exact (sl_available _ _ _ _ _ _ Hp)|constructor]. Qed.
Lemma joint_fit : Forall (fit gf) bodies.
Proof. constructor; [apply (slab_fit _ _ _ _ _ _ _ Hr); lra || exact Hg|]. constructor; [apply (slab_fit _ _ _ _ _ _ _ Hr2); lra || exact Hg|]. constructor; [apply (slab_fit _ _ _ _ _ _ _ Hp); lra || exact Hg|constructor]. Qed.
Lemma joint_ids : NoDup (map b_id bodies).
Proof. cbn. rewrite (sl_id _ _ _ _ _ _ Hr), (sl_id _ _ _ _ _ _ Hr2), (sl_id _ _ _ _ _ _ Hp). repeat constructor; cbn; intuition discriminate. Qed.
Lemma joint_built : Forall (built bodies) joints.
Proof.
  constructor; [|constructor; [|constructor]].
  - apply built_fixed; [now left|right; now left|]. rewrite (sl_id _ _ _ _ _ _ Hr), (sl_id _ _ _ _ _ _ Hr2). discriminate.
  - apply built_total. right. right. now left.
Qed.
Lemma joint_loops : loop_free joints.
Proof.
  apply (loop_free_add [] (fixed_init r r2) [total_init p]).
  - apply (loop_free_add [] (total_init p) []); [constructor|]. left. exists 2%nat. split; [left; exact (sl_id _ _ _ _ _ _ Hp)|intros j []].
  - left. exists 0%nat. split; [left; exact (sl_id _ _ _ _ _ _ Hr)|]. intros j [<-|[]] T. destruct T as [T|T]; cbn in T; [rewrite (sl_id _ _ _ _ _ _ Hp) in T|]; discriminate T.
Qed.
Lemma joint_masses : Forall (fun c : body R => 0 < b_mass c /\ 0 < b_inertia c) bodies.
Proof.
  constructor; [|constructor; [|constructor; [|constructor]]]; rewrite ?(sl_mass _ _ _ _ _ _ Hr), ?(sl_mass _ _ _ _ _ _ Hr2), ?(sl_mass _ _ _ _ _ _ Hp), ?(sl_inertia _ _ _ _ _ _ Hr), ?(sl_inertia _ _ _ _ _ _ Hr2), ?(sl_inertia _ _ _ _ _ _ Hp); lra.
Qed.
Lemma joint_starts : exists w, world_init o hd hh bodies joints STEP EPSILON TOL 2 false true = Ok w.
Proof.
  apply (scene_starts gf o bodies joints); [exact Ho|discriminate|apply joint_available|apply joint_fit|apply joint_ids|apply joint_built|].
  intros w H. apply (joint_clear w 100).
  - exact (beside_moved _ _ _ _ _ _ _ _ _ _ _ H).
  - destruct (world_init_inv _ _ _ _ _ _ _ _ _ _ _ _ H) as (_ & -> & _). reflexivity.
  - pose proof (init_forget _ _ _ _ _ _ _ _ _ _ _ _ (diff_handler_frame gf o) H) as E. apply (f_equal (map b_p)) in E. rewrite !map_map in E.
    rewrite (map_ext _ b_p) in E by (intros; apply forget_p). rewrite E. cbn [map]. rewrite !forget_p. now rewrite (sl_p _ _ _ _ _ _ Hr), (sl_p _ _ _ _ _ _ Hr2), (sl_p _ _ _ _ _ _ Hp).
  - lra.
  - eapply init_current; [apply diff_handler_frame|exact H].
Qed.
Section Run.
Variable w0 : world R.
Hypothesis Hw : world_init o hd hh bodies joints STEP EPSILON TOL 2 false true = Ok w0.
Definition fixed_plane (i : nat) : bool := Nat.eqb i 2.
Definition pulls (t : R) : vecR := [0; 0; 100; 0; 0; 100; 0; 0; 0].
Lemma joint_bodies : exists r0 r20 p0, w_bodies w0 = [r0; r20; p0] /\ forget r0 = forget r /\ forget r20 = forget r2 /\ forget p0 = forget p.
Proof.
  pose proof (init_forget _ _ _ _ _ _ _ _ _ _ _ _ (diff_handler_frame gf o) Hw) as E. destruct (w_bodies w0) as [|r0 [|r20 [|p0 [|]]]]; try discriminate E. cbn [map] in E. exists r0, r20, p0. split; [reflexivity|]. split; [congruence|]. split; congruence.
Qed.
Lemma joint_forces t : world_apply_forces w0 t = Ok (pulls t).
Proof.
  destruct joint_bodies as (r0 & r20 & p0 & E & E0 & E1 & E2). destruct (beside_clock _ _ _ _ _ _ _ _ _ _ _ Hw) as (_ & _ & _ & _ & Eh). unfold world_apply_forces. rewrite E, Eh. cbn [mapM]. unfold body_apply_forces.
  destruct (forget_keeps _ _ E0) as (_ & _ & _ & -> & _). destruct (forget_keeps _ _ E1) as (_ & _ & _ & -> & _). destruct (forget_keeps _ _ E2) as (_ & _ & _ & -> & _). rewrite Hf0, Hf1, Hf2. cbn. unfold pulls. rnum. repeat (apply f_equal2 || apply f_equal); ring || reflexivity.
Qed.
Lemma joint_entry j i1 i2 : In (j, i1, i2) (w_joints w0) -> (i1 = 0 /\ i2 = Some 1)%nat \/ (i1 = 2%nat /\ i2 = None).
Proof.
  intros Hin. destruct (world_init_joints _ _ _ _ _ _ _ _ _ _ _ _ (diff_handler_frame gf o) Hw) as [F _]. apply In_nth_error in Hin. destruct Hin as [k Hk]. destruct (Forall2_nth _ _ _ _ _ F Hk) as (j0 & Hj0 & (-> & (b1 & Hb1 & E1) & E2)).
  assert (Ix : forall i c id, nth_error bodies i = Some c -> b_id c = id -> i = id).
  { intros i c id Hc Ei. destruct i as [|[|[|i]]]; cbn in Hc; [| | |destruct i; discriminate Hc]; injection Hc as <-; rewrite <- Ei; symmetry; [exact (sl_id _ _ _ _ _ _ Hr)|exact (sl_id _ _ _ _ _ _ Hr2)|exact (sl_id _ _ _ _ _ _ Hp)]. }
  pose proof (Ix _ _ _ Hb1 E1) as Q1. destruct k as [|[|[|]]]; try discriminate Hj0; cbn [nth_error] in Hj0.
  - assert (Ej : fixed_init r r2 = j0) by (now injection Hj0). rewrite <- Ej in Q1, E2. left. change (j_b1 (fixed_init r r2)) with (b_id r) in Q1. change (j_b2 (fixed_init r r2)) with (Some (b_id r2)) in E2. rewrite (sl_id _ _ _ _ _ _ Hr) in Q1.
    destruct i2 as [i|]; [|destruct E2]. destruct E2 as (c & Hc & Ec). pose proof (Ix _ _ _ Hc Ec) as Q2. rewrite (sl_id _ _ _ _ _ _ Hr2) in Q2. subst. auto.
  - assert (Ej : total_init p = j0) by (now injection Hj0). rewrite <- Ej in Q1, E2. right. change (j_b1 (total_init p)) with (b_id p) in Q1. change (j_b2 (total_init p)) with (@None nat) in E2. rewrite (sl_id _ _ _ _ _ _ Hp) in Q1.
    split; [exact Q1|]. destruct i2; [destruct E2|reflexivity].
Qed.
Lemma joint_acc b i x : slab i (0, (x, 100)) 60 60 1 b -> (i < 2)%nat -> forall c t, forget c = forget b -> acceleration c (v3_at (pulls t) i) = (0, (0, 100)).
Proof.
  intros B Hi c t E. destruct (forget_keeps _ _ E) as (_ & _ & _ & _ & Q5 & Q6). unfold acceleration, pulls, v3_at, vget, v2scale. destruct i as [|[|i]]; [| |lia]; cbn; rewrite Q5, Q6, (sl_mass _ _ _ _ _ _ B), (sl_inertia _ _ _ _ _ _ B); rnum; prs; field.
Qed.
Lemma joint_jointed : jointed w0 fixed_plane pulls.
Proof.
  destruct joint_bodies as (r0 & r20 & p0 & E & E0 & E1 & E2). split.
  - intros j i1 i2 Hin. destruct (joint_entry _ _ _ Hin) as [[-> ->]|[-> ->]]; [right|left; split; [reflexivity|exact Logic.I]].
    exists 1%nat. split; [reflexivity|]. split; [reflexivity|]. split; [reflexivity|]. intros b c Hb Hc. rewrite E in Hb, Hc. cbn in Hb, Hc. injection Hb as <-. injection Hc as <-.
    destruct (forget_keeps _ _ E0) as (_ & V0 & _). destruct (forget_keeps _ _ E1) as (_ & V1 & _). rewrite V0, V1, (sl_v _ _ _ _ _ _ Hr), (sl_v _ _ _ _ _ _ Hr2). split; [reflexivity|]. split; [reflexivity|].
    intros t. rewrite (joint_acc r 0 120 Hr ltac:(lia) r0 t E0), (joint_acc r2 1 160 Hr2 ltac:(lia) r20 t E1). split; reflexivity.
  - intros i c Hc Hh. unfold fixed_plane in Hh. apply Nat.eqb_eq in Hh. subst i. rewrite E in Hc. cbn in Hc. injection Hc as <-. destruct (forget_keeps _ _ E2) as (_ & -> & _). exact (sl_v _ _ _ _ _ _ Hp).
Qed.
Lemma joint_balance t : in_balance w0 fixed_plane (pulls t).
Proof.
  destruct joint_bodies as (r0 & r20 & p0 & E & _). intros x Lx _ Hx. rewrite E in Lx. cbn in Lx. pose proof (Hx 0%nat eq_refl) as H0. pose proof (Hx 1%nat eq_refl) as H1.
  destruct x as [|x0 [|x1 [|x2 [|x3 [|x4 [|x5 [|x6 [|x7 [|x8 [|]]]]]]]]]]; try discriminate Lx. unfold v3_at, vget in H0, H1. cbn in H0, H1. injection H0 as -> -> ->. injection H1 as -> -> ->. unfold dot, pulls. cbn. rnum. ring.
Qed.
Lemma drop_coast x k : forall t y v, coast (1 / 30) t (fun _ => (0, (0, 100))) (0, (x, y)) (0, (0, v)) k = ((0, (x, y + INR k / 30 * v + INR k * (INR k + 1) / 18)), (0, (0, v + 10 / 3 * INR k))).
Proof.
  induction k as [|k IH]; intros t y v; cbn [coast].
  - cbn. prs; field.
  - unfold v3add, v3scale, v2add, v2scale. cbn [fst snd]. rnum. replace (0 + 1 / 30 * 0) with 0 by ring. replace (0 + 1 / 30 * 0) with 0 by ring. replace (x + 1 / 30 * 0) with x by ring. rewrite IH, S_INR. prs; field.
Qed.
Lemma joint_coasting k : coasting w0 fixed_plane pulls k = [dropped 120 k; dropped 160 k; (plane_pose2, (0, (0, 0)))].
Proof.
  destruct joint_bodies as (r0 & r20 & p0 & E & E0 & E1 & E2). destruct (beside_clock _ _ _ _ _ _ _ _ _ _ _ Hw) as (Ed & Et & _). unfold coasting. rewrite E. cbn [mapi combine seq length map fixed_plane Nat.eqb fst snd].
  unfold mapi. cbn [mapi_from fixed_plane Nat.eqb]. destruct (forget_keeps _ _ E0) as (P0 & V0 & _). destruct (forget_keeps _ _ E1) as (P1 & V1 & _). destruct (forget_keeps _ _ E2) as (P2 & _).
  rewrite P0, P1, P2, V0, V1, (sl_p _ _ _ _ _ _ Hr), (sl_p _ _ _ _ _ _ Hr2), (sl_p _ _ _ _ _ _ Hp), (sl_v _ _ _ _ _ _ Hr), (sl_v _ _ _ _ _ _ Hr2), Ed, Et. unfold STEP. rnum.
  rewrite (coast_ext (1 / 30) _ (fun _ => (0, (0, 100)))) by (intros t; exact (joint_acc r 0 120 Hr ltac:(lia) r0 t E0)).
  rewrite (coast_ext (1 / 30) (fun t => acceleration r20 _) (fun _ => (0, (0, 100)))) by (intros t; exact (joint_acc r2 1 160 Hr2 ltac:(lia) r20 t E1)).
  rewrite !drop_coast. unfold dropped. apply f_equal2; [prs; field|]. apply f_equal2; [prs; field|reflexivity].
Qed.
Lemma joint_away k : (k <= 75)%nat -> EngineSpec.clear_at o hd w0 (map fst (coasting w0 fixed_plane pulls k)).
Proof.
  intros Hk a Mv Eps Hpp Cu. rewrite joint_coasting in Hpp. cbn [map fst dropped] in Hpp. apply (joint_clear a (100 + INR k * (INR k + 1) / 18)); auto.
  - pose proof (beside_moved _ _ _ _ _ _ _ _ _ _ _ Hw) as M0. eapply Forall2_trans'; [apply moved_steps|exact M0|exact Mv].
  - destruct (beside_clock _ _ _ _ _ _ _ _ _ _ _ Hw) as (_ & _ & Q & _). rewrite Eps, Q. reflexivity.
  - apply le_INR in Hk. replace (INR 75) with 75 in Hk by (rewrite INR_IZR_INZ; reflexivity). pose proof (pos_INR k). nra.
Qed.
Theorem joint_run la mi k fuel lfuel run_time : lapack_ok la -> (0 < mi)%nat -> (k <= 75)%nat -> (forall m, (m < k)%nat -> INR m / 30 < run_time) -> run_time <= INR k / 30 -> (k < fuel)%nat ->
  exists w', run_world fuel (S lfuel) o hd (pdipm_engine la mi) run_time w0 = Ok w' /\ map (fun c => (b_p c, b_v c)) (w_bodies w') = [dropped 120 k; dropped 160 k; (plane_pose2, (0, (0, 0)))] /\ w_t w' = INR k / 30 /\ w_contacts w' = [].
Proof.
  intros HL Hmi Hk Hlt Hle Hfu. assert (ES : STEP = 1 / 30) by reflexivity.
  destruct (beside_run gf o bodies joints Ho joint_available joint_fit joint_ids joint_built hh STEP EPSILON TOL false true w0 fixed_plane pulls la mi Hw joint_loops joint_masses joint_forces joint_jointed HL Hmi k lfuel fuel run_time) as (w' & E & Q1 & Q2 & Q3).
  - intros m _. apply joint_balance.
  - intros m Hm. apply joint_away. lia.
  - intros m Hm. rewrite ES. specialize (Hlt m Hm). lra.
  - rewrite ES. lra.
  - exact Hfu.
  - exists w'. split; [exact E|]. split; [rewrite Q1; apply joint_coasting|]. split; [rewrite Q2, ES; lra|exact Q3].
Qed.
End Run.
End Joint.
(** *** fixed_joint_demo itself *)
Lemma joint_made gf o : exists r r2 p, fixed_joint_demo (T := R) PI o (diff_handler gf o) =
    world_init o (diff_handler gf o) [FGrav 100 (Some (0, (0, 100))); FGrav 100 (Some (0, (0, 100)))] [r; r2; p] [fixed_init r r2; total_init p] STEP EPSILON TOL 2 false true /\
  slab 0 (0, (120, 100)) 60 60 1 r /\ slab 1 (0, (160, 100)) 60 60 1 r2 /\ slab 2 plane_pose2 900 10 1 p /\ In (b_id r) (g_no_contact (b_geom r2)) /\ In (b_id r2) (g_no_contact (b_geom r)) /\
  b_forces r = [0%nat] /\ b_forces r2 = [1%nat] /\ b_forces p = [] /\ Forall (fun c => b_fric c = 3 / 20 /\ b_rest c = 1 / 2) [r; r2; p].
Proof.
  destruct (slab_ok 0 [120; 100] (0, (120, 100)) 60 60 1 (5 / 10) (15 / 100) EPSILON eq_refl (or_intror eq_refl) ltac:(lra) ltac:(lra)) as (r & Er & Hr & Fr & Cr & Rr).
  destruct (slab_ok 1 [160; 100] (0, (160, 100)) 60 60 1 (5 / 10) (15 / 100) EPSILON eq_refl (or_intror eq_refl) ltac:(lra) ltac:(lra)) as (b & Eb & Hb & Fb & Cb & Rb).
  destruct (slab_ok 2 [PI / 32; 500; 500] plane_pose2 900 10 1 (5 / 10) (15 / 100) EPSILON eq_refl (or_introl eq_refl) ltac:(lra) ltac:(lra)) as (p & Ep & Hp & Fp & Cp & Rp).
  exists (with_no_contact (with_forces r [0%nat]) (b_id b :: g_no_contact (b_geom r))), (with_forces (with_no_contact b (b_id r :: g_no_contact (b_geom b))) [1%nat]), p. split.
  - unfold fixed_joint_demo. rnum. unfold Rcst in *. rewrite Er. cbn [bind]. unfold add_force at 1. cbn [nth_error]. rewrite Fr. cbn [app bind fst snd]. rewrite Eb. cbn [bind].
    unfold add_no_contact. cbv zeta. unfold add_force.
    assert (Es : forall c : body R, b_mass c = 1 -> set_body (FGrav 100 None) (b_mass c) = FGrav 100 (Some (0, (0, 100)))).
    { intros c Hc. unfold set_body. rewrite Hc. unfold v3mulr, DOWN. cbn [fst snd]. rnum. apply (f_equal (fun z => FGrav 100 (Some z))). prs; ring. }
    change (b_forces (with_no_contact b (b_id (with_forces r [0%nat]) :: g_no_contact (b_geom b)))) with (b_forces b). rewrite Fb. cbn [upd nth_error]. change (b_mass (with_no_contact b (b_id (with_forces r [0%nat]) :: g_no_contact (b_geom b)))) with (b_mass b).
    rewrite (Es r (sl_mass _ _ _ _ _ _ Hr)), (Es b (sl_mass _ _ _ _ _ _ Hb)). cbn [bind fst snd app]. rewrite Ep. cbn [bind]. reflexivity.
  - split; [now apply slab_nc, slab_forces|]. split; [now apply slab_forces, slab_nc|]. split; [exact Hp|]. split; [now left|]. split; [now left|]. split; [reflexivity|]. split; [reflexivity|]. split; [exact Fp|].
    constructor; [|constructor; [|constructor; [|constructor]]]; cbn [b_fric b_rest with_forces with_no_contact]; rewrite ?Cr, ?Cb, ?Cp, ?Rr, ?Rb, ?Rp; split; lra.
Qed.
Theorem joint_falls gf o : broadphase_sane o -> (18 <= gf)%nat ->
  exists w0, fixed_joint_demo PI o (diff_handler gf o) = Ok w0 /\
    map (fun c => (b_p c, b_v c)) (w_bodies w0) = [dropped 120 0; dropped 160 0; (plane_pose2, (0, (0, 0)))] /\
    Forall2 made (w_bodies w0) [(60, 60); (60, 60); (900, 10)] /\ joined w0 = [(JFixed, 0%nat, Some 1%nat); (JTotal, 2%nat, None)] /\
    forall la mi k fuel lfuel run_time, lapack_ok la -> (0 < mi)%nat -> (k <= 75)%nat -> (forall m, (m < k)%nat -> INR m / 30 < run_time) -> run_time <= INR k / 30 -> (k < fuel)%nat ->
      exists w', run_world fuel (S lfuel) o (diff_handler gf o) (pdipm_engine la mi) run_time w0 = Ok w' /\
        map (fun c => (b_p c, b_v c)) (w_bodies w') = [dropped 120 k; dropped 160 k; (plane_pose2, (0, (0, 0)))] /\ w_t w' = INR k / 30 /\ w_contacts w' = [].
Proof.
  intros Ho Hg. destruct (joint_made gf o) as (r & b & p & E & Hr & Hb & Hp & N1 & N2 & Fr & Fb & Fp & Su).
  destruct (joint_starts gf o r b p Ho Hr Hb Hp N1 N2 Hg) as [w0 Hw]. exists w0. split; [rewrite E; exact Hw|].
  destruct (joint_bodies gf o r b p w0 Hw) as (r0 & b0 & p0 & Eb & E0 & E1 & E2). split; [|split; [|split]].
  - rewrite Eb. cbn [map]. destruct (forget_keeps _ _ E0) as (-> & -> & _). destruct (forget_keeps _ _ E1) as (-> & -> & _). destruct (forget_keeps _ _ E2) as (-> & -> & _).
    rewrite (sl_p _ _ _ _ _ _ Hr), (sl_v _ _ _ _ _ _ Hr), (sl_p _ _ _ _ _ _ Hb), (sl_v _ _ _ _ _ _ Hb), (sl_p _ _ _ _ _ _ Hp), (sl_v _ _ _ _ _ _ Hp). unfold dropped. cbn. apply f_equal2; [prs; field|]. apply f_equal2; [prs; field|reflexivity].
  - rewrite Eb. inversion Su as [|? ? [S1 S2] Su1]. inversion Su1 as [|? ? [S3 S4] Su2]. inversion Su2 as [|? ? [S5 S6] _]. subst. constructor; [|constructor; [|constructor; [|constructor]]]; eapply forget_made; eauto.
  - unfold joined. destruct (world_init_joints _ _ _ _ _ _ _ _ _ _ _ _ (diff_handler_frame gf o) Hw) as [F _]. inversion F as [|j0 [[j i1] i2] ? l E3 F2 X1 X2]. subst. inversion F2 as [|j1 [[j' i3] i4] ? l' E5 F3 X3 X4]. subst. inversion F3. subst.
    assert (At : forall i c, nth_error [r; b; p] i = Some c -> b_id c = i).
    { intros [|[|[|[|i]]]] c Hc; try discriminate Hc; cbn in Hc; injection Hc as <-; [exact (sl_id _ _ _ _ _ _ Hr)|exact (sl_id _ _ _ _ _ _ Hb)|exact (sl_id _ _ _ _ _ _ Hp)]. }
    destruct E3 as (-> & (c & Hc & Ec) & E4), E5 as (-> & (d & Hd & Ed) & E6). cbn in Ec, E4, Ed, E6. destruct i4 as [i4|]; [destruct E6|]. destruct i2 as [i2|]; [|destruct E4]. destruct E4 as (q & Hq & Eq).
    rewrite (At _ _ Hc), (sl_id _ _ _ _ _ _ Hr) in Ec. rewrite (At _ _ Hd), (sl_id _ _ _ _ _ _ Hp) in Ed. rewrite (At _ _ Hq), (sl_id _ _ _ _ _ _ Hb) in Eq. subst. reflexivity.
  - intros la mi k fuel lfuel run_time. exact (joint_run gf o r b p Ho Hr Hb Hp N1 N2 Hg Fr Fb Fp w0 Hw la mi k fuel lfuel run_time).
Qed.
