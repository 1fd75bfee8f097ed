(** chain_demo: the chain hangs still until the projectile arrives (proofs for C99) *)
From Coq Require Import List Arith ZArith Lia Bool Reals Lra.
From Verif Require Import Num Tensor Utils Bodies Forces Constraints Contacts World Lapack Pdipm Engines Game Infer Chain
     Spec GeoSpec BodySpec JointSpec FreshSpec ContactSpec LapackSpec EngineSpec GameSpec StaticsSpec InferSpec DemoSpec ChainSpec RBase ResFacts LinAlg BodyFacts RigidFacts GeomFacts BodyReach WorldFacts HandlerFacts
     LayoutFacts HistFacts SatFacts FreshFacts CollideFacts EngineFacts JointFacts JeFacts HeldFacts MomentumFacts FlightFacts EngineProps EngineMore SceneInit RunTotal FuelFacts CacheFacts GroupFacts EnergyRun
     SysFacts StaticsFacts StaticsProps CoastRun GameFacts GameProps GameStart GameFree InferFacts InferRun BesideRun DemoFacts ChainFacts.
Import ListNotations.
Open Scope R_scope.

(** *** the constraints repeat nothing *)
Lemma chain_loops m : loop_free (x_init (ideal 0) :: y_init (ideal 0) :: map hinge (seq 1 m)).
Proof.
  induction m as [|m IH].
  - apply (loop_free_add [x_init (ideal 0)] (y_init (ideal 0)) []).
    + apply (loop_free_add [] (x_init (ideal 0)) []); [constructor|]. left. exists 0%nat. split; [left; reflexivity|intros j []].
    + right. split; [right; left; reflexivity|]. intros j Hj _. cbn [app] in Hj. destruct Hj as [<-|[]]. split; [left; reflexivity|discriminate].
  - rewrite seq_S, map_app. change (x_init (ideal 0) :: y_init (ideal 0) :: map hinge (seq 1 m) ++ map hinge [(1 + m)%nat]) with ((x_init (ideal 0) :: y_init (ideal 0) :: map hinge (seq 1 m)) ++ hinge (S m) :: []).
    apply loop_free_add; rewrite app_nil_r; [exact IH|]. left. exists (S m). split; [left; apply joint_init_fields|].
    intros j [<-|[<-|Hj]] Ht.
    + destruct Ht as [Ht|Ht]; discriminate Ht.
    + destruct Ht as [Ht|Ht]; discriminate Ht.
    + apply in_map_iff in Hj. destruct Hj as (i & <- & Hi). apply in_seq in Hi. unfold hinge in Ht.
      destruct Ht as [Ht|Ht]; destruct (joint_init_fields (ideal i) (Some (ideal (i - 1))) (300, 25 + 50 * INR i)) as (_ & I1 & I2 & _); [rewrite I1 in Ht; cbn in Ht; lia|rewrite I2 in Ht; cbn in Ht; injection Ht as Ht; lia].
Qed.

Section Rig.
Variables (gf : nat) (o : oracle R) (bs : list (body R)).
Hypothesis Ho : broadphase_sane o.
Hypothesis Ch : rig bs.
Notation hd := (diff_handler gf o).
Let Hf := diff_handler_frame gf o.
Lemma rig_nth i : (i < 12)%nat -> exists b, nth_error bs i = Some b /\ item i b.
Proof. intros H. destruct (nth_error bs i) as [b|] eqn:E; [eauto using rg_item|]. apply nth_error_None in E. rewrite (rg_len _ Ch) in E. lia. Qed.
Lemma rig_ne : bs <> [].
Proof. intros E. pose proof (rg_len _ Ch) as L. rewrite E in L. discriminate. Qed.
Lemma rig_all (P : body R -> Prop) : (forall i b, item i b -> P b) -> Forall P bs.
Proof. intros H. apply Forall_forall. intros b Hb. destruct (In_nth_error _ _ Hb) as [i Hi]. exact (H i b (rg_item _ Ch _ _ Hi)). Qed.
Lemma rig_available : Forall available bs.
Proof. apply rig_all. intros i b D. exact (it_available _ _ D). Qed.
Lemma rig_masses : Forall (fun b : body R => 0 < b_mass b /\ 0 < b_inertia b) bs.
Proof. apply rig_all. intros i b D. rewrite (it_mass _ _ D), (it_inertia _ _ D). destruct (i <? 10)%nat; lra. Qed.
Lemma rig_ids : map b_id bs = seq 0 12.
Proof.
  apply nth_error_ext. intros i. rewrite nth_error_map. destruct (nth_error bs i) as [b|] eqn:E.
  - assert (L : (i < 12)%nat) by (rewrite <- (rg_len _ Ch); apply nth_error_Some; congruence). cbn [option_map]. rewrite (nth_error_nth' _ 0%nat) by (now rewrite seq_length). rewrite seq_nth by exact L. f_equal. exact (it_id _ _ (rg_item _ Ch _ _ E)).
  - apply nth_error_None in E. rewrite (rg_len _ Ch) in E. cbn [option_map]. symmetry. apply nth_error_None. now rewrite seq_length.
Qed.
Lemma rig_nodup : NoDup (map b_id bs).
Proof. rewrite rig_ids. apply seq_NoDup. Qed.
Lemma rig_fit : (18 <= gf)%nat -> Forall (fit gf) bs.
Proof.
  intros Hg. apply rig_all. intros i b B. pose proof (it_kind _ _ B) as K. destruct (i <? 10)%nat.
  - assert (Ic : is_circle b = false) by (unfold is_circle; now rewrite K). apply available_fit; [exact (it_available _ _ B)| | |].
    + unfold tidy. rewrite Ic. refine (proj1 (rect_tidy b (20, 60) (corners 20 60) 0 (RBavailable _ (it_available _ _ B)) K _ _)); cbn; lra.
    + unfold ContactSpec.in_range. rewrite Ic. intros v Hv. unfold b_verts in Hv. rewrite K in Hv. apply (corners_near 20 60); auto; lra.
    + unfold gjk_rounds, b_verts. rewrite K. cbn. lia.
  - apply available_fit; [exact (it_available _ _ B)| | |]; unfold tidy, ContactSpec.in_range, gjk_rounds, is_circle, b_rad, b_verts; rewrite K; cbn [length]; [lra|lra|lia].
Qed.
Lemma rig_p i b : (i < 10)%nat -> item i b -> b_p b = link_place i /\ b_v b = (0, (0, 0)).
Proof. intros Hi B. rewrite (it_p _ _ B), (it_v _ _ B). unfold begin. destruct (Nat.ltb_spec i 10) as [_|]; [auto|lia]. Qed.
Lemma rig_axis kd b : nth_error bs 0 = Some b -> axis_init kd b = axis_init kd (ideal 0).
Proof. intros Hb. pose proof (rg_item _ Ch _ _ Hb) as B. unfold axis_init, b_pos, b_rot. rewrite (proj1 (rig_p 0 b ltac:(lia) B)), (it_id _ _ B). reflexivity. Qed.
Lemma rig_hinge i b c : (1 <= i < 10)%nat -> nth_error bs i = Some b -> nth_error bs (i - 1) = Some c -> joint_init b (Some c) (300, 25 + 50 * INR i) = hinge i.
Proof.
  intros Hi Hb Hc. pose proof (rg_item _ Ch _ _ Hb) as B. pose proof (rg_item _ Ch _ _ Hc) as C. unfold hinge, joint_init, b_pos.
  rewrite (proj1 (rig_p i b ltac:(lia) B)), (it_id _ _ B), (proj1 (rig_p (i - 1) c ltac:(lia) C)), (it_id _ _ C). reflexivity.
Qed.
Lemma rig_built : Forall (built bs) chain_js.
Proof.
  destruct (rig_nth 0) as (b & Hb & _); [lia|]. constructor; [|constructor].
  - unfold x_init. rewrite <- (rig_axis JX b Hb). constructor. eapply nth_error_In; eauto.
  - unfold y_init. rewrite <- (rig_axis JY b Hb). constructor. eapply nth_error_In; eauto.
  - apply Forall_forall. intros j Hj. apply in_map_iff in Hj. destruct Hj as (i & <- & Hi). apply in_seq in Hi.
    destruct (rig_nth i) as (b1 & Hb1 & B1); [lia|]. destruct (rig_nth (i - 1)) as (c & Hc & C); [lia|]. rewrite <- (rig_hinge i b1 c) by (auto; lia).
    constructor; [eapply nth_error_In; eauto|eapply nth_error_In; eauto|]. rewrite (it_id _ _ B1), (it_id _ _ C). lia.
Qed.
Lemma rig_start hh dt tol ps st w i b : world_init o hd hh bs chain_js dt EPSILON tol 2 ps st = Ok w -> nth_error (w_bodies w) i = Some b ->
  exists c, item i c /\ forget b = forget c /\ nth_error bs i = Some c.
Proof.
  intros H Hb. pose proof (beside_moved _ _ _ _ _ _ _ _ _ _ _ H) as Mv. destruct (Forall2_nth _ _ _ _ _ Mv Hb) as (c & Hc & _). exists c. split; [exact (rg_item _ Ch _ _ Hc)|]. split; [|exact Hc].
  pose proof (init_forget _ _ _ _ _ _ _ _ _ _ _ _ Hf H) as E. apply (f_equal (fun l => nth_error l i)) in E. rewrite !nth_error_map, Hb, Hc in E. now injection E.
Qed.
Lemma rig_quiet hh dt tol st w : world_init o hd hh bs chain_js dt EPSILON tol 2 true st = Ok w -> w_contacts w = [].
Proof.
  intros H. assert (P : forall i b, nth_error (w_bodies w) i = Some b -> b_p b = fst (begin i)).
  { intros i b Hb. destruct (rig_start _ _ _ _ _ _ _ _ H Hb) as (c & C & E & _). rewrite (forget_eq_p _ _ E). exact (it_p _ _ C). }
  apply (rig_clear bs gf o w 50 500 Ch Ho (beside_moved _ _ _ _ _ _ _ _ _ _ _ H)).
  - destruct (world_init_inv _ _ _ _ _ _ _ _ _ _ _ _ H) as (_ & -> & _). reflexivity.
  - intros i b Hi Hb. rewrite (P i b Hb). unfold begin. destruct (Nat.ltb_spec i 10) as [_|]; [reflexivity|lia].
  - intros b Hb. unfold b_pos. rewrite (P _ b Hb). reflexivity.
  - intros b Hb. unfold b_pos. rewrite (P _ b Hb). reflexivity.
  - lra.
  - eapply init_current; [apply diff_handler_frame|exact H].
Qed.
Lemma rig_starts : (18 <= gf)%nat -> exists w, world_init o hd chain_heap bs chain_js STEP EPSILON TOL 2 true true = Ok w.
Proof.
  intros Hg. apply (scene_starts gf o bs chain_js); [exact Ho|exact rig_ne|exact rig_available|exact (rig_fit Hg)|exact rig_nodup|exact rig_built|]. intros w H. exact (rig_quiet _ _ _ _ _ H).
Qed.

(** *** the run *)
Section Run.
Variable w0 : world R.
Hypothesis Hw : world_init o hd chain_heap bs chain_js STEP EPSILON TOL 2 true true = Ok w0.
Lemma w1_len : length (w_bodies w0) = 12%nat.
Proof. rewrite <- (rg_len _ Ch). symmetry. eapply BodyReach.Forall2_len. exact (beside_moved _ _ _ _ _ _ _ _ _ _ _ Hw). Qed.
Lemma w1_lt i b : nth_error (w_bodies w0) i = Some b -> (i < 12)%nat.
Proof. intros H. rewrite <- w1_len. apply nth_error_Some. congruence. Qed.
Lemma w1_item i b : nth_error (w_bodies w0) i = Some b -> b_p b = fst (begin i) /\ b_v b = snd (begin i) /\ b_forces b = uses i /\ b_mass b = 1 /\ b_inertia b = (if (i <? 10)%nat then 1000 / 3 else 200).
Proof.
  intros Hb. destruct (rig_start _ _ _ _ _ _ _ _ Hw Hb) as (c & C & E & _). destruct (forget_keeps _ _ E) as (-> & -> & _ & -> & -> & ->).
  split; [exact (it_p _ _ C)|]. split; [exact (it_v _ _ C)|]. split; [exact (it_forces _ _ C)|]. split; [exact (it_mass _ _ C)|exact (it_inertia _ _ C)].
Qed.
Definition hung (i : nat) : bool := (i <? 10)%nat.
Definition bears (t : R) (i : nat) : v3 R := match i with O => (0, (0, 0)) | S k => if (k <? 9)%nat then (0, (0, 100)) else if (k =? 9)%nat then (0, (if Rlt_dec t (1 / 10) then 2000 else 0, 0)) else (0, (0, 0)) end.
Lemma loads_are t : chain_loads t = cat3 (map (bears t) (seq 0 12)).
Proof. reflexivity. Qed.
Lemma loads_at1 t i : (i < 12)%nat -> v3_at (chain_loads t) i = bears t i.
Proof. intros H. rewrite loads_are. rewrite GroupFacts.cat3_at by lia. reflexivity. Qed.
Lemma hor_push t : v3mulr (hor_impulse (T := R) t) 2000 = (0, (if Rlt_dec t (1 / 10) then 2000 else 0, 0)).
Proof.
  unfold hor_impulse. change (nltb t (ncst C_0_1)) with (Rltb t (1 / 10)). destruct (Rltb_spec t (1 / 10)) as [Q|Q]; destruct (Rlt_dec t (1 / 10)) as [Q'|Q']; try lra;
    unfold v3mulr, RIGHT, ZEROS; cbn [fst snd]; rnum; (apply f_equal2; [ring|apply f_equal2; ring]).
Qed.
Lemma zero_add (u : v3 R) : v3add v3zero u = u.
Proof. destruct u as [a [b c]]. unfold v3add, v3zero, v2add, v2zero. cbn [fst snd]. rnum. apply f_equal2; [|apply f_equal2]; ring. Qed.
Lemma w1_load t i b : nth_error (w_bodies w0) i = Some b -> body_apply_forces (w_heap w0) b t = Ok (bears t i).
Proof.
  intros Hb. pose proof (w1_lt i b Hb) as Hi. destruct (beside_clock _ _ _ _ _ _ _ _ _ _ _ Hw) as (_ & _ & _ & _ & ->). unfold body_apply_forces. destruct (w1_item i b Hb) as (_ & _ & -> & _). unfold uses, bears.
  destruct i as [|k]; [reflexivity|]. destruct (Nat.ltb_spec k 10) as [H10|H10].
  - destruct (Nat.ltb_spec k 9) as [H9|H9].
    + cbn [mapM]. unfold chain_heap. rewrite nth_error_app1 by (rewrite repeat_length; exact H9). rewrite (nth_error_repeat own) by exact H9. cbn [own force_value bind fold_left]. now rewrite zero_add.
    + assert (k = 9%nat) by lia. subst k. cbn [mapM chain_heap repeat app nth_error force_value bind fold_left Nat.eqb]. rewrite hor_push, zero_add. reflexivity.
  - assert (k = 10%nat) by lia. subst k. reflexivity.
Qed.
Lemma w1_forces t : world_apply_forces w0 t = Ok (chain_loads t).
Proof.
  rewrite loads_are. unfold world_apply_forces. assert (E : mapM (fun b => body_apply_forces (w_heap w0) b t) (w_bodies w0) = Ok (map (bears t) (seq 0 12))).
  { apply mapM_Forall2. apply nth_Forall2; [now rewrite map_length, seq_length, w1_len|]. intros i b Hb. exists (bears t i). split; [|now apply w1_load].
    pose proof (w1_lt i b Hb) as L. rewrite nth_error_map, (nth_error_nth' _ 0%nat) by (now rewrite seq_length). rewrite seq_nth by exact L. reflexivity. }
  rewrite E. reflexivity.
Qed.
Lemma entry_at i id b : nth_error bs i = Some b -> b_id b = id -> i = id.
Proof. intros Hb <-. symmetry. exact (it_id _ _ (rg_item _ Ch _ _ Hb)). Qed.
(** the constraints of the world, in order *)
Lemma w1_entries : w_joints w0 = (x_init (ideal 0), 0%nat, None) :: (y_init (ideal 0), 0%nat, None) :: map (fun i => (hinge i, i, Some (i - 1)%nat)) (seq 1 9).
Proof.
  destruct (world_init_joints _ _ _ _ _ _ _ _ _ _ _ _ Hf Hw) as [F _].
  assert (G : forall js es, Forall2 (entry_of bs) js es -> es = map (fun j => (j, j_b1 j, j_b2 j)) js).
  { intros js es H. induction H as [|j e js es H1 H2 IH]; [reflexivity|]. cbn [map]. f_equal; [|exact IH]. destruct e as [[j' i1] i2]. destruct H1 as (-> & (b1 & Hb1 & E1) & E2).
    rewrite (entry_at _ _ _ Hb1 E1). destruct i2 as [i2|], (j_b2 j) as [id|]; try tauto; try discriminate. destruct E2 as (b2 & Hb2 & E2). rewrite (entry_at _ _ _ Hb2 E2). reflexivity. }
  rewrite (G _ _ F). unfold chain_js. cbn [map]. do 2 (apply f_equal2; [reflexivity|]). rewrite map_map. apply map_ext_in. intros i _. unfold hinge.
  destruct (joint_init_fields (ideal i) (Some (ideal (i - 1))) (300, 25 + 50 * INR i)) as (_ & -> & -> & _). reflexivity.
Qed.
Lemma w1_joints j i1 i2 : In (j, i1, i2) (w_joints w0) -> i1 = 0%nat /\ i2 = None \/ (1 <= i1 < 10)%nat /\ i2 = Some (i1 - 1)%nat.
Proof.
  rewrite w1_entries. intros [E|[E|E]]; [injection E as _ <- <-; auto|injection E as _ <- <-; auto|]. apply in_map_iff in E. destruct E as (i & E & Hi). apply in_seq in Hi. injection E as _ <- <-. right. split; [lia|reflexivity].
Qed.
Lemma w1_y : In (y_init (ideal 0), 0%nat, None) (w_joints w0).
Proof. rewrite w1_entries. right. left. reflexivity. Qed.
Lemma w1_hinge i : (1 <= i < 10)%nat -> In (hinge i, i, Some (i - 1)%nat) (w_joints w0).
Proof. intros Hi. rewrite w1_entries. right. right. apply in_map_iff. exists i. split; [reflexivity|]. apply in_seq. lia. Qed.
Lemma rig_structure : jointed w0 hung chain_loads.
Proof.
  apply structure_jointed. split.
  - intros j i1 i2 Hin. unfold hung. destruct (w1_joints _ _ _ Hin) as [[-> ->]|[Hi ->]]; [split; [reflexivity|exact Logic.I]|]. split; apply Nat.ltb_lt; lia.
  - intros i b Hb Hr. unfold hung in Hr. destruct (w1_item i b Hb) as (_ & -> & _). unfold begin. rewrite Hr. reflexivity.
Qed.
(** motions the constraints allow have no vertical part *)
Lemma rig_level x : constraint_velocity w0 x = vzeros (w_num_constraints w0) -> forall i, (i < 10)%nat -> snd (snd (v3_at x i)) = 0.
Proof.
  intros Cx. assert (Z : forall e a, In e (w_joints w0) -> In a (entry_vel w0 x e) -> a = 0).
  { intros e a He Ha. assert (Hin : In a (constraint_velocity w0 x)) by (rewrite cv_entries; apply in_flat_map; eauto). rewrite Cx in Hin. unfold vzeros in Hin. now apply repeat_spec in Hin. }
  assert (B : forall i, (i < 10)%nat -> exists b, nth_error (w_bodies w0) i = Some b /\ b_pos b = (300, 50 + 50 * INR i)).
  { intros i Hi. destruct (nth_error (w_bodies w0) i) as [b|] eqn:E; [|apply nth_error_None in E; rewrite w1_len in E; lia]. exists b. split; [reflexivity|]. unfold b_pos. rewrite (proj1 (w1_item i b E)). unfold begin. destruct (Nat.ltb_spec i 10) as [_|]; [reflexivity|lia]. }
  induction i as [|i IH]; intros Hi.
  - destruct (B 0%nat Hi) as (b & Hb & Pb). pose proof (Z _ (snd (snd (v3_at x 0))) w1_y) as Q. cbn [entry_vel] in Q. rewrite Hb in Q. apply Q. left. reflexivity.
  - destruct (B (S i) Hi) as (b & Hb & Pb). destruct (B i ltac:(lia)) as (c & Hc & Pc). specialize (IH ltac:(lia)).
    pose proof (Z _ (snd (v2sub (point_velocity (v3_at x (S i)) (v2sub (300, 25 + 50 * INR (S i)) (b_pos b))) (point_velocity (v3_at x i) (v2sub (300, 25 + 50 * INR (S i)) (b_pos c))))) (w1_hinge (S i) ltac:(lia))) as Q.
    cbn [entry_vel] in Q. replace (S i - 1)%nat with i in Q by lia. rewrite Hb, Hc in Q. unfold hinge in Q. replace (S i - 1)%nat with i in Q by lia. destruct (joint_init_fields (ideal (S i)) (Some (ideal i)) (300, 25 + 50 * INR (S i))) as (K & _). rewrite K in Q. cbn [measured] in Q.
    assert (Pj : j_pos (joint_init (ideal (S i)) (Some (ideal i)) (300, 25 + 50 * INR (S i))) = (300, 25 + 50 * INR (S i))) by (unfold joint_init; destruct (cart_to_polar _); reflexivity). rewrite Pj in Q. specialize (Q (or_intror (or_introl eq_refl))).
    rewrite Pb, Pc in Q. unfold point_velocity, v2sub in Q. cbn [fst snd] in Q. rnum. lra.
Qed.
Lemma rig_balance t : in_balance w0 hung (chain_loads t).
Proof.
  intros x Lx Cx Hx. assert (Ll : length (chain_loads t) = (3 * length (w_bodies w0))%nat) by (rewrite loads_are, cat3_length, map_length, seq_length, w1_len; reflexivity).
  rewrite (dot_fields w0) by auto. assert (E : forall i b, nth_error (w_bodies w0) i = Some b -> d3 (v3_at x i) (v3_at (chain_loads t) i) = 0).
  { intros i b Hb. pose proof (w1_lt i b Hb) as H12. destruct (Nat.lt_ge_cases i 10) as [Hi|Hi].
    - rewrite loads_at1 by lia. pose proof (rig_level x Cx i Hi) as Q. unfold bears. destruct (v3_at x i) as [a [b1 c]]. cbn [snd] in Q. subst c. destruct i as [|k]; [unfold d3; cbn [fst snd]; ring|]. destruct (Nat.ltb_spec k 9) as [_|]; [|lia]. unfold d3; cbn [fst snd]; ring.
    - rewrite Hx by (unfold hung; now apply Nat.ltb_ge). unfold d3. cbn [fst snd]. ring. }
  rewrite (Rsum_mapi_ext _ (fun _ _ => 0)) by exact E. clear. generalize (w_bodies w0). unfold mapi. generalize 0%nat. intros k l. revert k. induction l as [|b l IH]; intros k; [reflexivity|]. cbn. specialize (IH (S k)). unfold Rsum in *. cbn. lra.
Qed.
Lemma push_flies k : StaticsSpec.coast (1 / 30) 0 (fun t => (0, (if Rlt_dec t (1 / 10) then 2000 else 0, 0))) (0, (50, 500)) (0, (0, 0)) k = shot_state k.
Proof.
  set (acc := fun t : R => (0, (if Rlt_dec t (1 / 10) then 2000 else 0, 0)) : v3 R).
  assert (A : forall t, t < 1 / 10 -> acc t = (0, (2000, 0))) by (intros t Ht; unfold acc; destruct (Rlt_dec t (1 / 10)); [reflexivity|lra]).
  assert (B : forall t, 1 / 10 <= t -> acc t = (0, (0, 0))) by (intros t Ht; unfold acc; destruct (Rlt_dec t (1 / 10)); [lra|reflexivity]).
  assert (E : forall a b c d e f a' b' c' d' e' f' : R, a = a' -> b = b' -> c = c' -> d = d' -> e = e' -> f = f' -> ((a, (b, c)), (d, (e, f))) = ((a', (b', c')), (d', (e', f')))) by (intros; subst; reflexivity).
  clearbody acc. unfold shot_state. destruct k as [|k]; [reflexivity|]. cbn [StaticsSpec.coast]. rewrite A by lra. destruct k as [|k]; [cbn [StaticsSpec.coast]; unfold v3add, v3scale, v2add, v2scale; cbn [fst snd]; rnum; apply E; lra|].
  cbn [StaticsSpec.coast]. rewrite A by lra. destruct k as [|k]; [cbn [StaticsSpec.coast]; unfold v3add, v3scale, v2add, v2scale; cbn [fst snd INR]; rnum; apply E; lra|].
  cbn [StaticsSpec.coast]. rewrite A by lra. rewrite coast_free; [|lra|intros s Hs; apply B; lra]. rewrite !S_INR. unfold v3add, v3scale, v2add, v2scale. cbn [fst snd]. rnum. apply E; lra.
Qed.
Lemma clock_ticks k : StaticsSpec.coast (1 / 30) 0 (fun _ => (0, (0, 0))) (0, (975, 575)) (1, (0, 0)) k = clock_state k.
Proof.
  rewrite coast_free; [|lra|reflexivity]. unfold clock_state, v3add, v3scale, v2add, v2scale. cbn [fst snd]. rnum. apply f_equal2; [|reflexivity]. apply f_equal2; [lra|apply f_equal2; lra].
Qed.
Lemma rig_coasting k : StaticsSpec.coasting w0 hung chain_loads k = chain_at k.
Proof.
  destruct (beside_clock _ _ _ _ _ _ _ _ _ _ _ Hw) as (Ed & Et & _). assert (ES : STEP = 1 / 30) by reflexivity. rewrite ES in Ed.
  assert (E12 : chain_at k = map (fun i => if (i <? 10)%nat then link_state i else if (i =? 10)%nat then shot_state k else clock_state k) (seq 0 12)) by reflexivity. rewrite E12.
  apply nth_error_ext. intros i. unfold StaticsSpec.coasting. rewrite mapi_nth, nth_error_map. destruct (nth_error (w_bodies w0) i) as [b|] eqn:Hb; cbn [option_map].
  - pose proof (w1_lt i b Hb) as L. rewrite (nth_error_nth' _ 0%nat) by (now rewrite seq_length). rewrite seq_nth by exact L. cbn [option_map Nat.add]. apply f_equal. unfold hung. destruct (w1_item i b Hb) as (P & V & _ & M & J). rewrite Ed, Et, P, V. unfold begin.
    destruct (Nat.ltb_spec i 10) as [Hi|Hi]; [reflexivity|]. assert (Q : (i = 10 \/ i = 11)%nat) by lia. destruct Q as [Q|Q]; subst i; cbn [Nat.eqb fst snd].
    + rewrite <- push_flies. apply coast_ext. intros t. rewrite loads_at1 by lia. unfold acceleration, bears. cbn [Nat.ltb Nat.leb Nat.eqb]. rewrite M, J. unfold v2scale. cbn [fst snd Nat.ltb Nat.leb]. rnum. apply f_equal2; [field|apply f_equal2; field].
    + rewrite <- clock_ticks. apply coast_ext. intros t. rewrite loads_at1 by lia. unfold acceleration, bears. cbn [Nat.ltb Nat.leb Nat.eqb]. rewrite M, J. unfold v2scale. cbn [fst snd Nat.ltb Nat.leb]. rnum. apply f_equal2; [field|apply f_equal2; field].
  - apply nth_error_None in Hb. rewrite w1_len in Hb. rewrite (proj2 (nth_error_None _ _)) by (now rewrite seq_length). reflexivity.
Qed.
Lemma rig_away k : (k <= 33)%nat -> EngineSpec.clear_at o hd w0 (map fst (StaticsSpec.coasting w0 hung chain_loads k)).
Proof.
  intros Hk a Mv Eps Hp Cu. rewrite rig_coasting in Hp.
  assert (Pn : forall i b, nth_error (w_bodies a) i = Some b -> nth_error (map fst (chain_at k)) i = Some (b_p b)) by (intros i b Hb; rewrite <- Hp, nth_error_map, Hb; reflexivity).
  apply (rig_clear bs gf o a (fst (snd (fst (shot_state k)))) 500 Ch Ho).
  - eapply Forall2_trans'; [apply moved_steps|exact (beside_moved _ _ _ _ _ _ _ _ _ _ _ Hw)|exact Mv].
  - destruct (beside_clock _ _ _ _ _ _ _ _ _ _ _ Hw) as (_ & _ & Q & _). rewrite Eps, Q. reflexivity.
  - intros i b Hi Hb. specialize (Pn i b Hb). unfold chain_at in Pn. rewrite map_app, nth_error_app1 in Pn by (rewrite !map_length, seq_length; exact Hi). rewrite map_map, nth_error_map, (nth_error_nth' _ 0%nat) in Pn by (now rewrite seq_length). rewrite seq_nth in Pn by exact Hi. cbn [option_map Nat.add] in Pn. injection Pn as Pn. rewrite <- Pn. reflexivity.
  - intros b Hb. specialize (Pn _ b Hb). cbn [chain_at map seq app nth_error fst] in Pn. unfold b_pos. assert (E : fst (shot_state k) = b_p b) by congruence. rewrite <- E. reflexivity.
  - intros b Hb. specialize (Pn _ b Hb). cbn [chain_at map seq app nth_error fst] in Pn. unfold b_pos. assert (E : fst (clock_state k) = b_p b) by congruence. rewrite <- E. reflexivity.
  - apply le_INR in Hk. replace (INR 33) with 33 in Hk by (rewrite INR_IZR_INZ; reflexivity). unfold shot_state. cbn [fst snd]. destruct k as [|[|k]]; lra.
  - exact Cu.
Qed.
Theorem rig_run la mi k fuel lfuel run_time : (18 <= gf)%nat -> lapack_ok la -> (0 < mi)%nat -> (k <= 33)%nat -> (forall m, (m < k)%nat -> INR m / 30 < run_time) -> run_time <= INR k / 30 -> (k < fuel)%nat ->
  exists w', run_world fuel (S lfuel) o hd (pdipm_engine la mi) run_time w0 = Ok w' /\ map (fun c => (b_p c, b_v c)) (w_bodies w') = chain_at k /\ w_t w' = INR k / 30 /\ w_contacts w' = [].
Proof.
  intros Hg HL Hmi Hk Hlt Hle Hfu. assert (ES : STEP = 1 / 30) by reflexivity.
  destruct (beside_run gf o bs chain_js Ho rig_available (rig_fit Hg) rig_nodup rig_built chain_heap STEP EPSILON TOL true true w0 hung chain_loads la mi Hw (chain_loops 9) rig_masses w1_forces rig_structure HL Hmi k lfuel fuel run_time) as (w' & E & Q1 & Q2 & Q3).
  - intros m _. apply rig_balance.
  - intros m Hm. apply rig_away. lia.
  - intros m Hm. rewrite ES. specialize (Hlt m Hm). lra.
  - rewrite ES. lra.
  - exact Hfu.
  - exists w'. split; [exact E|]. split; [rewrite Q1; apply rig_coasting|]. split; [rewrite Q2, ES; lra|exact Q3].
Qed.
End Run.
End Rig.

(** *** chain_demo itself *)
Theorem chain_hangs gf o : broadphase_sane o -> (18 <= gf)%nat ->
  exists w0, chain_demo o (diff_handler gf o) = Ok w0 /\
    map (fun c => (b_p c, b_v c)) (w_bodies w0) = chain_at 0 /\
    (forall i c, nth_error (w_bodies w0) i = Some c -> chain_shape i c /\ b_mass c = 1 /\ b_fric c = 9 / 10 /\ b_rest c = if (i <? 11)%nat then 9 / 10 else 1 / 2) /\
    places w0 = chain_places /\ skipn 2 (anchors w0) = chain_anchors /\ w_post_stab w0 = true /\
    (forall t, world_apply_forces w0 t = Ok (chain_loads t)) /\
    forall la mi k fuel lfuel run_time, lapack_ok la -> (0 < mi)%nat -> (k <= 33)%nat -> (forall m, (m < k)%nat -> INR m / 30 < run_time) -> run_time <= INR k / 30 -> (k < fuel)%nat ->
      exists w', run_world fuel (S lfuel) o (diff_handler gf o) (pdipm_engine la mi) run_time w0 = Ok w' /\
        map (fun c => (b_p c, b_v c)) (w_bodies w') = chain_at k /\ w_t w' = INR k / 30 /\ w_contacts w' = [].
Proof.
  intros Ho Hg. destruct (chain_demo_rig o (diff_handler gf o)) as (bs & Ch & E). destruct (rig_starts gf o bs Ho Ch Hg) as [w0 Hw]. exists w0. split; [rewrite E; exact Hw|].
  split; [|split; [|split; [|split; [|split; [|split]]]]].
  - rewrite <- (rig_coasting gf o bs Ch w0 Hw 0). symmetry. apply coasting_0. exact (proj2 (rig_structure gf o bs Ch w0 Hw)).
  - intros i c Hc. destruct (rig_start gf o bs Ch _ _ _ _ _ _ _ _ Hw Hc) as (b & B & Ef & _). destruct (forget_surface _ _ Ef) as [-> ->]. destruct (forget_keeps _ _ Ef) as (_ & _ & _ & _ & -> & _).
    split; [|split; [exact (it_mass _ _ B)|split; [exact (it_fric _ _ B)|exact (it_rest _ _ B)]]]. pose proof (it_kind _ _ B) as K. unfold chain_shape. destruct (i <? 10)%nat.
    + destruct c as [? kx ? ? ? ? ? ? ? ? ?], b as [? ky ? ? ? ? ? ? ? ? ?]. cbn in K. subst ky. destruct kx; cbn in Ef; try discriminate Ef. injection Ef. intros. subst. cbn. do 2 eexists. reflexivity.
    + destruct c as [? kx ? ? ? ? ? ? ? ? ?], b as [? ky ? ? ? ? ? ? ? ? ?]. cbn in K. subst ky. destruct kx; cbn in Ef; try discriminate Ef. injection Ef. intros. subst. reflexivity.
  - unfold places. rewrite (w1_entries gf o bs Ch w0 Hw). cbn [map]. unfold chain_places. do 2 (apply f_equal2; [reflexivity|]). rewrite map_map. apply map_ext. intros i. unfold hinge.
    destruct (joint_init_fields (ideal i) (Some (ideal (i - 1))) (300, 25 + 50 * INR i)) as (-> & _). reflexivity.
  - unfold anchors. rewrite (w1_entries gf o bs Ch w0 Hw). cbn [map skipn]. unfold chain_anchors. rewrite map_map. apply map_ext. intros i. unfold hinge, joint_init. destruct (cart_to_polar _). reflexivity.
  - destruct (world_init_inv _ _ _ _ _ _ _ _ _ _ _ _ Hw) as (_ & _ & _ & _ & H & _). exact H.
  - intros t. exact (w1_forces gf o bs Ch w0 Hw t).
  - intros la mi k fuel lfuel run_time. exact (rig_run gf o bs Ho Ch w0 Hw la mi k fuel lfuel run_time Hg).
Qed.
