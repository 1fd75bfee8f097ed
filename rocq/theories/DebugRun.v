(** debug_demo and fric_demo before anything touches (proofs for C100) *)
From Coq Require Import List Arith ZArith Lia Bool Reals Lra.
From Verif Require Import Num Tensor Utils Bodies Forces Constraints Contacts World Lapack Pdipm Engines Game Infer Scatter
     Spec GeoSpec BodySpec JointSpec FreshSpec ContactSpec LapackSpec EngineSpec GameSpec StaticsSpec InferSpec DemoSpec ChainSpec StrictSpec ScatterSpec RBase ResFacts LinAlg BodyFacts RigidFacts GeomFacts BodyReach WorldFacts HandlerFacts
     LayoutFacts HistFacts SatFacts FreshFacts CollideFacts EngineFacts JointFacts JeFacts HeldFacts MomentumFacts FlightFacts EngineProps EngineMore SceneInit RunTotal FuelFacts CacheFacts GroupFacts EnergyRun
     SysFacts StaticsFacts StaticsProps CoastRun GameFacts GameProps GameStart GameFree InferFacts InferRun BesideRun StrictFacts DemoFacts NewtonFacts ScatterFacts ScatterRun.
Import ListNotations.
Open Scope R_scope.

(** *** motions *)
Lemma state_eq (a b c d e f a' b' c' d' e' f' : R) : a = a' -> b = b' -> c = c' -> d = d' -> e = e' -> f = f' -> ((a, (b, c)), (d, (e, f))) = ((a', (b', c')), (d', (e', f'))).
Proof. intros. subst. reflexivity. Qed.
Lemma pushed_down x y k : StaticsSpec.coast (1 / 30) 0 (fun t => (0, (0, if Rlt_dec t (1 / 10) then 500 else 0))) (0, (x, y)) (0, (0, 0)) k = ((0, (x, y + way k)), (0, (0, pace k))).
Proof.
  set (acc := fun t : R => (0, (0, if Rlt_dec t (1 / 10) then 500 else 0)) : v3 R).
  assert (A : forall t, t < 1 / 10 -> acc t = (0, (0, 500))) by (intros t Ht; unfold acc; destruct (Rlt_dec t (1 / 10)); [reflexivity|lra]).
  assert (B : forall t, 1 / 10 <= t -> acc t = (0, (0, 0))) by (intros t Ht; unfold acc; destruct (Rlt_dec t (1 / 10)); [lra|reflexivity]).
  clearbody acc. unfold way, pace. destruct k as [|k]; [apply state_eq; lra|]. cbn [StaticsSpec.coast]. rewrite A by lra. destruct k as [|k]; [cbn [StaticsSpec.coast]; unfold v3add, v3scale, v2add, v2scale; cbn [fst snd]; rnum; apply state_eq; lra|].
  cbn [StaticsSpec.coast]. rewrite A by lra. destruct k as [|k]; [cbn [StaticsSpec.coast]; unfold v3add, v3scale, v2add, v2scale; cbn [fst snd INR]; rnum; apply state_eq; lra|].
  cbn [StaticsSpec.coast]. rewrite A by lra. rewrite coast_free; [|lra|intros s Hs; apply B; lra]. rewrite !S_INR. unfold v3add, v3scale, v2add, v2scale. cbn [fst snd]. rnum. apply state_eq; lra.
Qed.
Lemma falls s x y g k : StaticsSpec.coast (1 / 30) 0 (fun _ => (0, (0, g))) (0, (x, y)) (s, (0, 0)) k = ((s * INR k / 30, (x, y + g / 100 * drop k)), (s, (0, g / 100 * drop_pace k))).
Proof. rewrite coast_constant. unfold drop, drop_pace, v3add, v3scale, v2add, v2scale. cbn [fst snd]. rnum. apply state_eq; field. Qed.
Lemma coast_until a acc T : (forall t, t < T -> acc t = a) -> forall k t p v, t + INR k / 30 <= T -> StaticsSpec.coast (1 / 30) t acc p v k = StaticsSpec.coast (1 / 30) t (fun _ => a) p v k.
Proof.
  intros H. induction k as [|k IH]; intros t p v Hk; [reflexivity|]. cbn [StaticsSpec.coast]. rewrite S_INR in Hk. pose proof (pos_INR k). rewrite H by lra. apply IH. rnum. lra.
Qed.
Lemma down_push t m : v3mulr (vert_impulse (T := R) t) m = (0, (0, if Rlt_dec t (1 / 10) then m else 0)).
Proof.
  unfold vert_impulse. change (nltb t (ncst C_0_1)) with (Rltb t (1 / 10)). destruct (Rltb_spec t (1 / 10)) as [Q|Q]; destruct (Rlt_dec t (1 / 10)) as [Q'|Q']; try lra;
    unfold v3mulr, DOWN, ZEROS; cbn [fst snd]; rnum; (apply f_equal2; [ring|apply f_equal2; ring]).
Qed.
Lemma right_push t m : v3mulr (timed_force (T := R) t) m = (0, (if Rlt_dec 1 t then if Rlt_dec t 2 then m else 0 else 0, 0)).
Proof.
  unfold timed_force. rnum. destruct (Rltb_spec 1 t) as [Q|Q], (Rlt_dec 1 t) as [Q'|Q'], (Rltb_spec t 2) as [P|P], (Rlt_dec t 2) as [P'|P']; try lra;
    cbn [andb]; unfold v3mulr, RIGHT, ZEROS; cbn [fst snd]; rnum; (apply f_equal2; [ring|apply f_equal2; ring]).
Qed.
Lemma plus_none (u : v3 R) : v3add v3zero u = u.
Proof. destruct u as [a [b c]]. unfold v3add, v3zero, v2add, v2zero. cbn [fst snd]. rnum. apply f_equal2; [|apply f_equal2]; ring. Qed.
Lemma table_nth {A} (l : list A) n d : length l = n -> map (fun i => nth i l d) (seq 0 n) = l.
Proof. intros <-. symmetry. apply map_nth_seq || (apply nth_error_ext; intros i; rewrite nth_error_map; destruct (Nat.lt_ge_cases i (length l)) as [H|H]; [rewrite (nth_error_nth' (seq 0 (length l)) 0%nat), seq_nth by (rewrite ?seq_length; exact H); cbn; now apply nth_error_nth'|rewrite !(proj2 (nth_error_None _ _)) by (rewrite ?seq_length; exact H); reflexivity]). Qed.
Definition idle : v3 R * v3 R := ((0, (0, 0)), (0, (0, 0))).

(** *** what the world of such a scene is made of *)
Definition th_shape (th : thing) : body R -> Prop := match th_form th with Ball r => disc_of r | Plate w h => rect_of w h end.
Lemma scene_made gf o tab bs js hh w0 : scene tab bs -> world_init o (diff_handler gf o) hh bs js STEP EPSILON TOL 2 true true = Ok w0 ->
  map matter (w_bodies w0) = map (fun th => (1, th_rest th, th_fric th)) tab /\ Forall2 (fun s c => s c) (map th_shape tab) (w_bodies w0) /\ w_post_stab w0 = true.
Proof.
  intros Sc Hw. pose proof (s0_len gf o tab bs js hh Sc w0 Hw) as L. split; [|split].
  - apply nth_error_ext. intros i. rewrite !nth_error_map. destruct (nth_error (w_bodies w0) i) as [b|] eqn:E.
    + destruct (s0_thing gf o tab bs js hh Sc w0 Hw i b E) as (th & -> & _ & _ & _ & M & _ & Q1 & Q2 & _). cbn [option_map]. unfold matter. now rewrite M, Q1, Q2.
    + apply nth_error_None in E. rewrite L in E. now rewrite (proj2 (nth_error_None _ _) E).
  - apply nth_Forall2; [now rewrite map_length|]. intros i s Hs. rewrite nth_error_map in Hs. destruct (nth_error tab i) as [th|] eqn:E; [|discriminate]. cbn in Hs. injection Hs as <-.
    destruct (nth_error (w_bodies w0) i) as [b|] eqn:Eb; [|apply nth_error_None in Eb; rewrite L in Eb; apply nth_error_None in Eb; congruence]. exists b. split; [reflexivity|].
    destruct (s0_thing gf o tab bs js hh Sc w0 Hw i b Eb) as (th' & Et & _ & _ & _ & _ & _ & _ & _ & Q). rewrite E in Et. injection Et as <-. unfold th_shape. destruct (th_form th); exact Q.
  - destruct (world_init_inv _ _ _ _ _ _ _ _ _ _ _ _ Hw) as (_ & _ & _ & _ & H & _). exact H.
Qed.

(** *** debug_demo *)
Definition plain (x y : R) (fs : list nat) : thing := Thing (Ball 20) (0, (x, y)) (0, (0, 0)) (1 / 2) (9 / 10) fs.
Definition ticker : thing := Thing (Ball 20) (0, (975, 575)) (1, (0, 0)) (1 / 2) (9 / 10) [].
Definition debug_tab : list thing :=
  [plain 150 150 [0%nat]; plain 150 230 []; plain 300 150 [1%nat]; plain 301 230 []; plain 225 300 [2%nat]; plain 215 380 []; plain 375 300 [3%nat]; plain 375 380 [];
   Thing (Plate 40 40) (0, (300, 500)) (-1, (0, 0)) (1 / 2) (9 / 10) [4%nat]; ticker].
Definition debug_ext : list (R * R) := [(20, 20); (20, 20); (20, 20); (20, 20); (20, 20); (20, 20); (20, 20); (20, 20); (40, 40); (20, 20)].
Definition debug_heap : fheap R := [FExt vert_impulse 500; FGrav 100 (Some (0, (0, 100))); FGrav 100 (Some (0, (0, 100))); FExt vert_impulse 500; FGrav (- (100)) (Some (0, (0, -100)))].
Definition debug_bear (t : R) (i : nat) : v3 R :=
  let push := if Rlt_dec t (1 / 10) then 500 else 0 in
  nth i [(0, (0, push)); (0, (0, 0)); (0, (0, 100)); (0, (0, 0)); (0, (0, 100)); (0, (0, 0)); (0, (0, push)); (0, (0, 0)); (0, (0, -100)); (0, (0, 0))] (0, (0, 0)).
Definition debug_rest (i : nat) : bool := (i =? 1)%nat || (i =? 3)%nat.
Lemma weight m g : m = 1 -> set_body (FGrav (T := R) g None) m = FGrav g (Some (0, (0, g))).
Proof. intros ->. unfold set_body, v3mulr, DOWN. cbn [fst snd]. rnum. f_equal. f_equal. apply f_equal2; [ring|apply f_equal2; ring]. Qed.
Lemma debug_builds o hd : exists bs c1 c3, scene debug_tab bs /\ nth_error bs 1 = Some c1 /\ nth_error bs 3 = Some c3 /\
  debug_demo (T := R) o hd = world_init o hd debug_heap bs [joint_init c1 None (140, 220); total_init c3] STEP EPSILON TOL 2 true true.
Proof.
  unfold debug_demo, ball_20, clock_ball. rnum. generalize (world_init (T := R) o hd). intros W. assert (G20 : 0 < 20 <= 10 ^ 8) by lra. assert (G40 : 0 < 40 <= 10 ^ 8) by lra.
  destruct (ball_made 0 150 150 20 0 0 0 RESTITUTION FRIC_COEFF EPSILON G20) as (c0 & E0 & F0 & M0 & Q0). rewrite E0. cbn [bind]. unfold add_force at 1. cbn [nth_error bind upd fst snd]. rewrite F0. cbn [app].
  destruct (ball_made 1 150 230 20 0 0 0 RESTITUTION FRIC_COEFF EPSILON G20) as (c1 & E1 & F1 & M1 & Q1). rewrite E1. cbn [bind].
  destruct (ball_made 2 300 150 20 0 0 0 RESTITUTION FRIC_COEFF EPSILON G20) as (c2 & E2 & F2 & M2 & Q2). rewrite E2. cbn [bind]. unfold add_force at 1. cbn [nth_error bind upd fst snd]. rewrite F2. cbn [app].
  destruct (ball_made 3 301 230 20 0 0 0 RESTITUTION FRIC_COEFF EPSILON G20) as (c3 & E3 & F3 & M3 & Q3). rewrite E3. cbn [bind].
  destruct (ball_made 4 225 300 20 0 0 0 RESTITUTION FRIC_COEFF EPSILON G20) as (c4 & E4 & F4 & M4 & Q4). rewrite E4. cbn [bind]. unfold add_force at 1. cbn [nth_error bind upd fst snd]. rewrite F4. cbn [app].
  destruct (ball_made 5 215 380 20 0 0 0 RESTITUTION FRIC_COEFF EPSILON G20) as (c5 & E5 & F5 & M5 & Q5). rewrite E5. cbn [bind].
  destruct (ball_made 6 375 300 20 0 0 0 RESTITUTION FRIC_COEFF EPSILON G20) as (c6 & E6 & F6 & M6 & Q6). rewrite E6. cbn [bind]. unfold add_force at 1. cbn [nth_error bind upd fst snd]. rewrite F6. cbn [app].
  destruct (ball_made 7 375 380 20 0 0 0 RESTITUTION FRIC_COEFF EPSILON G20) as (c7 & E7 & F7 & M7 & Q7). rewrite E7. cbn [bind].
  destruct (plate_made 8 300 500 40 40 (-1) 0 0 RESTITUTION FRIC_COEFF EPSILON G40 G40) as (r & E8 & F8 & M8 & Q8). replace (- (1)) with (-1) by lra. rewrite E8. cbn [bind]. unfold add_force at 1. cbn [nth_error bind upd fst snd]. rewrite F8. cbn [app].
  destruct (ball_made 9 975 575 20 1 0 0 RESTITUTION FRIC_COEFF EPSILON G20) as (c9 & E9 & F9 & M9 & Q9). rewrite E9. cbn [bind].
  exists [with_forces c0 [0%nat]; c1; with_forces c2 [1%nat]; c3; with_forces c4 [2%nat]; c5; with_forces c6 [3%nat]; c7; with_forces r [4%nat]; c9], c1, c3.
  split; [|split; [reflexivity|split; [reflexivity|]]].
  - specialize (Q1 []). specialize (Q3 []). specialize (Q5 []). specialize (Q7 []). specialize (Q9 []). rewrite no_forces in Q1, Q3, Q5, Q7, Q9 by assumption.
    constructor; [reflexivity|]. intros i b H. do 10 (destruct i as [|i]; [cbn [nth_error] in H; injection H as <-; eexists; split; [reflexivity|]; first [exact Q1|exact Q3|exact Q5|exact Q7|exact Q9|exact (Q0 _)|exact (Q2 _)|exact (Q4 _)|exact (Q6 _)|exact (Q8 _)]|]). destruct i; discriminate H.
  - unfold debug_heap. rewrite !weight by assumption. cbn [set_body]. do 3 f_equal.
Qed.

Lemma debug_clear k : (k <= 24)%nat -> boxed debug_tab (map fst (debug_at k)) debug_ext.
Proof.
  intros Hk. assert (Hd : 0 <= drop k <= 34). { apply le_INR in Hk. replace (INR 24) with 24 in Hk by (rewrite INR_IZR_INZ; reflexivity). pose proof (pos_INR k). unfold drop. nra. }
  assert (Hw : 0 <= way k <= 39). { apply le_INR in Hk. replace (INR 24) with 24 in Hk by (rewrite INR_IZR_INZ; reflexivity). unfold way. destruct k as [|[|k]]; [lra|lra|]. rewrite !S_INR in *. pose proof (pos_INR k). lra. }
  unfold debug_at, debug_tab, debug_ext, at_rest, turning. generalize dependent (drop k). generalize dependent (way k). generalize (pace k) (drop_pace k). intros pc dp u Hu f Hf. split.
  - intros i th p e H1 H2 H3. do 10 (destruct i as [|i]; [cbn [nth_error map] in H1, H2, H3; injection H1 as <-; injection H2 as <-; injection H3 as <-; cbn [plain ticker th_form reaches fst snd]; first [lra|right; lra]|]). destruct i; discriminate H1.
  - intros i j th1 th2 p1 p2 e1 e2 Hij H1 H2 H3 H4 H5 H6.
    do 10 (destruct i as [|i]; [cbn [nth_error map] in H1, H3, H5; injection H1 as <-; injection H3 as <-; injection H5 as <-;
      do 10 (destruct j as [|j]; [try lia; cbn [nth_error map] in H2, H4, H6; injection H2 as <-; injection H4 as <-; injection H6 as <-; cbn [plain ticker th_form fst snd];
        (split; [eexists; first [left; reflexivity|right; reflexivity]|]; unfold spaced; cbn [fst snd]; first [left; lra|right; left; lra|right; right; left; lra|right; right; right; lra])|]); destruct j; discriminate H2|]).
    destruct i; discriminate H1.
Qed.
Theorem debug_flies gf o : broadphase_sane o -> (18 <= gf)%nat ->
  exists w0, debug_demo o (diff_handler gf o) = Ok w0 /\
    map (fun c => (b_p c, b_v c)) (w_bodies w0) = debug_at 0 /\ map matter (w_bodies w0) = repeat (1, 1 / 2, 9 / 10) 10 /\ Forall2 (fun s c => s c) debug_shapes (w_bodies w0) /\
    places w0 = [(JJoint, 1%nat, None); (JTotal, 3%nat, None)] /\ anchors w0 = [(140, 220); (301, 230)] /\ w_post_stab w0 = true /\
    (forall t, world_apply_forces w0 t = Ok (debug_loads t)) /\
    forall la mi k fuel lfuel run_time, lapack_ok la -> (0 < mi)%nat -> (k <= 24)%nat -> (forall m, (m < k)%nat -> INR m / 30 < run_time) -> run_time <= INR k / 30 -> (k < fuel)%nat ->
      exists w', run_world fuel (S lfuel) o (diff_handler gf o) (pdipm_engine la mi) run_time w0 = Ok w' /\
        map (fun c => (b_p c, b_v c)) (w_bodies w') = debug_at k /\ w_t w' = INR k / 30 /\ w_contacts w' = [].
Proof.
  intros Ho Hg. destruct (debug_builds o (diff_handler gf o)) as (bs & c1 & c3 & Sc & H1 & H3 & E).
  set (js := [joint_init c1 None (140, 220); total_init c3]) in *.
  assert (I1 : b_id c1 = 1%nat) by (destruct (sc_match _ _ Sc _ _ H1) as (th & _ & B); exact (mt_id _ _ _ B)). assert (I3 : b_id c3 = 3%nat) by (destruct (sc_match _ _ Sc _ _ H3) as (th & _ & B); exact (mt_id _ _ _ B)).
  assert (P3 : b_pos c3 = (301, 230)) by (destruct (sc_match _ _ Sc _ _ H3) as (th & Ht & B); cbn in Ht; injection Ht as <-; unfold b_pos; rewrite (mt_p _ _ _ B); reflexivity).
  destruct (joint_init_fields c1 None (140, 220)) as (Kj & J1 & J2 & _). cbn [option_map] in J2.
  assert (Hb : Forall (built bs) js) by (repeat constructor; eapply nth_error_In; eauto).
  assert (Hl : loop_free js).
  { apply (loop_free_add [joint_init c1 None (140, 220)] (total_init c3) []).
    - apply (loop_free_add [] (joint_init c1 None (140, 220)) []); [constructor|]. left. exists 1%nat. split; [left; congruence|intros j []].
    - left. exists 3%nat. split; [left; exact I3|]. intros j [<-|[]] Ht. destruct Ht as [Ht|Ht]; [rewrite J1, I1 in Ht; discriminate|rewrite J2 in Ht; discriminate]. }
  assert (Hjr : forall j, In j js -> debug_rest (j_b1 j) = true /\ j_b2 j = None).
  { intros j [<-|[<-|[]]]; [rewrite J1, J2, I1; split; reflexivity|]. change (debug_rest (b_id c3) = true /\ @None nat = None). rewrite I3. split; reflexivity. }
  assert (Hload : forall t i th (b : body R), nth_error debug_tab i = Some th -> b_forces b = th_forces th -> body_apply_forces debug_heap b t = Ok (debug_bear t i)).
  { intros t i th b Ht Fb. unfold body_apply_forces. rewrite Fb. do 10 (destruct i as [|i]; [cbn [nth_error debug_tab] in Ht; injection Ht as <-; cbn [plain ticker th_forces mapM debug_heap nth_error force_value bind fold_left debug_bear nth]; rewrite ?down_push, ?plus_none; reflexivity|]). destruct i; discriminate Ht. }
  assert (Hrest : forall i th, nth_error debug_tab i = Some th -> debug_rest i = true -> th_v th = (0, (0, 0)) /\ (forall t, debug_bear t i = (0, (0, 0)))).
  { intros i th Ht Hr. do 10 (destruct i as [|i]; [first [discriminate Hr|cbn [nth_error debug_tab] in Ht; injection Ht as <-; split; [reflexivity|intros t; reflexivity]]|]). destruct i; discriminate Ht. }
  set (state := fun k i => nth i (debug_at k) idle).
  assert (Hst : forall k i th, (k <= 24)%nat -> nth_error debug_tab i = Some th -> state k i = if debug_rest i then (th_p th, (0, (0, 0))) else StaticsSpec.coast (1 / 30) 0 (fun t => gains th (debug_bear t i)) (th_p th) (th_v th) k).
  { intros k i th _ Ht. unfold state, debug_at.
    do 10 (destruct i as [|i]; [cbn [nth_error debug_tab] in Ht; injection Ht as <-; cbn [nth debug_rest Nat.eqb orb plain ticker th_p th_v th_form]; try reflexivity;
      unfold gains; cbn [debug_bear nth plain ticker th_form form_inertia fst snd];
      first [rewrite <- pushed_down; apply coast_ext; intros t; apply f_equal2; [lra|reflexivity]
            |match goal with |- _ = StaticsSpec.coast _ _ (fun _ => (_, (_, ?g))) (_, (?x, ?y)) (?s, _) _ =>
               transitivity (StaticsSpec.coast (1 / 30) 0 (fun _ => (0, (0, g))) (0, (x, y)) (s, (0, 0)) k); [rewrite falls; unfold at_rest, turning; apply state_eq; field|apply coast_ext; intros t; apply f_equal2; [lra|reflexivity]] end]|]).
    destruct i; discriminate Ht. }
  assert (Hbox : forall k, (k <= 24)%nat -> boxed debug_tab (map fst (shown debug_tab state k)) debug_ext) by (intros k Hk; unfold shown, state; rewrite table_nth by reflexivity; now apply debug_clear).
  destruct (sc_starts gf o debug_tab bs js debug_heap debug_rest debug_bear state debug_ext 24 Hg Ho ltac:(discriminate) Sc Hb Hload Hrest Hst eq_refl Hbox) as [w0 Hw0].
  destruct (scene_made gf o _ _ _ _ _ Sc Hw0) as (Q1 & Q2 & Q3). pose proof (s0_entries gf o debug_tab bs js debug_heap debug_rest Sc Hjr w0 Hw0) as Ej.
  exists w0. split; [rewrite E; exact Hw0|]. split; [rewrite (s0_shown gf o debug_tab bs js debug_heap debug_rest debug_bear state debug_ext 24 Hg Sc Hjr Hrest Hst eq_refl w0 Hw0); unfold shown, state; now rewrite table_nth by reflexivity|].
  split; [exact Q1|]. split; [exact Q2|].
  split; [unfold places; rewrite Ej; unfold js; cbn [map]; rewrite Kj, J1, I1; change (j_b1 (total_init c3)) with (b_id c3); rewrite I3; reflexivity|].
  split; [unfold anchors; rewrite Ej; unfold js; cbn [map]; change (j_pos (total_init c3)) with (b_pos c3); rewrite P3; reflexivity|].
  split; [exact Q3|]. split; [exact (s0_forces gf o debug_tab bs js debug_heap debug_bear Sc Hload w0 Hw0)|].
  intros la mi k fuel lfuel run_time H1' H2' H3' H4' H5' H6'.
  destruct (scene_run gf o debug_tab bs js debug_heap debug_rest debug_bear state debug_ext 24 Hg Ho Sc Hb Hl Hjr Hload Hrest Hst eq_refl Hbox w0 Hw0 la mi k fuel lfuel run_time H1' H2' H3' H4' H5' H6') as (w' & R1 & R2 & R3).
  exists w'. split; [exact R1|]. split; [|exact R3]. rewrite R2. unfold shown, state. now rewrite table_nth by reflexivity.
Qed.

(** *** fric_demo *)
Definition fric_tab : list thing :=
  [Thing (Plate 900 10) (0, (400, 400)) (0, (0, 0)) (1 / 10) 1 [0%nat; 1%nat]; Thing (Ball 30) (0, (200, 364)) (0, (0, 0)) (1 / 10) 1 [2%nat];
   Thing (Ball 30) (0, (50, 436)) (0, (0, 0)) (1 / 10) 1 []; Thing (Ball 30) (0, (800, 436)) (0, (0, 0)) (1 / 10) 1 []; ticker].
Definition fric_ext : list (R * R) := [(450, 5); (30, 30); (30, 30); (30, 30); (20, 20)].
Definition fric_heap : fheap R := [FExt timed_force 100; FGrav 100 (Some (0, (0, 100))); FGrav 100 (Some (0, (0, 100)))].
Definition fric_bear (t : R) (i : nat) : v3 R :=
  let push := if Rlt_dec 1 t then if Rlt_dec t 2 then 100 else 0 else 0 in
  nth i [(0, (push, 100)); (0, (0, 100)); (0, (0, 0)); (0, (0, 0)); (0, (0, 0))] (0, (0, 0)).
Definition fric_rest (i : nat) : bool := (i =? 2)%nat || (i =? 3)%nat.
Lemma fric_builds o hd : exists bs c2 c3, scene fric_tab bs /\ nth_error bs 2 = Some c2 /\ nth_error bs 3 = Some c3 /\
  fric_demo (T := R) o hd = world_init o hd fric_heap bs [x_init c2; y_init c2; x_init c3; y_init c3] STEP EPSILON TOL 2 true true.
Proof.
  unfold fric_demo, clock_ball. rnum. generalize (world_init (T := R) o hd). intros W. assert (G20 : 0 < 20 <= 10 ^ 8) by lra. assert (G30 : 0 < 30 <= 10 ^ 8) by lra. assert (G9 : 0 < 900 <= 10 ^ 8) by lra. assert (G10 : 0 < 10 <= 10 ^ 8) by lra.
  destruct (plate_made 0 400 400 900 10 0 0 0 (1 / 10) 1 EPSILON G9 G10) as (r & E0 & F0 & M0 & Q0). rewrite E0. cbn [bind]. unfold add_force at 1. cbn [nth_error bind upd fst snd]. rewrite F0. cbn [app]. unfold add_force at 1. cbn [nth_error bind upd fst snd with_forces b_forces app].
  destruct (ball_made 1 200 364 30 0 0 0 (1 / 10) 1 EPSILON G30) as (c1 & E1 & F1 & M1 & Q1). rewrite E1. cbn [bind]. unfold add_force at 1. cbn [nth_error bind upd fst snd]. rewrite F1. cbn [app].
  destruct (ball_made 2 50 436 30 0 0 0 (1 / 10) 1 EPSILON G30) as (c2 & E2 & F2 & M2 & Q2). rewrite E2. cbn [bind].
  destruct (ball_made 3 800 436 30 0 0 0 (1 / 10) 1 EPSILON G30) as (c3 & E3 & F3 & M3 & Q3). rewrite E3. cbn [bind].
  destruct (ball_made 4 975 575 20 1 0 0 RESTITUTION FRIC_COEFF EPSILON G20) as (c4 & E4 & F4 & M4 & Q4). rewrite E4. cbn [bind].
  exists [with_forces r [0%nat; 1%nat]; with_forces c1 [2%nat]; c2; c3; c4], c2, c3.
  split; [|split; [reflexivity|split; [reflexivity|]]].
  - specialize (Q2 []). specialize (Q3 []). specialize (Q4 []). rewrite no_forces in Q2, Q3, Q4 by assumption.
    constructor; [reflexivity|]. intros i b H. do 5 (destruct i as [|i]; [cbn [nth_error] in H; injection H as <-; eexists; split; [reflexivity|]; first [exact Q2|exact Q3|exact Q4|exact (Q0 _)|exact (Q1 _)]|]). destruct i; discriminate H.
  - unfold fric_heap. change (b_mass (with_forces r [0%nat])) with (b_mass r). rewrite !weight by assumption. cbn [set_body]. reflexivity.
Qed.
Lemma fric_clear k : (k <= 3)%nat -> boxed fric_tab (map fst (fric_at k)) fric_ext.
Proof.
  intros Hk. assert (Hd : 0 <= drop k <= 2 / 3). { apply le_INR in Hk. replace (INR 3) with 3 in Hk by (rewrite INR_IZR_INZ; reflexivity). pose proof (pos_INR k). unfold drop. nra. }
  unfold fric_at, fric_tab, fric_ext, at_rest, turning. generalize dependent (drop k). generalize (drop_pace k). intros dp f Hf. split.
  - intros i th p e H1 H2 H3. do 5 (destruct i as [|i]; [cbn [nth_error map] in H1, H2, H3; injection H1 as <-; injection H2 as <-; injection H3 as <-; cbn [ticker th_form reaches fst snd]; first [lra|left; split; [reflexivity|lra]]|]). destruct i; discriminate H1.
  - intros i j th1 th2 p1 p2 e1 e2 Hij H1 H2 H3 H4 H5 H6.
    do 5 (destruct i as [|i]; [cbn [nth_error map] in H1, H3, H5; injection H1 as <-; injection H3 as <-; injection H5 as <-;
      do 5 (destruct j as [|j]; [try lia; cbn [nth_error map] in H2, H4, H6; injection H2 as <-; injection H4 as <-; injection H6 as <-; cbn [ticker th_form fst snd];
        (split; [eexists; first [left; reflexivity|right; reflexivity]|]; unfold spaced; cbn [fst snd]; first [left; lra|right; left; lra|right; right; left; lra|right; right; right; lra])|]); destruct j; discriminate H2|]).
    destruct i; discriminate H1.
Qed.
Theorem fric_falls gf o : broadphase_sane o -> (18 <= gf)%nat ->
  exists w0, fric_demo o (diff_handler gf o) = Ok w0 /\
    map (fun c => (b_p c, b_v c)) (w_bodies w0) = fric_at 0 /\ map matter (w_bodies w0) = repeat (1, 1 / 10, 1) 4 ++ [(1, 1 / 2, 9 / 10)] /\ Forall2 (fun s c => s c) fric_shapes (w_bodies w0) /\
    places w0 = [(JX, 2%nat, None); (JY, 2%nat, None); (JX, 3%nat, None); (JY, 3%nat, None)] /\ w_post_stab w0 = true /\
    (forall t, world_apply_forces w0 t = Ok (fric_loads t)) /\
    forall la mi k fuel lfuel run_time, lapack_ok la -> (0 < mi)%nat -> (k <= 3)%nat -> (forall m, (m < k)%nat -> INR m / 30 < run_time) -> run_time <= INR k / 30 -> (k < fuel)%nat ->
      exists w', run_world fuel (S lfuel) o (diff_handler gf o) (pdipm_engine la mi) run_time w0 = Ok w' /\
        map (fun c => (b_p c, b_v c)) (w_bodies w') = fric_at k /\ w_t w' = INR k / 30 /\ w_contacts w' = [].
Proof.
  intros Ho Hg. destruct (fric_builds o (diff_handler gf o)) as (bs & c2 & c3 & Sc & H2 & H3 & E).
  set (js := [x_init c2; y_init c2; x_init c3; y_init c3]) in *.
  assert (I2 : b_id c2 = 2%nat) by (destruct (sc_match _ _ Sc _ _ H2) as (th & _ & B); exact (mt_id _ _ _ B)). assert (I3 : b_id c3 = 3%nat) by (destruct (sc_match _ _ Sc _ _ H3) as (th & _ & B); exact (mt_id _ _ _ B)).
  assert (Hb : Forall (built bs) js) by (repeat constructor; eapply nth_error_In; eauto).
  assert (Hl : loop_free js).
  { apply (loop_free_add [x_init c2; y_init c2; x_init c3] (y_init c3) []).
    - apply (loop_free_add [x_init c2; y_init c2] (x_init c3) []).
      + apply (loop_free_add [x_init c2] (y_init c2) []).
        * apply (loop_free_add [] (x_init c2) []); [constructor|]. left. exists 2%nat. split; [left; exact I2|intros j []].
        * right. split; [right; left; reflexivity|]. intros j Hj _. cbn [app] in Hj. destruct Hj as [<-|[]]. split; [left; reflexivity|discriminate].
      + left. exists 3%nat. split; [left; exact I3|]. intros j [<-|[<-|[]]] [Ht|Ht]; try discriminate Ht; change (b_id c2 = 3%nat) in Ht; lia.
    - right. split; [right; left; reflexivity|]. intros j Hj Ht. cbn [app] in Hj. destruct Hj as [<-|[<-|[<-|[]]]].
      + destruct Ht as [Ht|Ht]; [change (b_id c2 = b_id c3) in Ht; lia|discriminate Ht].
      + destruct Ht as [Ht|Ht]; [change (b_id c2 = b_id c3) in Ht; lia|discriminate Ht].
      + split; [left; reflexivity|discriminate]. }
  assert (Hjr : forall j, In j js -> fric_rest (j_b1 j) = true /\ j_b2 j = None).
  { intros j [<-|[<-|[<-|[<-|[]]]]]; [change (fric_rest (b_id c2) = true /\ @None nat = None)|change (fric_rest (b_id c2) = true /\ @None nat = None)|change (fric_rest (b_id c3) = true /\ @None nat = None)|change (fric_rest (b_id c3) = true /\ @None nat = None)]; rewrite ?I2, ?I3; split; reflexivity. }
  assert (Hload : forall t i th (b : body R), nth_error fric_tab i = Some th -> b_forces b = th_forces th -> body_apply_forces fric_heap b t = Ok (fric_bear t i)).
  { intros t i th b Ht Fb. unfold body_apply_forces. rewrite Fb. destruct i as [|i].
    - cbn [nth_error fric_tab] in Ht. injection Ht as <-. cbn [th_forces mapM fric_heap nth_error force_value bind fold_left fric_bear nth]. rewrite right_push, plus_none. unfold v3add, v2add. cbn [fst snd]. rnum. apply f_equal. apply f_equal2; [ring|apply f_equal2; ring].
    - do 4 (destruct i as [|i]; [cbn [nth_error fric_tab] in Ht; injection Ht as <-; cbn [ticker th_forces mapM fric_heap nth_error force_value bind fold_left fric_bear nth]; rewrite ?plus_none; reflexivity|]). destruct i; discriminate Ht. }
  assert (Hrest : forall i th, nth_error fric_tab i = Some th -> fric_rest i = true -> th_v th = (0, (0, 0)) /\ (forall t, fric_bear t i = (0, (0, 0)))).
  { intros i th Ht Hr. do 5 (destruct i as [|i]; [first [discriminate Hr|cbn [nth_error fric_tab] in Ht; injection Ht as <-; split; [reflexivity|intros t; reflexivity]]|]). destruct i; discriminate Ht. }
  set (state := fun k i => nth i (fric_at k) idle).
  assert (Hst : forall k i th, (k <= 3)%nat -> nth_error fric_tab i = Some th -> state k i = if fric_rest i then (th_p th, (0, (0, 0))) else StaticsSpec.coast (1 / 30) 0 (fun t => gains th (fric_bear t i)) (th_p th) (th_v th) k).
  { intros k i th Hk Ht. unfold state, fric_at. apply le_INR in Hk. replace (INR 3) with 3 in Hk by (rewrite INR_IZR_INZ; reflexivity).
    destruct i as [|[|[|[|[|i]]]]]; cbn [nth_error fric_tab] in Ht; [injection Ht as <-|injection Ht as <-|injection Ht as <-|injection Ht as <-|injection Ht as <-|]; cbn [nth fric_rest Nat.eqb orb ticker th_p th_v th_form]; try reflexivity.
    - rewrite (coast_until (0, (0, 100)) _ 1); [rewrite falls; apply state_eq; field| |lra]. intros t Ht. unfold gains. cbn [fric_bear nth th_form form_inertia fst snd]. destruct (Rlt_dec 1 t); [lra|]. apply f_equal2; [field|reflexivity].
    - transitivity (StaticsSpec.coast (1 / 30) 0 (fun _ => (0, (0, 100))) (0, (200, 364)) (0, (0, 0)) k); [rewrite falls; apply state_eq; field|apply coast_ext; intros t; unfold gains; cbn [fric_bear nth ticker th_form form_inertia fst snd]; apply f_equal2; [lra|reflexivity]].
    - transitivity (StaticsSpec.coast (1 / 30) 0 (fun _ => (0, (0, 0))) (0, (975, 575)) (1, (0, 0)) k); [rewrite falls; unfold turning; apply state_eq; field|apply coast_ext; intros t; unfold gains; cbn [fric_bear nth ticker th_form form_inertia fst snd]; apply f_equal2; [lra|reflexivity]].
    - destruct i; discriminate Ht. }
  assert (Hbox : forall k, (k <= 3)%nat -> boxed fric_tab (map fst (shown fric_tab state k)) fric_ext) by (intros k Hk; unfold shown, state; rewrite table_nth by reflexivity; now apply fric_clear).
  destruct (sc_starts gf o fric_tab bs js fric_heap fric_rest fric_bear state fric_ext 3 Hg Ho ltac:(discriminate) Sc Hb Hload Hrest Hst eq_refl Hbox) as [w0 Hw0].
  destruct (scene_made gf o _ _ _ _ _ Sc Hw0) as (Q1 & Q2 & Q3). pose proof (s0_entries gf o fric_tab bs js fric_heap fric_rest Sc Hjr w0 Hw0) as Ej.
  exists w0. split; [rewrite E; exact Hw0|]. split; [rewrite (s0_shown gf o fric_tab bs js fric_heap fric_rest fric_bear state fric_ext 3 Hg Sc Hjr Hrest Hst eq_refl w0 Hw0); unfold shown, state; now rewrite table_nth by reflexivity|].
  split; [exact Q1|]. split; [exact Q2|].
  split. { unfold places. rewrite Ej. unfold js. cbn [map]. change (j_b1 (x_init c2)) with (b_id c2). change (j_b1 (y_init c2)) with (b_id c2). change (j_b1 (x_init c3)) with (b_id c3). change (j_b1 (y_init c3)) with (b_id c3). rewrite I2, I3. reflexivity. }
  split; [exact Q3|]. split; [exact (s0_forces gf o fric_tab bs js fric_heap fric_bear Sc Hload w0 Hw0)|].
  intros la mi k fuel lfuel run_time H1' H2' H3' H4' H5' H6'.
  destruct (scene_run gf o fric_tab bs js fric_heap fric_rest fric_bear state fric_ext 3 Hg Ho Sc Hb Hl Hjr Hload Hrest Hst eq_refl Hbox w0 Hw0 la mi k fuel lfuel run_time H1' H2' H3' H4' H5' H6') as (w' & R1 & R2 & R3).
  exists w'. split; [exact R1|]. split; [|exact R3]. rewrite R2. unfold shown, state. now rewrite table_nth by reflexivity.
Qed.
