(** Sessions that differ in the broad phase only, or in the order of bodies and constraints *)
From Coq Require Import List Arith ZArith Bool Reals Lia Lra Permutation.
From Verif Require Import Num Tensor Utils Bodies Forces Constraints Contacts World Lapack Pdipm Lcp Engines Spec GeoSpec BodySpec JointSpec ContactSpec EngineSpec SymSpec SceneSpec
     RBase ResFacts UtilFacts LinAlg LapackSpec KktSpec PdipmSpec WorldFacts HandlerFacts LayoutFacts HistFacts SysFacts RewindFacts JointFacts JeFacts CacheFacts BodyReach TimeFacts PdipmFacts PdipmLoop SolverFacts EngineFacts
     ContactSys EngineBalance PostFacts LcpSym PlaneFacts BodyFacts GeomFacts ContactFacts ListedFacts SceneFacts SceneContacts SceneEngine SceneSolve SceneRun SceneInit.
Import ListNotations.
Open Scope R_scope.

Lemma place_0 a : place (turned 0) a = a.
Proof. apply rotate_0. Qed.
Lemma turn_vel_0 u : turn_vel (turned 0) u = u.
Proof. destruct u as [a u]. unfold turn_vel. cbn [fst snd]. rewrite place_0. unfold hand. cbn [turned v_mirror]. now rewrite Rmult_1_l. Qed.
Lemma turn_pose_0 u : turn_pose (turned 0) u = u.
Proof. destruct u as [a u]. unfold turn_pose. cbn [fst snd]. rewrite place_0. unfold hand. cbn [turned v_mirror v_rot]. now rewrite Rmult_1_l, Rplus_0_r. Qed.
Lemma turn_body_0 b : is_circle b = true -> turn_body (turned 0) b = b.
Proof.
  destruct b as [id k p v m i f r e fs [sh gp gq gn]]. unfold is_circle, turn_body, turn_quat. cbn [b_id b_kind b_p b_v b_mass b_inertia b_fric b_rest b_eps b_forces b_geom g_shape g_pos g_quat g_no_contact]. destruct k; try discriminate. intros _.
  cbn [turn_kind]. rewrite turn_pose_0, turn_vel_0, place_0. cbn [turned v_name]. now rewrite map_id.
Qed.
Lemma opt_0 {A} (x : option A) : option_map (fun i => i) x = x.
Proof. now destruct x. Qed.
Lemma built_0 bs j : Forall (fun b => is_circle b = true) bs -> built bs j -> built_alike (turned 0) bs j j.
Proof.
  intros C. rewrite Forall_forall in C. intros [b1 pos H1|b1 b2 pos H1 H2 N|b1 b2 H1 H2 N|b1 H1|b1 H1|b1 H1|b1 H1]; pose proof (turn_body_0 b1 (C b1 H1)) as E1; try pose proof (turn_body_0 b2 (C b2 H2)) as E2.
  - pose proof (ba_joint1 (turned 0) bs b1 pos H1) as X. now rewrite E1, place_0 in X.
  - pose proof (ba_joint2 (turned 0) bs b1 b2 pos H1 H2 N) as X. now rewrite E1, E2, place_0 in X.
  - pose proof (ba_fixed (turned 0) bs b1 b2 H1 H2 N) as X. now rewrite E1, E2 in X.
  - pose proof (ba_x (turned 0) bs b1 H1 sin_0) as X. now rewrite E1 in X.
  - pose proof (ba_y (turned 0) bs b1 H1 sin_0) as X. now rewrite E1 in X.
  - pose proof (ba_rot (turned 0) bs b1 H1) as X. now rewrite E1 in X.
  - pose proof (ba_total (turned 0) bs b1 H1) as X. now rewrite E1 in X.
Qed.
Lemma force_0 (f : forceobj R) : turned_force (turned 0) f f.
Proof. intros t. destruct (force_value f t); cbn; [now rewrite turn_vel_0|exact I]. Qed.
Lemma F2_refl {A} (r : A -> A -> Prop) l : (forall a, In a l -> r a a) -> Forall2 r l l.
Proof. induction l as [|a l IH]; intros H; constructor; cbn in H; auto. Qed.
Lemma listed_seq {A B} (r : A -> B -> Prop) n l l' : listed r (seq 0 n) l l' -> Forall2 r l l'.
Proof.
  intros [HO HF]. pose proof (ord_len _ _ HO) as L. rewrite seq_length in L. subst n. clear HO.
  assert (G : forall k (l1 : list A) l2, Forall2 (fun i b => exists a, nth_error l i = Some a /\ r a b) (seq k (length l1)) l2 -> (forall i, nth_error l (k + i)%nat = nth_error l1 i) -> Forall2 r l1 l2).
  { intros k l1. revert k. induction l1 as [|a l1 IH]; intros k l2 F E; inversion F as [|x y X Y (c & Ec & Hr) F']; subst; constructor.
    - pose proof (E 0%nat) as E0. rewrite Nat.add_0_r, Ec in E0. cbn in E0. congruence.
    - apply (IH (S k)); [exact F'|]. intros i. change (nth_error l1 i) with (nth_error (a :: l1) (S i)). rewrite <- (E (S i)). f_equal. lia. }
  apply (G 0%nat _ _ HF). reflexivity.
Qed.
Lemma nth_seq n k i : nth_error (seq 0 n) k = Some i -> i = k.
Proof.
  intros E. assert (L : (k < length (seq 0 n))%nat) by (apply nth_error_Some; congruence). rewrite seq_length in L. apply (nth_error_nth _ _ 0%nat) in E. rewrite seq_nth in E by lia. cbn in E. congruence.
Qed.
Lemma crel_0 n c c' : crel (turned 0) (seq 0 n) c c' -> either_way c c'.
Proof.
  assert (G : forall d, cdir (turned 0) (seq 0 n) d c' -> c' = d). { intros [dn d1 d2 dp di dj] (A & B & C & D & E1 & E2). apply nth_seq in E1, E2. destruct c' as [cn c1 c2 cp ci cj]. cbn in *. rewrite place_0 in A, B, C. subst. reflexivity. }
  intros [H|H]; [left|right]; auto.
Qed.
Lemma up_refl {A} (r : A -> A -> Prop) l : (forall a, In a l -> r a a) -> up_to_order r l l.
Proof. intros H. exists l. split; [reflexivity|now apply F2_refl]. Qed.

Theorem broadphase_session la mi gf gf' fuel o o' heap bs js dt eps tol fd ps st ops : lapack_ok la ->
  broadphase_ok o -> broadphase_ok o' -> round_scene eps bs -> Forall (built bs) js ->
  alike same_state
    (do w0 <- world_init o (diff_handler gf o) heap bs js dt eps tol fd ps st; exec fuel o (diff_handler gf o) (pdipm_engine la mi) ops w0)
    (do w0 <- world_init o' (diff_handler gf' o') heap bs js dt eps tol fd ps st; exec fuel o' (diff_handler gf' o') (pdipm_engine la mi) ops w0).
Proof.
  intros HL Ho Ho' Hr Hb. pose proof (proj1 (proj2 Hr)) as CB. assert (CB' := CB). rewrite Forall_forall in CB'. set (sg := seq 0 (length bs)). set (pi := seq 0 (length js)).
  assert (HB : listed (brel (turned 0)) sg bs bs). { apply listed_id. apply F2_refl. intros b HIb. symmetry. apply turn_body_0. auto. }
  assert (HJ : listed (built_alike (turned 0) bs) pi js js). { apply listed_id. apply F2_refl. intros j Hj. apply built_0; [exact CB|]. rewrite Forall_forall in Hb. auto. }
  assert (Hh : Forall2 (turned_force (turned 0)) heap heap) by (apply F2_refl; intros f _; apply force_0).
  assert (HC : Forall2 (same_call (turned 0) bs bs) ops ops).
  { apply F2_refl. intros [f|d|v] _; cbn; auto. split; [reflexivity|]. intros i j b b' E E' Ei. rewrite turn_vel_0. f_equal. symmetry. exact (same_place _ _ _ _ _ (round_ids _ _ Hr) E E' (eq_sym Ei)). }
  eapply alike_bind; [exact (init_turn la gf gf' (turned 0) sg pi bs bs js js o o' heap heap dt eps tol fd ps st HB HJ Ho Ho' Hh Hr)|]. intros w w' _ _ [HW H].
  eapply alike_impl; [|exact (exec_turn la mi (turned 0) sg pi HL _ _ _ _ _ _ o o' _ _ HB HW alone alone_step (find_turn la gf gf' (turned 0) sg _ _ _ _ _ _ o o' Ho Ho') fuel ops ops (calls_turn (turned 0) sg bs bs HB ops ops HC) w w' H)].
  intros a a' _ _ R. cbn beta in R.
  assert (EB : w_bodies a' = w_bodies a). { pose proof (listed_seq _ _ _ _ (re_b _ _ _ _ _ _ _ _ _ _ _ _ R)) as F. destruct (re_sc _ _ _ _ _ _ _ _ _ _ _ _ R) as (CC & _). clear - F CC. induction F as [|b b' l l' -> F IH]; [reflexivity|]. inversion CC as [|x y [Cb _] CC']; subst. now rewrite IH, turn_body_0. }
  split; [apply R|]. split; [exact EB|]. split.
  - pose proof (so_v _ _ _ _ (re_s _ _ _ _ _ _ _ _ _ _ _ _ R)) as A. pose proof (so_v _ _ _ _ (re_s' _ _ _ _ _ _ _ _ _ _ _ _ R)) as A'. unfold aligned in A, A'. now rewrite A, A', EB.
  - split.
    + pose proof (tw_joints la (turned 0) sg pi _ _ _ _ _ _ HB HW _ a a' R) as T. apply (listed_seq _ (length js)). apply (listed_map _ _ _ _ _ _ _ T). intros [[j i1] i2] [[j' k1] k2] _ _ ((X1 & X2 & X3 & X4) & _). cbn [fst]. rewrite place_0 in X4. cbn [turned v_name] in X2, X3. rewrite opt_0 in X3. unfold same_joint. auto.
    + destruct (re_c _ _ _ _ _ _ _ _ _ _ _ _ R) as [P HP]. apply (perm_listed _ P). revert HP. apply listed_impl. intros c c' _ _. apply crel_0.
Qed.
Theorem order_session la mi gf gf' fuel o o' heap bs bs' js js' dt eps tol fd ps st ops ops' : lapack_ok la ->
  broadphase_ok o -> broadphase_ok o' -> round_scene eps bs -> Forall (built bs) js ->
  Permutation bs bs' -> Permutation js js' -> Forall2 (reordered_call bs bs') ops ops' ->
  alike reordered
    (do w0 <- world_init o (diff_handler gf o) heap bs js dt eps tol fd ps st; exec fuel o (diff_handler gf o) (pdipm_engine la mi) ops w0)
    (do w0 <- world_init o' (diff_handler gf' o') heap bs' js' dt eps tol fd ps st; exec fuel o' (diff_handler gf' o') (pdipm_engine la mi) ops' w0).
Proof.
  intros HL Ho Ho' Hr Hb PB PJ F. pose proof (proj1 (proj2 Hr)) as CB. assert (CB' := CB). rewrite Forall_forall in CB'.
  assert (HB : up_to_order (fun b b' => b' = turn_body (turned 0) b) bs bs'). { exists bs'. split; [exact PB|]. apply F2_refl. intros b HIb. symmetry. apply turn_body_0. apply CB'. exact (Permutation_in _ (Permutation_sym PB) HIb). }
  assert (HJ : up_to_order (built_alike (turned 0) bs) js js'). { exists js'. split; [exact PJ|]. apply F2_refl. intros j Hj. apply built_0; [exact CB|]. rewrite Forall_forall in Hb. apply Hb. apply (Permutation_in _ (Permutation_sym PJ) Hj). }
  assert (Hh : Forall2 (turned_force (turned 0)) heap heap) by (apply F2_refl; intros f _; apply force_0).
  assert (HC : Forall2 (same_call (turned 0) bs bs') ops ops').
  { induction F as [|c c' ops ops' Hc F IH]; constructor; auto. destruct c as [f|d|v], c' as [f'|d'|v']; cbn in *; auto. destruct Hc as [L Hc]. split; [exact L|]. intros i j b b' E E' Ei. rewrite turn_vel_0. apply (Hc i j b E). rewrite E'. f_equal.
    assert (Hin : In b' bs) by (apply (Permutation_in _ (Permutation_sym PB)); exact (nth_error_In _ _ E')). apply In_nth_error in Hin. destruct Hin as [m Em]. pose proof (same_place _ _ _ _ _ (round_ids _ _ Hr) E Em (eq_sym Ei)) as <-. congruence. }
  eapply alike_impl; [|exact (scene_circ la mi gf gf' fuel (turned 0) o o' heap heap bs bs' js js' dt eps tol fd ps st ops ops' HL Ho Ho' Hr HB HJ Hh HC)].
  intros w w' _ _ [(T & (l2 & P2 & F2) & HJ2 & HC2) CW]. split; [exact T|]. split; [|split].
  - rewrite P2. apply (Permutation_Forall P2) in CW. clear - F2 CW. induction F2 as [|b b' l l' -> F IH]; [constructor|]. inversion CW as [|x y [Cb _] CW']; subst. rewrite turn_body_0 by exact Cb. constructor. auto.
  - destruct HJ2 as (m & Pm & Fm). exists m. split; [exact Pm|]. revert Fm. apply F2_impl_in. intros j j' _ _ (X1 & X2 & X3 & X4). rewrite place_0 in X4. cbn [turned v_name] in X2, X3. rewrite opt_0 in X3. unfold same_joint. auto.
  - destruct HC2 as (m & Pm & Fm). exists m. split; [exact Pm|]. revert Fm. apply F2_impl_in. intros c c' _ _ [(A & B & C & D & E1 & E2)|(A & B & C & D & E1 & E2)]; rewrite place_0 in A, B, C; cbn [turned v_name] in E1, E2; rewrite opt_0 in E1, E2; [exists c|exists (mirror c)]; unfold either_way; auto 12.
Qed.
