(** The constructor for two descriptions of the same scene; whole sessions *)
From Coq Require Import List Arith ZArith Bool Reals Lia Lra Permutation.
From Verif Require Import Num Tensor Utils Bodies Forces Constraints Contacts World Lapack Pdipm Lcp Engines Spec GeoSpec BodySpec JointSpec ContactSpec EngineSpec SymSpec SceneSpec
     RBase ResFacts UtilFacts LinAlg LapackSpec KktSpec PdipmSpec WorldFacts HandlerFacts LayoutFacts HistFacts SysFacts RewindFacts JointFacts JeFacts CacheFacts BodyReach TimeFacts PdipmFacts PdipmLoop SolverFacts EngineFacts
     ContactSys EngineBalance PostFacts LcpSym PlaneFacts BodyFacts GeomFacts ContactFacts ListedFacts SceneFacts SceneContacts SceneEngine SceneSolve SceneRun.
Import ListNotations.
Open Scope R_scope.

Lemma index_of_total (bs : list (body R)) b : In b bs -> exists i c, index_of bs (b_id b) = Ok i /\ nth_error bs i = Some c /\ b_id c = b_id b.
Proof.
  intros H. assert (E : exists i, index_of bs (b_id b) = Ok i).
  { induction bs as [|c bs IH]; [contradiction|]. cbn [index_of]. destruct (Nat.eqb_spec (b_id c) (b_id b)); [eauto|]. destruct H as [->|H]; [congruence|]. destruct (IH H) as [i ->]. cbn [bind]. eauto. }
  destruct E as [i E]. destruct (index_of_nth _ _ _ E) as (c & Ec & Ei). eauto.
Qed.
Lemma same_place (bs : list (body R)) i k b c : NoDup (map b_id bs) -> nth_error bs i = Some b -> nth_error bs k = Some c -> b_id b = b_id c -> i = k.
Proof.
  intros N E1 E2 E. rewrite (NoDup_nth_error (map b_id bs)) in N. apply N; [rewrite map_length; apply nth_error_Some; congruence|]. rewrite !nth_error_map, E1, E2. cbn. congruence.
Qed.
Lemma index_turn th sg bs bs' b : listed (brel th) sg bs bs' -> NoDup (map b_id bs) -> In b bs ->
  exists i k, index_of bs (b_id b) = Ok i /\ index_of bs' (v_name th (b_id b)) = Ok k /\ nth_error sg k = Some i.
Proof.
  intros HB Hn Hb. destruct (index_of_total _ _ Hb) as (i & c & E & Ec & Ei). exists i.
  assert (Hb' : In (turn_body th b) bs'). { apply In_nth_error in Hb. destruct Hb as [m Em]. destruct (listed_l _ _ _ _ _ _ HB Em) as (k & b' & _ & Ek & ->). exact (nth_error_In _ _ Ek). }
  destruct (index_of_total _ _ Hb') as (k & c' & E' & Ec' & Ei'). cbn [turn_body b_id] in E', Ei'. exists k. split; [exact E|]. split; [exact E'|].
  destruct (listed_r _ _ _ _ _ _ HB Ec') as (m & d & Es & Ed & ->). cbn [turn_body b_id] in Ei'. rewrite Es. f_equal. apply (same_place _ _ _ _ _ Hn Ed Ec). apply (v_apart th) in Ei'. congruence.
Qed.
Lemma turned_ids th sg bs bs' : listed (brel th) sg bs bs' -> Permutation (map (v_name th) (map b_id bs)) (map b_id bs').
Proof.
  intros H. apply perm_listed in H. destruct H as (l2 & HP & HF). rewrite (Permutation_map (v_name th) (Permutation_map b_id HP)). clear HP. induction HF as [|b b' l2 l' -> HF IH]; [constructor|]. cbn [map]. rewrite IH. reflexivity.
Qed.
Definition norm2 (c : v2 R) : R := fst c ^ 2 + snd c ^ 2.
Lemma norm2_place th c : norm2 (place th c) = norm2 c.
Proof. pose proof (rt_component th c c) as H. unfold component in H. unfold norm2. cbn [pow]. lra. Qed.
Lemma polar_fields (c : v2 R) : polar_to_cart (fst (cart_to_polar c)) (snd (cart_to_polar c)) = c /\ fst (cart_to_polar c) = sqrt (norm2 c).
Proof. pose proof (polar_round_trip c) as P. destruct (cart_to_polar c) as [r t]. destruct P as (P & Q & _). auto. Qed.
Lemma joint_init_eq (b1 : body R) o pos : let j := joint_init b1 o pos in j_kind j = JJoint /\ j_b1 j = b_id b1 /\ j_b2 j = option_map b_id o /\
  j_r1 j = sqrt (norm2 (v2sub pos (b_pos b1))) /\ arm j = v2sub pos (b_pos b1).
Proof.
  unfold joint_init, arm. pose proof (polar_fields (v2sub pos (b_pos b1))) as [P Q]. destruct (cart_to_polar _) as [r t]. cbn [fst snd] in P, Q. cbn. destruct o; auto.
Qed.
Lemma total_init_eq (b1 : body R) : let j := total_init b1 in j_kind j = JTotal /\ j_b1 j = b_id b1 /\ j_b2 j = None /\
  j_r1 j = sqrt (norm2 (v2sub (b_pos b1) (b_pos b1))) /\ arm j = v2sub (b_pos b1) (b_pos b1).
Proof. unfold total_init, arm. pose proof (polar_fields (v2sub (b_pos b1) (b_pos b1))) as [P Q]. destruct (cart_to_polar _) as [r t]. cbn [fst snd] in P, Q. cbn. auto. Qed.

Definition entry (bs : list (body R)) (j : joint R) : res jent :=
  do i1 <- index_of bs (j_b1 j); match j_b2 j with None => Ok (j, i1, None) | Some id => do i2 <- index_of bs id; Ok (j, i1, Some i2) end.
Lemma entry_turn th sg bs bs' j j' : listed (brel th) sg bs bs' -> NoDup (map b_id bs) -> built_alike th bs j j' ->
  exists e e', entry bs j = Ok e /\ entry bs' j' = Ok e' /\ jrel th sg e e'.
Proof.
  intros HB Hn H. pose proof (fun b => index_turn th sg bs bs' b HB Hn) as IX.
  assert (S : forall b1 pos, v2sub (place th pos) (b_pos (turn_body th b1)) = place th (v2sub pos (b_pos b1))) by (intros; symmetry; apply rt_sub).
  destruct H as [b1 pos H1|b1 b2 pos H1 H2 N|b1 b2 H1 H2 N|b1 H1 Hc|b1 H1 Hc|b1 H1|b1 H1].
  - destruct (IX b1 H1) as (i & k & E & E' & Es). destruct (joint_init_eq b1 None pos) as (K & B1 & B2 & R1 & A). destruct (joint_init_eq (turn_body th b1) None (place th pos)) as (K' & B1' & B2' & R1' & A').
    exists (joint_init b1 None pos, i, None), (joint_init (turn_body th b1) None (place th pos), k, None). unfold entry. rewrite B1, B2, B1', B2'. cbn [option_map turn_body b_id]. rewrite E, E'. split; [reflexivity|]. split; [reflexivity|].
    unfold jrel. rewrite K, K', B1, B1', B2, B2', R1, R1', A, A', S, norm2_place. cbn. auto 10.
  - destruct (IX b1 H1) as (i & k & E & E' & Es). destruct (IX b2 H2) as (i2 & k2 & E2 & E2' & Es2). destruct (joint_init_eq b1 (Some b2) pos) as (K & B1 & B2 & R1 & A). destruct (joint_init_eq (turn_body th b1) (Some (turn_body th b2)) (place th pos)) as (K' & B1' & B2' & R1' & A').
    exists (joint_init b1 (Some b2) pos, i, Some i2), (joint_init (turn_body th b1) (Some (turn_body th b2)) (place th pos), k, Some k2). unfold entry. rewrite B1, B2, B1', B2'. cbn [option_map turn_body b_id]. rewrite E, E'. cbn [bind]. rewrite E2, E2'. split; [reflexivity|]. split; [reflexivity|].
    unfold jrel. rewrite K, K', B1, B1', B2, B2', R1, R1', A, A', S, norm2_place. cbn. auto 10.
  - destruct (IX b1 H1) as (i & k & E & E' & Es). destruct (IX b2 H2) as (i2 & k2 & E2 & E2' & Es2). exists (fixed_init b1 b2, i, Some i2), (fixed_init (turn_body th b1) (turn_body th b2), k, Some k2).
    unfold entry. cbn [fixed_init j_b1 j_b2 turn_body b_id]. rewrite E, E'. cbn [bind]. rewrite E2, E2'. split; [reflexivity|]. split; [reflexivity|]. cbn. auto 10.
  - destruct (IX b1 H1) as (i & k & E & E' & Es). exists (x_init b1, i, None), (x_init (turn_body th b1), k, None). unfold entry. cbn [x_init axis_init j_b1 j_b2 turn_body b_id]. rewrite E, E'. split; [reflexivity|]. split; [reflexivity|]. cbn. auto 10.
  - destruct (IX b1 H1) as (i & k & E & E' & Es). exists (y_init b1, i, None), (y_init (turn_body th b1), k, None). unfold entry. cbn [y_init axis_init j_b1 j_b2 turn_body b_id]. rewrite E, E'. split; [reflexivity|]. split; [reflexivity|]. cbn. auto 10.
  - destruct (IX b1 H1) as (i & k & E & E' & Es). exists (rot_init b1, i, None), (rot_init (turn_body th b1), k, None). unfold entry. cbn [rot_init axis_init j_b1 j_b2 turn_body b_id]. rewrite E, E'. split; [reflexivity|]. split; [reflexivity|]. cbn. auto 10.
  - destruct (IX b1 H1) as (i & k & E & E' & Es). destruct (total_init_eq b1) as (K & B1 & B2 & R1 & A). destruct (total_init_eq (turn_body th b1)) as (K' & B1' & B2' & R1' & A').
    exists (total_init b1, i, None), (total_init (turn_body th b1), k, None). unfold entry. rewrite B1, B2, B1', B2'. cbn [turn_body b_id]. rewrite E, E'. split; [reflexivity|]. split; [reflexivity|].
    assert (S2 : v2sub (b_pos (turn_body th b1)) (b_pos (turn_body th b1)) = place th (v2sub (b_pos b1) (b_pos b1))) by (symmetry; apply rt_sub).
    unfold jrel. rewrite K, K', B1, B1', B2, B2', R1, R1', A, A', S2, norm2_place. cbn. auto 10.
Qed.
Lemma built_left th bs j j' : built_alike th bs j j' -> built bs j.
Proof. intros []; constructor; auto. Qed.
Lemma built_right th sg bs bs' j j' : listed (brel th) sg bs bs' -> built_alike th bs j j' -> built bs' j'.
Proof.
  intros HB H. assert (G : forall b, In b bs -> In (turn_body th b) bs'). { intros b Hb. apply In_nth_error in Hb. destruct Hb as [m Em]. destruct (listed_l _ _ _ _ _ _ HB Em) as (k & b' & _ & Ek & ->). exact (nth_error_In _ _ Ek). }
  assert (N : forall b1 b2, b_id b1 <> b_id b2 -> b_id (turn_body th b1) <> b_id (turn_body th b2)) by (intros b1 b2 H0 H1; apply H0, (v_apart th), H1).
  destruct H; constructor; auto.
Qed.

Lemma own_v (bs : list (body R)) : mapi (fun i b => with_v b (v3_at (cat3 (map b_v bs)) i)) bs = bs.
Proof.
  apply nth_error_ext. intros i. rewrite mapi_nth. destruct (nth_error bs i) as [b|] eqn:E; [|reflexivity]. cbn [option_map]. f_equal.
  assert (L : (i < length (map b_v bs))%nat) by (rewrite map_length; apply nth_error_Some; congruence). rewrite (v3_at_cat3 _ _ (b_v b) L), (nth_error_nth _ _ (b_v b) (map_nth_error b_v _ _ E)). destruct b. reflexivity.
Qed.
(** the world before contacts are looked for *)
Definition start (heap : fheap R) (bs : list (body R)) (js : list (joint R)) (dt eps tol : R) (fd : nat) (ps st : bool) (J : list jent) : world R :=
  {| w_bodies := bs; w_joints := J; w_heap := heap; w_t := nofZ 0; w_dt := dt; w_eps := eps; w_tol := tol; w_fric_dirs := fd; w_post_stab := ps; w_strict := st;
     w_v := cat3 (map b_v bs); w_contacts := []; w_static_inverse := forallb j_static js; w_num_constraints := fold_left (fun n j => (n + j_num j)%nat) js 0%nat;
     w_M := world_M bs; w_cache := None; w_clk := 0 |}.
Lemma init_eq o hd heap bs js dt eps tol fd ps st : bs <> [] ->
  world_init o hd heap bs js dt eps tol fd ps st =
  do J <- mapM (entry bs) js; do w2 <- find_contacts o hd (start heap bs js dt eps tol fd ps st J); if st && negb (no_penetration w2) then Err EAssert else Ok w2.
Proof.
  intros N. unfold world_init. destruct bs as [|b0 bs0] eqn:Eb; [contradiction|]. rewrite <- Eb. clear Eb N. change (mapM _ js) with (mapM (entry bs) js). destruct (mapM (entry bs) js) as [J|e]; [|reflexivity]. cbn [bind].
  unfold set_v. cbn [w_bodies]. rewrite cat3_length, map_length, Nat.eqb_refl. cbn [bind]. unfold with_state. cbn [w_bodies w_joints w_heap w_t w_dt w_eps w_tol w_fric_dirs w_post_stab w_strict w_v w_contacts w_static_inverse w_num_constraints w_M w_cache w_clk].
  rewrite own_v. reflexivity.
Qed.
Lemma nopen_crel th sg P (w w' : world R) : listed (crel th sg) P (w_contacts w) (w_contacts w') -> w_tol w' = w_tol w -> no_penetration w' = no_penetration w.
Proof.
  intros HC Et. unfold no_penetration. rewrite Et. apply eq_true_iff_eq. rewrite !forallb_forall. split; intros G c Hc.
  - apply In_nth_error in Hc. destruct Hc as [i Ei]. destruct (listed_l _ _ _ _ _ _ HC Ei) as (k & c' & _ & Ek & R). rewrite <- (crel_pen _ _ _ _ R). apply G. exact (nth_error_In _ _ Ek).
  - apply In_nth_error in Hc. destruct Hc as [i Ei]. destruct (listed_r _ _ _ _ _ _ HC Ei) as (k & c' & _ & Ek & R). rewrite (crel_pen _ _ _ _ R). apply G. exact (nth_error_In _ _ Ek).
Qed.

Section Session.
Variables (la : lapack R) (mi gf gf' : nat) (th : view) (sg pi : list nat).
Hypothesis HL : lapack_ok la.
Variables (bs bs' : list (body R)) (js js' : list (joint R)) (o o' : oracle R) (heap heap' : fheap R) (dt eps tol : R) (fd : nat) (ps st : bool).
Hypothesis HBB : listed (brel th) sg bs bs'.
Hypothesis HJJ : listed (built_alike th bs) pi js js'.
Hypothesis Ho : broadphase_ok o.
Hypothesis Ho' : broadphase_ok o'.
Hypothesis Hh : Forall2 (turned_force th) heap heap'.
Hypothesis Hr : round_scene eps bs.
Notation hd := (diff_handler gf o).
Notation hd' := (diff_handler gf' o').

Lemma round_ids : NoDup (map b_id bs).
Proof. apply Hr. Qed.
Lemma round_scene_scene : scene eps bs.
Proof.
  destruct Hr as (H1 & H2 & _ & H3 & H4). split; [|auto]. rewrite Forall_forall in *. intros b Hb. split; [auto|]. apply available_geom. auto.
Qed.
Lemma init_turn :
  alike (fun w w' => listed (jrel th sg) pi (w_joints w) (w_joints w') /\ related la th sg bs bs' js js' (w_joints w) (w_joints w') alone w w')
    (world_init o hd heap bs js dt eps tol fd ps st) (world_init o' hd' heap' bs' js' dt eps tol fd ps st).
Proof.
  pose proof (listed_len _ _ _ _ HBB) as [_ Lb]. destruct bs as [|b0 bs0] eqn:Eb; [destruct bs'; [exact I|discriminate]|]. rewrite <- Eb in *.
  assert (N : bs <> []) by (rewrite Eb; discriminate). assert (N' : bs' <> []) by (intros ->; rewrite Eb in Lb; discriminate). clear Eb b0 bs0.
  destruct (world_init o hd heap bs js dt eps tol fd ps st) as [w|e] eqn:Ew; destruct (world_init o' hd' heap' bs' js' dt eps tol fd ps st) as [w'|e'] eqn:Ew'; pose proof Ew as Fw; pose proof Ew' as Fw'; rewrite init_eq in Ew, Ew' by auto;
    pose proof (listed_mapM _ (jrel th sg) (entry bs) (entry bs') _ _ _ HJJ) as MM;
    assert (JJ : alike (listed (jrel th sg) pi) (mapM (entry bs) js) (mapM (entry bs') js')) by (apply MM; intros j j' _ _ B; destruct (entry_turn _ _ _ _ _ _ HBB round_ids B) as (x & x' & -> & -> & X); exact X); clear MM;
    destruct (mapM (entry bs) js) as [J|] eqn:EJ; destruct (mapM (entry bs') js') as [J'|] eqn:EJ'; try contradiction; try discriminate; cbn [bind alike] in *; try exact I;
    pose proof round_scene_scene as SC; pose proof (scene_turn th _ _ _ _ HBB SC) as SC';
    set (w1 := start heap bs js dt eps tol fd ps st J) in *; set (w1' := start heap' bs' js' dt eps tol fd ps st J') in *;
    pose proof (find_circles gf o w1 (proj1 Ho) (proj1 SC)) as E; pose proof (find_circles gf' o' w1' (proj1 Ho') (proj1 SC')) as E'; rewrite E in Ew; rewrite E' in Ew'; cbn [bind] in Ew, Ew';
    destruct (listed_perm _ _ _ (contacts_match th _ _ _ _ HBB SC o o' 0%nat 0%nat Ho Ho')) as [P HC].
  all: match type of Ew with (if st && negb (no_penetration ?x) then _ else _) = _ => match type of Ew' with (if st && negb (no_penetration ?x') then _ else _) = _ => pose proof (nopen_crel th sg P x x' HC eq_refl) as NP; rewrite NP in Ew'; destruct (st && negb (no_penetration x))%bool; try discriminate; try exact I end end.
  cbn [alike]. injection Ew as Ew. injection Ew' as Ew'.
  assert (Hb : Forall (built bs) js). { apply Forall_forall. intros j Hj. apply In_nth_error in Hj. destruct Hj as [m Em]. destruct (listed_l _ _ _ _ _ _ HJJ Em) as (_ & j' & _ & _ & B). exact (built_left _ _ _ _ B). }
  assert (Hb' : Forall (built bs') js'). { apply Forall_forall. intros j Hj. apply In_nth_error in Hj. destruct Hj as [m Em]. destruct (listed_r _ _ _ _ _ _ HJJ Em) as (_ & j' & _ & _ & B). exact (built_right _ _ _ _ _ _ HBB B). }
  assert (Hn' : NoDup (map b_id bs')) by (apply (Permutation_NoDup (turned_ids _ _ _ _ HBB)), FinFun.Injective_map_NoDup; [exact (v_apart th)|apply round_ids]).
  pose proof (sound_init o hd bs js _ _ _ _ _ _ _ _ (diff_handler_frame gf o) (diff_handler_respects gf o) (proj1 Ho) round_ids Hb Fw) as S.
  pose proof (sound_init o' hd' bs' js' _ _ _ _ _ _ _ _ (diff_handler_frame gf' o') (diff_handler_respects gf' o') (proj1 Ho') Hn' Hb' Fw') as S'.
  destruct (init_valid la _ _ _ _ _ _ _ _ _ _ _ _ (diff_handler_frame gf o) Fw) as [V _]. destruct (init_valid la _ _ _ _ _ _ _ _ _ _ _ _ (diff_handler_frame gf' o') Fw') as [V' _].
  assert (X : w_joints w = J /\ w_joints w' = J') by (rewrite <- Ew, <- Ew'; auto). destruct X as [X X'].
  split; [now rewrite X, X'|]. constructor; auto; rewrite <- ?Ew, <- ?Ew'; auto. exists P. exact HC.
Qed.
Lemma calls_turn ops ops' : Forall2 (same_call th bs bs') ops ops' -> Forall2 (call_turn th sg bs) ops ops'.
Proof.
  intros F. induction F as [|c c' ops ops' Hc F IH]; constructor; auto. clear IH F. destruct c as [f|d|v], c' as [f'|d'|v']; cbn in *; auto. destruct Hc as [L Hc]. split; [exact L|]. intros Lv.
  apply (fu_ext th (length bs) sg); [exact (proj1 HBB)|etransitivity; [exact L|exact Lv]|]. intros k i Ek. destruct (listed_k _ _ _ _ _ _ HBB Ek) as (b & b' & Eb & Eb' & ->). apply (Hc i k b _ Eb Eb'). reflexivity.
Qed.
Lemma contact_same SC w w' J0 J0' : related la th sg bs bs' js js' J0 J0' SC w w' -> forall c c', crel th sg c c' -> same_contact th w w' c c'.
Proof.
  intros H. pose proof (re_b _ _ _ _ _ _ _ _ _ _ _ _ H) as HB.
  assert (G : forall k i, nth_error sg k = Some i -> id_at w' k = option_map (v_name th) (id_at w i)). { intros k i E. destruct (listed_k _ _ _ _ _ _ HB E) as (b & b' & Eb & Eb' & ->). unfold id_at. rewrite Eb, Eb'. reflexivity. }
  intros c c' [(A & B & C & D & E1 & E2)|(A & B & C & D & E1 & E2)]; [left|right]; unfold turned_contact; auto 10.
Qed.
Lemma related_scene SC w w' J0 J0' : listed (jrel th sg) pi J0 J0' -> related la th sg bs bs' js js' J0 J0' SC w w' -> same_scene th w w'.
Proof.
  intros HJ H. split; [apply H|]. split; [exact (perm_listed _ _ _ _ (re_b _ _ _ _ _ _ _ _ _ _ _ _ H))|]. split.
  - pose proof (tw_joints la th sg pi _ _ _ _ _ _ HBB HJ SC w w' H) as T. apply (perm_listed (turned_joint th) pi). apply (listed_map _ _ _ _ _ _ _ T). intros [[j i1] i2] [[j' k1] k2] _ _ (X & _). exact X.
  - destruct (re_c _ _ _ _ _ _ _ _ _ _ _ _ H) as [P HC]. apply (perm_listed _ P). revert HC. apply listed_impl. intros c c' _ _. exact (contact_same _ _ _ _ _ H c c').
Qed.
Lemma session_circ fuel ops ops' : Forall2 (same_call th bs bs') ops ops' ->
  alike (fun w w' => same_scene th w w' /\ Forall circ (w_bodies w)) (do w0 <- world_init o hd heap bs js dt eps tol fd ps st; exec fuel o hd (pdipm_engine la mi) ops w0)
    (do w0 <- world_init o' hd' heap' bs' js' dt eps tol fd ps st; exec fuel o' hd' (pdipm_engine la mi) ops' w0).
Proof.
  intros F. eapply alike_bind; [exact init_turn|]. intros w w' _ _ [HJ H].
  apply (alike_impl (related la th sg bs bs' js js' (w_joints w) (w_joints w') alone)); [intros a a' _ _ X; split; [exact (related_scene _ a a' _ _ HJ X)|apply (re_sc _ _ _ _ _ _ _ _ _ _ _ _ X)]|].
  apply (exec_turn la mi th sg pi HL _ _ _ _ _ _ o o' hd hd' HBB HJ alone alone_step (find_turn la gf gf' th sg _ _ _ _ _ _ o o' Ho Ho')); [exact (calls_turn _ _ F)|exact H].
Qed.
End Session.

(** the scene in another order, turned, with another broad phase *)
Theorem scene_circ la mi gf gf' fuel th o o' heap heap' bs bs' js js' dt eps tol fd ps st ops ops' : lapack_ok la ->
  broadphase_ok o -> broadphase_ok o' -> round_scene eps bs ->
  up_to_order (fun b b' => b' = turn_body th b) bs bs' -> up_to_order (built_alike th bs) js js' -> Forall2 (turned_force th) heap heap' ->
  Forall2 (same_call th bs bs') ops ops' ->
  alike (fun w w' => same_scene th w w' /\ Forall circ (w_bodies w))
    (do w0 <- world_init o (diff_handler gf o) heap bs js dt eps tol fd ps st; exec fuel o (diff_handler gf o) (pdipm_engine la mi) ops w0)
    (do w0 <- world_init o' (diff_handler gf' o') heap' bs' js' dt eps tol fd ps st; exec fuel o' (diff_handler gf' o') (pdipm_engine la mi) ops' w0).
Proof.
  intros HL Ho Ho' Hr HB HJ Hh F. destruct (listed_perm _ _ _ HB) as [sg HS]. destruct (listed_perm _ _ _ HJ) as [pi HP].
  exact (session_circ la mi gf gf' th sg pi HL bs bs' js js' o o' heap heap' dt eps tol fd ps st HS HP Ho Ho' Hh Hr fuel ops ops' F).
Qed.
Theorem scene_session la mi gf gf' fuel th o o' heap heap' bs bs' js js' dt eps tol fd ps st ops ops' : lapack_ok la ->
  broadphase_ok o -> broadphase_ok o' -> round_scene eps bs ->
  up_to_order (fun b b' => b' = turn_body th b) bs bs' -> up_to_order (built_alike th bs) js js' -> Forall2 (turned_force th) heap heap' ->
  Forall2 (same_call th bs bs') ops ops' ->
  alike (same_scene th)
    (do w0 <- world_init o (diff_handler gf o) heap bs js dt eps tol fd ps st; exec fuel o (diff_handler gf o) (pdipm_engine la mi) ops w0)
    (do w0 <- world_init o' (diff_handler gf' o') heap' bs' js' dt eps tol fd ps st; exec fuel o' (diff_handler gf' o') (pdipm_engine la mi) ops' w0).
Proof.
  intros HL Ho Ho' Hr HB HJ Hh F. eapply alike_impl; [|exact (scene_circ la mi gf gf' fuel th o o' heap heap' bs bs' js js' dt eps tol fd ps st ops ops' HL Ho Ho' Hr HB HJ Hh F)]. intros w w' _ _ [H _]. exact H.
Qed.
