(** C98: no preferred direction, whatever the shapes *)
From Coq Require Import List Arith ZArith Bool Reals Lra Lia.
From Verif Require Import Num Tensor Utils Bodies Forces Constraints Contacts World Lapack LapackRef Pdipm Lcp Engines
     Spec GeoSpec BodySpec JointSpec EngineSpec ContactSpec LapackSpec SymSpec SceneSpec TurnSpec
     RBase ResFacts LuFacts BodyFacts RigidFacts GeomFacts TurnFacts TurnRun FloatEx RealEx ContactEx TurnEx.
Import ListNotations.
Open Scope R_scope.

(** Turning a body (SceneSpec.turn_body) is what set_p does with its pose turned about the origin,
    and its velocity turned. *)
Theorem C98_turning :
  forall th b, available b ->
    turn_body (turned th) b = with_v (set_p b (fst (b_p b) + th, rotate th (b_pos b))) (fst (b_v b), rotate th (snd (b_v b))).
Proof. intros th b H. apply turned_by_api. now apply available_geom. Qed.
Print Assumptions C98_turning.
Example C98_turning_case : exists b, available b /\ b_pos (turn_body (turned (PI / 2)) b) = (-2, 1) /\ b_verts (turn_body (turned (PI / 2)) b) = [(-1, 2); (-1, -2); (1, -2); (1, 2)].
Proof.
  destruct (rect_ex 0 1 2 4 2) as (b & H); [lra|lra|]. exists b. split; [eapply plain_available; eauto|].
  unfold turn_body, b_pos, b_verts. cbn [b_p b_kind turn_pose snd]. rewrite (pr_kind _ _ _ _ _ _ H). cbn [turn_kind]. change (snd (b_p b)) with (b_pos b). rewrite (pr_pos _ _ _ _ _ _ H).
  unfold corners. cbn [map]. unfold place, rotate. cbn [turned v_mirror v_angle fst snd]. rewrite cos_PI2, sin_PI2. split; [f_equal; lra|]. repeat (apply f_equal2; [f_equal; lra|]). reflexivity.
Qed.

(** Contact detection has no preferred direction: for any two bodies of any shapes, convex or not, and
    whatever vertex the nearest-point loop starts from, turning both about the origin turns the contacts
    found, keeps the penetrations, and raises the same errors. *)
Theorem C98_contacts :
  forall th gf o o' eps clk bs i j,
    (forall k n, o_choice o' k n = o_choice o k n) ->
    diff_handler gf o' eps clk (map (turn_body (turned th)) bs) i j = turned_outcome th (diff_handler gf o eps clk bs i j).
Proof. intros th gf o o' eps clk bs i j H. rewrite (spin_handler th gf o o' eps clk bs i j H). destruct (diff_handler gf o eps clk bs i j) as [[[cs bs'] k]|]; reflexivity. Qed.
Print Assumptions C98_contacts.

(** Nor do whole simulations: turning the bodies, the anchors of the constraints, the forces and the
    velocities given later turns every later state, its contacts included, or both runs raise.  The broad
    phase must report the same candidate pairs for the turned scene; X and Y constraints name axes, so they
    are allowed only if the angle is a multiple of a half turn (SceneSpec.built_alike). *)
Theorem C98_session :
  forall th la mi gf fuel o o' heap heap' bs js js' dt eps tol fd ps st ops,
    lapack_ok la -> broadphase_sane o -> broadphase_sane o' -> turned_oracle th o o' ->
    Forall available bs -> NoDup (map b_id bs) -> Forall2 (built_alike (turned th) bs) js js' -> Forall2 (turned_force (turned th)) heap heap' ->
    alike (turned_world th)
      (do w0 <- world_init o (diff_handler gf o) heap bs js dt eps tol fd ps st; exec fuel o (diff_handler gf o) (pdipm_engine la mi) ops w0)
      (do w0 <- world_init o' (diff_handler gf o') heap' (map (turn_body (turned th)) bs) js' dt eps tol fd ps st;
       exec fuel o' (diff_handler gf o') (pdipm_engine la mi) (map (turned_call th (length bs)) ops) w0).
Proof. intros. apply session_turned; auto. eapply Forall_impl; [|eassumption]. apply available_geom. Qed.
Print Assumptions C98_session.
(** a box held in place and a box that overlaps it, with any velocities and any number of steps *)
Example C98_session_case : forall v fixed, length v = 6%nat -> exists bs js w0 w, box_on_box bs js /\ Forall available bs /\ NoDup (map b_id bs) /\
  broadphase_sane (pair_oracle (T := R)) /\ (forall th, turned_oracle th pair_oracle pair_oracle) /\
  (forall th, Forall2 (built_alike (turned th) bs) js (map (fun b => total_init (turn_body (turned th) b)) (firstn 1 bs))) /\
  world_init pair_oracle (diff_handler 18 pair_oracle) [] bs js (1/2) (1/10) 0 2 false false = Ok w0 /\ w_contacts w0 <> [] /\
  exec 9 pair_oracle (diff_handler 18 pair_oracle) (pdipm_engine ref_lapack 10) (OSetV v :: map OStep fixed) w0 = Ok w.
Proof.
  intros v fixed H. destruct (box_on_box_runs v fixed H) as (bs & js & w0 & w & H1 & H2 & H3 & H4 & H5 & H6 & H7). exists bs, js, w0, w.
  split; [exact H1|]. split; [exact H2|]. split; [exact H3|]. split; [apply pair_sane|]. split; [apply pair_turned|]. split; [exact H4|]. split; [exact H5|]. split; [exact H6|exact H7].
Qed.
