(** C64: the contact problem *)
From Coq Require Import List Arith ZArith Lia Bool Reals Lra.
From Verif Require Import Num Tensor Utils Bodies Forces Constraints Contacts World Lapack LapackRef Pdipm Lcp Engines
     Spec GeoSpec BodySpec JointSpec FreshSpec EngineSpec WellSpec ContactSpec LapackSpec KktSpec PdipmSpec
     RBase ResFacts LinAlg LuFacts HandlerFacts EngineFacts ContactSys EngineBalance EngineProps EngineMore RunTotal FloatEx RealEx ContactEx EngineEx MomentumFacts HeldFacts FreeFacts FlightFacts WellFacts WellSolve WellProps WellEx.
Import ListNotations.
Open Scope R_scope.

(** C64.  The solutions of the problem handed to the LCP solver are exactly the responses physics
    allows - Newton's law, the constraints, Newton's restitution and Coulomb's friction: every solution
    is a response and no response is lost. *)
Theorem C64_solutions :
  forall la mi bs js w dt v imps,
    engine_world la mi bs js w -> w_fric_dirs w = 2%nat -> w_contacts w <> [] ->
    (response w dt v imps <->
     exists it, solves_engine w dt it /\ vopp (i_x it) = v /\ impulses (length (w_contacts w)) (i_z it) = imps).
Proof. exact solutions. Qed.
Print Assumptions C64_solutions.
(** Without friction there is at most one response ... *)
Theorem C64_unique :
  forall la mi bs js w dt v imps v' imps',
    engine_world la mi bs js w -> massive w -> frictionless w ->
    response w dt v imps -> response w dt v' imps' -> v = v'.
Proof. exact unique. Qed.
Print Assumptions C64_unique.
(** ... and there is one exactly when some velocity respects the constraints and all restitutions at once. *)
Theorem C64_exists :
  forall la mi bs js w dt f,
    engine_world la mi bs js w -> massive w -> frictionless w -> world_apply_forces w (w_t w) = Ok f ->
    ((exists v imps, response w dt v imps) <-> exists v, allowed w v).
Proof. exact existence. Qed.
Print Assumptions C64_exists.
(** With one restitution at all contacts and constraints that hold, there is exactly one. *)
Theorem C64_uniform :
  forall la mi bs js w dt f e,
    engine_world la mi bs js w -> massive w -> frictionless w -> world_apply_forces w (w_t w) = Ok f ->
    (forall c, In c (w_contacts w) -> mixed w b_rest c = e) ->
    constraint_velocity w (w_v w) = vzeros (w_num_constraints w) ->
    exists v imps, response w dt v imps /\ forall v' imps', response w dt v' imps' -> v' = v.
Proof. exact uniform. Qed.
Print Assumptions C64_uniform.
(** The velocity the engine returns is close to the response: the kinetic energy of the difference is at
    most the residual times the impulses involved and the size of the difference. *)
Theorem C64_returned :
  forall la mi bs js w dt v c,
    lapack_ok la -> engine_world la mi bs js w -> massive w -> frictionless w -> w_contacts w <> [] ->
    solve_dynamics la mi w dt = Ok (v, c) ->
    exists it r, engine_point la mi w dt it r /\ v = vopp (i_x it) /\
      forall v' imps', response w dt v' imps' ->
        kinetic w (vsub v v') (vsub v v') <=
        r * (slack (length (w_contacts w)) (i_z it) + Rsum (map fst imps') + slip_total w (vsub v v') + norm2 (vsub v v')).
Proof. exact returned_near. Qed.
Print Assumptions C64_returned.
(** Without contacts it is the response. *)
Theorem C64_no_contacts :
  forall la mi bs js w dt v c,
    lapack_ok la -> engine_world la mi bs js w -> w_contacts w = [] ->
    solve_dynamics la mi w dt = Ok (v, c) -> response w dt v [].
Proof. exact no_contacts. Qed.
Print Assumptions C64_no_contacts.
(** Any problem handed to the LCP solver directly: with Q positive definite and F monotone two solutions
    have the same unknowns. *)
Theorem C64_lcp_unique :
  forall nz nineq neq pr it it',
    sized nz nineq neq pr ->
    (forall x, length x = nz -> x <> vzeros nz -> 0 < dot x (mv (pr_Q pr) x)) ->
    (forall z, length z = nineq -> 0 <= dot z (mv (pr_F pr) z)) ->
    solves_lcp nz nineq neq pr it -> solves_lcp nz nineq neq pr it' -> i_x it = i_x it'.
Proof. exact lcp_unique. Qed.
Print Assumptions C64_lcp_unique.
(** Existence fails: a disc between two discs held in place moves off the left one, which it touches with
    restitution 1/2, and hits the right one with restitution 1.  No velocity satisfies both contacts, yet
    steps return, however many are taken. *)
Theorem C64_refuted :
  exists bs js w, session ref_lapack 10 pair_oracle disc_hd bs js w /\ massive w /\ frictionless w /\
    (forall v, ~ allowed w v) /\ (forall dt v imps, ~ response w dt v imps) /\
    forall fixed, exists w', exec 9 pair_oracle disc_hd (pdipm_engine ref_lapack 10) (map OStep fixed) w = Ok w'.
Proof.
  exists (slot_discs 1 0 0 1 1 0), (slot_joints 0 1 0), (slot_world 1 0 0 1 1 0). split; [apply slot_session|]. split; [apply slot_massive|].
  split; [intros c [<-|[<-|[]]]; unfold mixed; cbn; lra|]. split; [apply slot_impossible|].
  split; [intros dt v imps H; exact (slot_impossible v (response_allowed _ _ _ _ H))|]. intros fixed. apply slot_runs. lia.
Qed.
Print Assumptions C64_refuted.
(** Uniqueness fails with friction: a disc sliding between two discs held in place may slide on unhindered
    or stop dead. *)
Theorem C64_friction_refuted :
  exists bs js w dt v imps v' imps', session ref_lapack 10 pair_oracle disc_hd bs js w /\ massive w /\
    response w dt v imps /\ response w dt v' imps' /\ v = w_v w /\ v' = vzeros 9 /\ v <> v'.
Proof.
  exists (slot_discs 0 1 0 0 0 (1/2)), (slot_joints 0 0 (1/2)), sliding, (1/2), [0; 0; 0; 0; 0; 1; 0; 0; 0], [(0, 0); (0, 0)], (vzeros 9), [(1, 1/2); (1, -1/2)].
  split; [apply slot_session|]. split; [apply slot_massive|]. split; [apply sliding_on|]. split; [apply sliding_stops|]. split; [reflexivity|]. split; [reflexivity|].
  intros H. injection H. intros. lra.
Qed.
Print Assumptions C64_friction_refuted.

(** a disc falls into the slot between two held discs, all with restitution 1/2, and hits the right one *)
Definition C64_slot : world R := slot_world 1 2 (1/2) (1/2) (1/2) 0.
Example C64_case :
  engine_world ref_lapack 10 (slot_discs 1 2 (1/2) (1/2) (1/2) 0) (slot_joints (1/2) (1/2) 0) C64_slot /\ massive C64_slot /\ frictionless C64_slot /\
  w_fric_dirs C64_slot = 2%nat /\ w_contacts C64_slot = [touch 0 1; touch 1 2] /\ world_apply_forces C64_slot (w_t C64_slot) = Ok (vzeros 9) /\
  (forall c, In c (w_contacts C64_slot) -> mixed C64_slot b_rest c = 1/2) /\ constraint_velocity C64_slot (w_v C64_slot) = vzeros 6.
Proof.
  split; [eapply session_world; apply slot_session|]. split; [apply slot_massive|]. split; [intros c [<-|[<-|[]]]; unfold mixed; cbn; lra|].
  split; [reflexivity|]. split; [reflexivity|]. split; [apply slot_forces|]. split; [intros c [<-|[<-|[]]]; unfold mixed; cbn; lra|].
  unfold constraint_velocity. cbn. rnum. reflexivity.
Qed.
Example C64_returned_case : exists v c, solve_dynamics ref_lapack 10 C64_slot (1/2) = Ok (v, c).
Proof.
  destruct (slot_runs 1 2 (1/2) (1/2) (1/2) 10 [false]) as [w H]; [lia|]. cbn [map exec] in H. unfold step in H. bind_inv H as w1 E. clear H.
  destruct (step_dt_v _ _ _ _ _ _ _ E) as (v & c & Es & _). exists v, c. exact Es.
Qed.
Example C64_no_contacts_case : exists v c, engine_world ref_lapack 10 falling_discs [] falling_world /\ w_contacts falling_world = [] /\
  solve_dynamics ref_lapack 10 falling_world (1/2) = Ok (v, c).
Proof.
  destruct (falling_runs 10 [false]) as [w H]; [lia|]. cbn [map exec] in H. unfold step in H. bind_inv H as w1 E. clear H.
  destruct (step_dt_v _ _ _ _ _ _ _ E) as (v & c & Es & _). exists v, c.
  split; [eapply session_world; apply falling_session|]. split; [reflexivity|exact Es].
Qed.
(** two unknowns, one inequality *)
Example C64_lcp_case : exists pr : prob R, sized 2 1 0 pr /\
  (forall x, length x = 2%nat -> x <> vzeros 2 -> 0 < dot x (mv (pr_Q pr) x)) /\ (forall z, length z = 1%nat -> 0 <= dot z (mv (pr_F pr) z)) /\
  solves_lcp 2 1 0 pr (mkIter [-1; 0] [0] [1] []).
Proof.
  exists (mkProb [[2; 0]; [0; 1]] [1; 0] [[1; 0]] [-1] [] [] [[0]]). split; [|split; [|split]].
  - assert (W : forall m n (A : matR), length A = m -> Forall (fun r => length r = n) A -> wf m n A) by (intros; split; assumption).
    split; try reflexivity. split; [split; [|cbn; rnum; reflexivity]|..]; apply W; cbn; repeat constructor.
  - intros x Lx Nx. destruct x as [|a [|b [|? ?]]]; try discriminate. unfold dot. cbn. rnum.
    destruct (Req_dec a 0) as [->|Ha]; [destruct (Req_dec b 0) as [->|Hb]; [elim Nx; reflexivity|]|].
    + pose proof (Rlt_0_sqr b Hb). unfold Rsqr in *. lra.
    + pose proof (Rlt_0_sqr a Ha). pose proof (Rle_0_sqr b). unfold Rsqr in *. lra.
  - intros z Lz. destruct z as [|a [|? ?]]; try discriminate. unfold dot. cbn. rnum. lra.
  - split; cbn; rnum.
    + split; reflexivity.
    + repeat (f_equal; try lra).
    + repeat (f_equal; try lra).
    + reflexivity.
    + constructor; [lra|constructor].
    + constructor; [lra|constructor].
    + intros i. destruct i as [|i]; unfold vget; cbn; rnum; [ring|destruct i; ring].
Qed.
