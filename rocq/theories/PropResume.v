(** C89: A run can be interrupted and resumed *)
From Coq Require Import List Arith ZArith Bool Reals Lra Lia Floats.
From Verif Require Import Num Tensor Utils Bodies Forces Constraints Contacts World Lapack LapackRef LapackSpec Pdipm Lcp Engines Spec GeoSpec BodySpec JointSpec FreshSpec EngineSpec ContactSpec ResumeSpec
     RBase ResFacts LuFacts WorldFacts RunTotal EnergyRun ResumeFacts ResumeRun FloatEx RealEx ContactEx EngineEx AssemblyEx.
Import ListNotations.
Open Scope R_scope.

(** C89.  A simulation stopped at any moment and continued by a new World, made of the same bodies and constraints with the same
    settings, and force objects that know the clock starts again at 0: every further sequence of calls has the outcome it would have
    had in the old world: the same bodies, joints, velocities and contacts, or the same exception, and a clock that is w.t behind.  The new world's
    look at the scene must give what the old world's last look gave (it does whenever no tie is remembered, C87). *)
Theorem C89_resume :
  forall la mi o hd bs js w w', session la mi o hd bs js w -> repeatable o ->
    rebuild o hd (delayed (w_t w) (w_heap w)) w = Ok w' ->
    w_bodies w' = w_bodies w -> w_contacts w' = w_contacts w ->
    forall fuel ops, same_outcome (w_t w) (exec fuel o hd (pdipm_engine la mi) ops w) (exec fuel o hd (pdipm_engine la mi) ops w').
Proof. exact resume. Qed.
Print Assumptions C89_resume.
(** With ODE's contact callback, or circles only, the second look always gives the same, and the constructor succeeds (in a strict world:
    if there is no post-stabilisation, or the state is free of penetration all the same). *)
Theorem C89_discs :
  forall la mi o hd bs js w, session la mi o hd bs js w -> repeatable o -> hd = ode_handler o \/ Forall (fun b => is_circle b = true) bs ->
    (w_strict w = true -> w_post_stab w = false \/ Forall (fun c => c_pen c <= w_tol w) (w_contacts w)) ->
    exists w', rebuild o hd (delayed (w_t w) (w_heap w)) w = Ok w' /\
      forall fuel ops, same_outcome (w_t w) (exec fuel o hd (pdipm_engine la mi) ops w) (exec fuel o hd (pdipm_engine la mi) ops w').
Proof. exact resume_strict. Qed.
Print Assumptions C89_discs.
(** a disc hitting a dumb-bell that is being pushed, interrupted after one step with fixed_dt *)
Example C89_case : forall vx e, exists w w',
  session ref_lapack 10 pair_oracle disc_hd (dumb_discs vx e) (dumb_joints e) w /\ repeatable (T := R) pair_oracle /\
  Forall (fun b => is_circle b = true) (dumb_discs vx e) /\ (w_strict w = true -> w_post_stab w = false) /\ 1 / 2 <= w_t w /\
  rebuild pair_oracle disc_hd (delayed (w_t w) (w_heap w)) w = Ok w' /\ w_bodies w' = w_bodies w /\ w_contacts w' = w_contacts w.
Proof.
  intros vx e. set (f := 3). set (w0 := dumb_world f vx e).
  destruct (smooth_steps ref_lapack 10 10 pair_oracle _ _ w0 ref_lapack_ok ltac:(lia) pair_sane (dumb_smooth f vx e) (dumb_heap f) (1/2) (1/10) 0 2 false false (dumb_init f vx e) 9 [] w0 [true]) as [w E]; [lia|reflexivity|].
  assert (Ho : repeatable (T := R) pair_oracle) by (intros k k'; repeat split). assert (Hd : Forall (fun b : body R => is_circle b = true) (dumb_discs vx e)) by (repeat (constructor; [reflexivity|]); constructor).
  assert (Hs : session ref_lapack 10 pair_oracle disc_hd (dumb_discs vx e) (dumb_joints e) w) by exact (session_later _ _ _ _ _ _ _ _ _ _ (dumb_session f vx e 10) E).
  assert (Hps : w_strict w = true -> w_post_stab w = false).
  { intros X. pose proof (exec_cfg _ _ _ _ _ _ _ E) as HC. cfg_fields HC. assert (Y : w_strict w = w_strict w0) by congruence. rewrite Y in X. discriminate. }
  assert (Hst : w_strict w = true -> Forall (fun c => c_pen c <= w_tol w) (w_contacts w)).
  { intros X. pose proof (exec_cfg _ _ _ _ _ _ _ E) as HC. cfg_fields HC. assert (Y : w_strict w = w_strict w0) by congruence. rewrite Y in X. discriminate. }
  destruct (resume_discs _ _ _ _ _ _ _ Hs Ho (or_intror Hd) Hst) as (w' & HR & HO). destruct (HO 0%nat []) as (B & _ & _ & C & _). exists w, w'.
  split; [exact Hs|]. split; [exact Ho|]. split; [exact Hd|]. split; [exact Hps|]. split; [|auto].
  cbn [map exec] in E. unfold step in E. bind_inv E as w1 E1. injection E as <-. revert E1. change (w_t w0) with 0. change (w_dt w0) with (1/2).
  match goal with |- fixed_loop ?n ?l ?o ?h ?en ?t ?a = Ok ?b -> _ => assert (G : forall m x, fixed_loop m l o h en t x = Ok b -> t <= w_t b) end.
  { induction m as [|m IH]; intros x Hx; [discriminate|]. cbn [fixed_loop] in Hx. rnum. destruct (Rltb_spec (w_t x) (0 + 1/2)) as [L|L]; [bind_inv Hx as y Ey; eauto|]. injection Hx as <-. exact L. }
  intros E1. apply G in E1. revert E1. rnum. lra.
Qed.

(** Finding: the package gives no way to set the clock, so with the force objects themselves a force that depends on time starts over.
    A disc pushed by hor_impulse (which acts until t = 0.1), after three steps of 1/16; the rebuilt world pushes it again. *)
Open Scope float_scope.
Definition pushed_disc : res (world float) :=
  do b <- circle_init 0 [0; 0] 1 [0; 0; 0] 1 0 0 0.125;
  do a <- add_force [FExt hor_impulse 8] b 0;
  world_init pair_oracle (diff_handler 10 pair_oracle) (fst a) [snd a] [] 0.0625 0.125 0.125 2 false true.
Definition go_on (n : nat) (w : world float) : res (world float) :=
  exec 5 pair_oracle (diff_handler 10 pair_oracle) ref_engine (repeat (OStep false) n) w.
Theorem C89_clock_refuted :
  exists w0 w w' x x', pushed_disc = Ok w0 /\ go_on 3 w0 = Ok w /\
    rebuild pair_oracle (diff_handler 10 pair_oracle) (w_heap w) w = Ok w' /\
    w_bodies w' = w_bodies w /\ w_contacts w' = w_contacts w /\
    go_on 1 w = Ok x /\ go_on 1 w' = Ok x' /\
    w_v x = w_v w /\ ((vget (w_v w) 1 =? 1) && (vget (w_v x') 1 =? 1.5))%bool = true.
Proof.
  do 5 eexists. split; [vm_compute; reflexivity|]. split; [vm_compute; reflexivity|]. split; [vm_compute; reflexivity|]. split; [vm_compute; reflexivity|]. split; [vm_compute; reflexivity|].
  split; [vm_compute; reflexivity|]. split; [vm_compute; reflexivity|]. split; vm_compute; reflexivity.
Qed.
Print Assumptions C89_clock_refuted.
Close Scope float_scope.
