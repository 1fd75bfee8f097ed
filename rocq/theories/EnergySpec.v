(** Whole runs, step by step, with the solver's error in each step *)
From Coq Require Import List Reals.
From Verif Require Import Num Tensor Bodies Constraints Contacts World Lapack Pdipm Engines Spec LinAlg PdipmSpec LapackSpec EngineSpec.
Import ListNotations.
Open Scope R_scope.

(** The world goes from [w] to [w'] by calls of step_dt.  [errs] has one number per call: 0 if
    there were no contacts, otherwise [cost w x z r] for the velocities [x], the contact impulses [z] and
    the residual [r] of the point the solver returned. *)
Inductive run (la : lapack R) (mi fuel : nat) (o : oracle R) (hd : handler R) (cost : world R -> vec R -> vec R -> R -> R)
  : world R -> list R -> world R -> Prop :=
| run_end w : run la mi fuel o hd cost w [] w
| run_free w dt w1 errs w' :
    w_contacts w = [] -> step_dt fuel o hd (pdipm_engine la mi) w dt = Ok w1 ->
    run la mi fuel o hd cost w1 errs w' -> run la mi fuel o hd cost w (0 :: errs) w'
| run_contacts w dt it r w1 errs w' :
    w_contacts w <> [] -> step_dt fuel o hd (pdipm_engine la mi) w dt = Ok w1 -> engine_point la mi w dt it r -> w_v w1 = vopp (i_x it) ->
    run la mi fuel o hd cost w1 errs w' -> run la mi fuel o hd cost w (cost w (vopp (i_x it)) (i_z it) r :: errs) w'.

(** residual times impulses and speeds *)
Definition inelastic_cost (w : world R) (x z : vec R) (r : R) : R := r * (slack (length (w_contacts w)) z + norm2 x).
Definition frictionless_cost (e : R) (w : world R) (x z : vec R) (r : R) : R :=
  r * (slack (length (w_contacts w)) z + slip_total w x + e * slip_total w (w_v w) + norm2 x + e * norm2 (w_v w)) / (1 + e).
(** constraints that tie a body to the ground in a direction or in rotation *)
Definition grounded (j : joint R) : Prop := match j_kind j with JX | JY | JRot | JTotal => True | _ => False end.
