(** * C37 over whole runs *)
From Coq Require Import List Arith ZArith Bool Reals Lra Lia.
From Verif Require Import Num Tensor Utils Bodies Forces Constraints Contacts World Lapack Pdipm Lcp Engines Spec JointSpec LapackSpec LapackRef EngineSpec EnergySpec GeoSpec RBase LinAlg FloatEx EngineEx EnergyRun.
Import ListNotations.
Open Scope R_scope.

(** C37.  Without external forces and with restitution 0, whatever friction and constraints: over any
    run that does not set velocities from outside, kinetic energy grows by no more than the sum, over the
    steps with contacts, of the solver's residual times impulses and speeds. *)
Theorem C37_history_inelastic :
  forall la mi o hd bs js w fuel ops w',
    lapack_ok la -> session la mi o hd bs js w ->
    Forall (fun b => 0 <= b_mass b /\ 0 <= b_inertia b) bs -> Forall (fun b => b_forces b = []) bs -> Forall (fun b => b_rest b = 0) bs ->
    undisturbed ops -> exec fuel o hd (pdipm_engine la mi) ops w = Ok w' ->
    exists errs, run la mi fuel o hd inelastic_cost w errs w' /\ kinetic_energy w' (w_v w') <= kinetic_energy w (w_v w) + Rsum errs.
Proof. intros la mi o hd bs js w fuel ops w' HL Hs Hm Hn. exact (energy_run_inelastic la mi fuel o hd bs js HL Hm Hn ops w w' Hs). Qed.
Print Assumptions C37_history_inelastic.
(** The same without friction if all bodies have one restitution in [0, 1] and the constraints only tie
    bodies to the ground (walls, floors, rails). *)
Theorem C37_history_frictionless :
  forall la mi o hd bs js w fuel ops w' e,
    lapack_ok la -> session la mi o hd bs js w ->
    Forall (fun b => 0 <= b_mass b /\ 0 <= b_inertia b) bs -> Forall (fun b => b_forces b = []) bs ->
    0 <= e <= 1 -> Forall (fun b => b_rest b = e /\ b_fric b = 0) bs ->
    Forall grounded js -> constraint_velocity w (w_v w) = vzeros (w_num_constraints w) ->
    undisturbed ops -> exec fuel o hd (pdipm_engine la mi) ops w = Ok w' ->
    exists errs, run la mi fuel o hd (frictionless_cost e) w errs w' /\ kinetic_energy w' (w_v w') <= kinetic_energy w (w_v w) + Rsum errs.
Proof. intros la mi o hd bs js w fuel ops w' e HL Hs Hm Hn He. exact (fun Hr Hg Hc Hu => energy_run_frictionless la mi fuel o hd bs js HL Hm Hn e ops w w' Hs He Hr Hg Hc Hu). Qed.
Print Assumptions C37_history_frictionless.
(** two discs that touch while approaching, for any number of steps, with any restitution in [0, 1] *)
Example C37_history_case : forall e fixed, 0 <= e <= 1 -> exists w',
  session ref_lapack 10 pair_oracle disc_hd (two_discs 1 10 e 0 (-1) 0 e 0) [] (two_disc_world 1 10 e 0 (-1) 0 e 0) /\
  Forall (fun b => 0 <= b_mass b /\ 0 <= b_inertia b) (two_discs 1 10 e 0 (-1) 0 e 0) /\
  Forall (fun b => b_forces b = []) (two_discs 1 10 e 0 (-1) 0 e 0) /\ Forall (fun b => b_rest b = e /\ b_fric b = 0) (two_discs 1 10 e 0 (-1) 0 e 0) /\
  constraint_velocity (two_disc_world 1 10 e 0 (-1) 0 e 0) (w_v (two_disc_world 1 10 e 0 (-1) 0 e 0)) = vzeros (w_num_constraints (two_disc_world 1 10 e 0 (-1) 0 e 0)) /\
  w_contacts (two_disc_world 1 10 e 0 (-1) 0 e 0) = [touch 0 1] /\ undisturbed (map OStep fixed) /\
  exec 9 pair_oracle disc_hd (pdipm_engine ref_lapack 10) (map OStep fixed) (two_disc_world 1 10 e 0 (-1) 0 e 0) = Ok w'.
Proof.
  intros e fixed He. destruct (two_runs 1 10 e (-1) 0 e 10 fixed) as [w' H]; [lia|]. exists w'. split; [apply two_session|]. split; [repeat (apply Forall_cons; [cbn; rnum; lra|]); apply Forall_nil|].
  split; [repeat constructor|]. split; [repeat constructor|]. split; [reflexivity|]. split; [reflexivity|]. split; [|exact H].
  unfold undisturbed. apply Forall_map, Forall_forall. intros x _. exact I.
Qed.
