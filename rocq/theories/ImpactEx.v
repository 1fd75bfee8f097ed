(** A disc pressed against a disc that is held in place, by a force with a tangential part (example for C75) *)
From Coq Require Import List Arith ZArith Lia Bool Reals Lra.
From Verif Require Import Num Tensor Utils Bodies Forces Constraints Contacts World Lapack LapackRef Pdipm Lcp Engines
     Spec GeoSpec BodySpec JointSpec FreshSpec EngineSpec WellSpec ContactSpec ImpactSpec ResFacts RBase LinAlg LapackSpec PdipmSpec LuFacts HandlerFacts LayoutFacts EngineFacts ContactSys EngineBalance FloatEx RealEx ContactEx RunTotal EngineEx.
Import ListNotations.
Open Scope R_scope.

Definition press : fheap R := [FExt (fun _ => (0, (2, 1))) 1].
Definition ramp_disc : body R := disc 1 2 0 0 (1/2) (1/2).
Definition ramp_discs : list (body R) := [with_forces (disc 0 0 0 0 (1/2) (1/2)) [0%nat]; ramp_disc].
Definition ramp_joints : list (joint R) := [total_init ramp_disc].
Definition ramp_world : world R :=
  mkWorld ramp_discs [(total_init ramp_disc, 1%nat, None)] press 0 (1/2) (1/10) 0 2 false false (cat3 (map b_v ramp_discs)) [touch 0 1] true 3 (world_M ramp_discs) None 1.
Lemma ramp_init : world_init pair_oracle disc_hd press ramp_discs ramp_joints (1/2) (1/10) 0 2 false false = Ok ramp_world.
Proof.
  unfold world_init, ramp_discs.
  match goal with |- context[mapM ?f ramp_joints] => assert (Ej : mapM f ramp_joints = Ok [(total_init ramp_disc, 1%nat, None)]) by reflexivity; rewrite Ej; clear Ej end.
  assert (Es : forallb j_static ramp_joints = true) by reflexivity. assert (En : fold_left (fun n (j : joint R) => (n + j_num j)%nat) ramp_joints 0%nat = 3%nat) by reflexivity.
  rewrite Es, En. cbn [bind]. change (nofZ 0) with (IZR 0).
  unfold set_v. rewrite cat3_length, map_length. cbn [w_bodies length Nat.eqb Nat.mul Nat.add bind].
  unfold find_contacts. cbn [w_bodies with_state w_clk w_eps o_collide pair_oracle].
  change (all_pairs _) with [(0, 1)]%nat. cbn [fold_left].
  unfold disc_hd, diff_handler. cbn -[circle_circle disc world_M ramp_joints total_init ramp_disc].
  match goal with |- context[circle_circle ?a ?b] => change (circle_circle a b) with (circle_circle (disc 0 0 0 0 (1/2) (1/2)) (disc 1 2 0 0 (1/2) (1/2))) end.
  rewrite disc_touch by lra. reflexivity.
Qed.
Lemma ramp_available : Forall available ramp_discs.
Proof.
  apply Forall_cons; [|apply Forall_cons; [apply disc_available|apply Forall_nil]].
  exists (disc 0 0 0 0 (1/2) (1/2)), [BForces [0%nat]]. split; [left|reflexivity]. exists 0%nat, [0; 0], 1, [0; 0; 0], 1, (1/2), (1/2), (1/10). reflexivity.
Qed.
Lemma ramp_session mi : session ref_lapack mi pair_oracle disc_hd ramp_discs ramp_joints ramp_world.
Proof.
  apply (session_history _ _ _ _ _ _ _ 0 10 press (1/2) (1/10) 0 2 false false ramp_world []).
  - left; reflexivity.
  - apply pair_sane.
  - constructor; [cbn; intuition discriminate|constructor; [cbn; tauto|constructor]].
  - constructor; [|constructor]. apply built_total. cbn. tauto.
  - apply ramp_available.
  - apply ramp_init.
  - reflexivity.
Qed.
Lemma ramp_forces : world_apply_forces ramp_world (w_t ramp_world) = Ok [0; 2; 1; 0; 0; 0].
Proof. unfold world_apply_forces, ramp_world. cbn. rnum. repeat (f_equal; try ring). Qed.
(** it rolls *)
Lemma ramp_rolls : response ramp_world (1/2) [- (1/3); 0; 1/3; 0; 0; 0] [(1, - (1/6))].
Proof.
  exists [0; 2; 1; 0; 0; 0], [1/6; -1; - (1/6)]. split; [apply ramp_forces|]. split; [reflexivity|]. split; [|split].
  - split; [reflexivity|]. split; [reflexivity|]. intros x Lx.
    destruct x as [|x0 [|x1 [|x2 [|x3 [|x4 [|x5 [|? ?]]]]]]]; try discriminate.
    unfold kinetic, constraint_velocity, contact_power, component, relative_velocity, point_velocity, v3_at, vget, dot. cbn. rnum. field.
  - unfold constraint_velocity. cbn. rnum. reflexivity.
  - apply Forall2_cons; [|apply Forall2_nil]. assert (A : Rabs (- (1/6)) = 1/6) by (rewrite Rabs_Ropp; apply Rabs_pos_eq; lra).
    constructor; unfold mixed, normal_velocity, slip_velocity, component, relative_velocity, point_velocity, v3_at, vget; cbn; rnum; try lra.
    all: match goal with |- context[Rabs ?x] => replace x with 0 by field; rewrite Rabs_R0 end; lra.
Qed.
