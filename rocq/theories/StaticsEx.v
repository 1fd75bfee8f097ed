(** A disc leaning on a disc that is held in place (example for C79) *)
From Coq Require Import List Arith ZArith Lia Bool Reals Lra.
From Verif Require Import Num Tensor Utils Bodies Forces Constraints Contacts World Lapack LapackRef Pdipm Lcp Engines
     Spec GeoSpec BodySpec JointSpec FreshSpec EngineSpec WellSpec ContactSpec StaticsSpec ResFacts RBase LinAlg LapackSpec PdipmSpec LuFacts HandlerFacts LayoutFacts EngineFacts ContactSys EngineBalance FloatEx RealEx ContactEx RunTotal EngineEx.
Import ListNotations.
Open Scope R_scope.

Section Lean.
Variables (f e : R).
Definition lean : fheap R := [FExt (fun _ => (0, (1, 0))) f].
Definition post : body R := disc 1 2 0 0 e 0.
Definition lean_discs : list (body R) := [with_forces (disc 0 0 0 0 e 0) [0%nat]; post].
Definition lean_joints : list (joint R) := [total_init post].
Definition lean_world : world R :=
  mkWorld lean_discs [(total_init post, 1%nat, None)] lean 0 (1/2) (1/10) 0 2 false false (cat3 (map b_v lean_discs)) [touch 0 1] true 3 (world_M lean_discs) None 1.
Lemma lean_init : world_init pair_oracle disc_hd lean lean_discs lean_joints (1/2) (1/10) 0 2 false false = Ok lean_world.
Proof.
  unfold world_init, lean_discs.
  match goal with |- context[mapM ?f lean_joints] => assert (Ej : mapM f lean_joints = Ok [(total_init post, 1%nat, None)]) by reflexivity; rewrite Ej; clear Ej end.
  assert (Es : forallb j_static lean_joints = true) by reflexivity. assert (En : fold_left (fun n (j : joint R) => (n + j_num j)%nat) lean_joints 0%nat = 3%nat) by reflexivity.
  rewrite Es, En. cbn [bind]. change (nofZ 0) with (IZR 0).
  unfold set_v. rewrite cat3_length, map_length. cbn [w_bodies length Nat.eqb Nat.mul Nat.add bind].
  unfold find_contacts. cbn [w_bodies with_state w_clk w_eps o_collide pair_oracle].
  change (all_pairs _) with [(0, 1)]%nat. cbn [fold_left].
  unfold disc_hd, diff_handler. cbn -[circle_circle disc world_M lean_joints total_init post].
  match goal with |- context[circle_circle ?a ?b] => change (circle_circle a b) with (circle_circle (disc 0 0 0 0 e 0) (disc 1 2 0 0 e 0)) end.
  rewrite disc_touch by lra. reflexivity.
Qed.
Lemma lean_forces t : world_apply_forces lean_world t = Ok [0; f; 0; 0; 0; 0].
Proof. unfold world_apply_forces, lean_world. cbn. rnum. repeat (f_equal; try ring). Qed.
Lemma lean_smooth : smooth 10 lean_discs lean_joints lean_world.
Proof.
  assert (Hp : Forall plain_disc lean_discs) by (apply Forall_list2; [do 6 eexists; reflexivity|exists 1%nat, 2, 0, 0, e, []; reflexivity]). constructor.
  - constructor; [cbn; intuition discriminate|constructor; [cbn; tauto|constructor]].
  - constructor; [|constructor]. apply built_total. cbn. tauto.
  - eapply Forall_impl; [|exact Hp]. apply plain_disc_available.
  - eapply Forall_impl; [|exact Hp]. apply plain_disc_shape.
  - eapply Forall_impl; [|exact Hp]. intros b Hb. now apply plain_disc_mass.
  - eapply Forall_impl; [|exact Hp]. intros b Hb. now apply plain_disc_mass.
  - apply (loop_free_add [] (total_init post) []); [constructor|]. left. exists 1%nat. split; [now left|intros j []].
  - intros t. eexists. apply lean_forces.
  - cbn. lra.
  - reflexivity.
  - reflexivity.
Qed.
Lemma lean_session mi : session ref_lapack mi pair_oracle disc_hd lean_discs lean_joints lean_world.
Proof.
  apply (session_history _ _ _ _ _ _ _ 0 10 lean (1/2) (1/10) 0 2 false false lean_world []).
  - left; reflexivity.
  - apply pair_sane.
  - apply (sm_ids _ _ _ _ lean_smooth).
  - apply (sm_built _ _ _ _ lean_smooth).
  - apply (sm_available _ _ _ _ lean_smooth).
  - apply lean_init.
  - reflexivity.
Qed.
Lemma lean_runs mi fixed : (0 < mi)%nat -> exists w, exec 9 pair_oracle disc_hd (pdipm_engine ref_lapack mi) (map OStep fixed) lean_world = Ok w.
Proof.
  intros Hmi. apply (smooth_steps ref_lapack mi 10 pair_oracle lean_discs lean_joints lean_world ref_lapack_ok Hmi pair_sane lean_smooth lean (1/2) (1/10) 0 2 false false lean_init 9 [] lean_world fixed); [lia|reflexivity].
Qed.
Lemma lean_masses : Forall (fun b : body R => 0 < b_mass b /\ 0 < b_inertia b) lean_discs.
Proof. repeat (apply Forall_cons; [cbn; rnum; lra|]). apply Forall_nil. Qed.
Lemma lean_smoothly : frictionless lean_world.
Proof. intros c [<-|[]]. unfold mixed. cbn. lra. Qed.
Lemma lean_balance : 0 <= f -> equilibrium lean_world [0; f; 0; 0; 0; 0].
Proof.
  intros Hf x (Lx & Cx & Nx). change (length x = 6%nat) in Lx. do 6 (destruct x as [|? x]; [discriminate|]). destruct x; [|discriminate]. clear Lx.
  unfold constraint_velocity in Cx. cbn in Cx. injection Cx as C0 C1 C2. specialize (Nx _ (or_introl eq_refl)).
  unfold normal_velocity, relative_velocity, component, point_velocity, v3_at, vget in Nx. cbn in Nx. unfold dot. cbn. revert C0 C1 C2 Nx. rnum. intros. subst.
  match goal with |- context[_ * 0 + (?a * f + _)] => assert (f * a <= f * 0) by (apply Rmult_le_compat_l; lra); lra end.
Qed.
Lemma lean_carried : 0 <= f -> carried lean_world [0; f; 0; 0; 0; 0] [f] [0; - f; 0].
Proof.
  intros Hf. split; [reflexivity|]. split; [reflexivity|]. split; [now constructor|]. intros x Lx. change (length x = 6%nat) in Lx.
  do 6 (destruct x as [|? x]; [discriminate|]). destruct x; [|discriminate].
  unfold constraint_velocity, contact_power, component, relative_velocity, point_velocity, v3_at, vget, dot. cbn. rnum. ring.
Qed.
End Lean.
