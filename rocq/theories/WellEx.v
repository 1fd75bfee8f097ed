(** A disc between two discs that are held in place *)
From Coq Require Import List Arith ZArith Lia Bool Reals Lra.
From Verif Require Import Num Tensor Utils Bodies Forces Constraints Contacts World Lapack LapackRef Pdipm Lcp Engines
     Spec GeoSpec BodySpec JointSpec FreshSpec EngineSpec WellSpec ContactSpec ResFacts RBase LinAlg LapackSpec PdipmSpec LuFacts HandlerFacts LayoutFacts EngineFacts ContactSys EngineBalance FloatEx RealEx ContactEx RunTotal EngineEx.
Import ListNotations.
Open Scope R_scope.

Section Slot.
Variables (vx vy e0 e1 e2 mu : R).
Definition held_left : body R := disc 0 0 0 0 e0 mu.
Definition held_right : body R := disc 2 4 0 0 e2 mu.
Definition slot_discs : list (body R) := [held_left; disc 1 2 vx vy e1 mu; held_right].
Definition slot_joints : list (joint R) := [total_init held_left; total_init held_right].
Definition slot_world : world R :=
  mkWorld slot_discs [(total_init held_left, 0%nat, None); (total_init held_right, 2%nat, None)] [] 0 (1/2) (1/10) 0 2 false false
    (cat3 (map b_v slot_discs)) [touch 0 1; touch 1 2] true 6 (world_M slot_discs) None 1.
Lemma slot_init : world_init pair_oracle disc_hd [] slot_discs slot_joints (1/2) (1/10) 0 2 false false = Ok slot_world.
Proof.
  unfold world_init, slot_discs.
  match goal with |- context[mapM ?f slot_joints] => assert (Ej : mapM f slot_joints = Ok [(total_init held_left, 0%nat, None); (total_init held_right, 2%nat, None)]) by reflexivity; rewrite Ej; clear Ej end.
  assert (Es : forallb j_static slot_joints = true) by reflexivity. assert (En : fold_left (fun n (j : joint R) => (n + j_num j)%nat) slot_joints 0%nat = 6%nat) by reflexivity.
  rewrite Es, En. cbn [bind]. change (nofZ 0) with (IZR 0).
  unfold set_v. rewrite cat3_length, map_length. cbn [w_bodies length Nat.eqb Nat.mul Nat.add bind].
  unfold find_contacts. cbn [w_bodies with_state w_clk w_eps o_collide pair_oracle].
  change (all_pairs _) with [(0, 1); (0, 2); (1, 2)]%nat. cbn [fold_left].
  cbn [map mapi mapi_from]. unfold held_left, held_right.
  change (with_v (disc 0 0 0 0 e0 mu) _) with (disc 0 0 0 0 e0 mu). change (with_v (disc 1 2 vx vy e1 mu) _) with (disc 1 2 vx vy e1 mu). change (with_v (disc 2 4 0 0 e2 mu) _) with (disc 2 4 0 0 e2 mu).
  unfold disc_hd. cbn [bind]. erewrite (disc_call 10 pair_oracle (1/10) _ _ 0 1) by reflexivity. cbn [bind]. erewrite (disc_call 10 pair_oracle (1/10) _ _ 0 2) by reflexivity. cbn [bind].
  erewrite (disc_call 10 pair_oracle (1/10) _ _ 1 2) by reflexivity. cbn [bind].
  rewrite (disc_touch 0 1 0 2), (disc_far 0 2 0 4), (disc_touch 1 2 2 4) by lra. reflexivity.
Qed.
Lemma slot_ids : NoDup (map b_id slot_discs).
Proof. constructor; [cbn; intuition discriminate|constructor; [cbn; intuition discriminate|constructor; [cbn; tauto|constructor]]]. Qed.
Lemma slot_built : Forall (built slot_discs) slot_joints.
Proof. constructor; [|constructor; [|constructor]]; apply built_total; cbn; tauto. Qed.
Lemma slot_available : Forall available slot_discs.
Proof. unfold slot_discs, held_left, held_right. repeat (apply Forall_cons; [apply disc_available|]). apply Forall_nil. Qed.
Lemma slot_session mi : session ref_lapack mi pair_oracle disc_hd slot_discs slot_joints slot_world.
Proof.
  apply (session_history _ _ _ _ _ _ _ 0 10 [] (1/2) (1/10) 0 2 false false slot_world []); [left; reflexivity|apply pair_sane|apply slot_ids|apply slot_built|apply slot_available|apply slot_init|reflexivity].
Qed.
Lemma slot_forces : world_apply_forces slot_world (w_t slot_world) = Ok (vzeros 9).
Proof. unfold world_apply_forces. cbn. rnum. reflexivity. Qed.
Lemma slot_massive : massive slot_world.
Proof. unfold massive. repeat (apply Forall_cons; [cbn; rnum; lra|]). apply Forall_nil. Qed.
End Slot.
Lemma slot_smooth vx vy e0 e1 e2 : smooth 10 (slot_discs vx vy e0 e1 e2 0) (slot_joints e0 e2 0) (slot_world vx vy e0 e1 e2 0).
Proof.
  assert (Hp : Forall plain_disc (slot_discs vx vy e0 e1 e2 0)) by (repeat (apply Forall_cons; [do 6 eexists; reflexivity|]); apply Forall_nil). constructor.
  - apply slot_ids.
  - apply slot_built.
  - apply slot_available.
  - eapply Forall_impl; [|exact Hp]. apply plain_disc_shape.
  - eapply Forall_impl; [|exact Hp]. intros b Hb. now apply plain_disc_mass.
  - eapply Forall_impl; [|exact Hp]. intros b Hb. now apply plain_disc_mass.
  - unfold slot_joints. apply (loop_free_add [] (total_init (held_left e0 0)) [total_init (held_right e2 0)]).
    + apply (loop_free_add [] (total_init (held_right e2 0)) []); [constructor|]. left. exists 2%nat. split; [now left|intros j []].
    + left. exists 0%nat. split; [now left|]. intros j [<-|[]]. cbn. intros [H|H]; discriminate.
  - intros t. eexists. unfold world_apply_forces. reflexivity.
  - cbn. lra.
  - reflexivity.
  - reflexivity.
Qed.
Lemma slot_runs vx vy e0 e1 e2 mi fixed : (0 < mi)%nat -> exists w, exec 9 pair_oracle disc_hd (pdipm_engine ref_lapack mi) (map OStep fixed) (slot_world vx vy e0 e1 e2 0) = Ok w.
Proof.
  intros Hmi. apply (smooth_steps ref_lapack mi 10 pair_oracle _ _ _ ref_lapack_ok Hmi pair_sane (slot_smooth vx vy e0 e1 e2) [] (1/2) (1/10) 0 2 false false (slot_init _ _ _ _ _ _) 9 [] _ fixed); [lia|reflexivity].
Qed.
(** the left contact separates and must go on doing so at half the speed, the right one closes and must bounce at full speed *)
Lemma slot_impossible v : ~ allowed (slot_world 1 0 0 1 1 0) v.
Proof.
  intros (Lv & HC & HN). change (length v = 9%nat) in Lv.
  do 9 (destruct v as [|? v]; [discriminate|]). destruct v; [|discriminate]. clear Lv.
  unfold constraint_velocity in HC. cbn in HC. injection HC as H0 H1 H2 H3 H4 H5. pose proof (HN _ (or_introl eq_refl)) as N1. pose proof (HN _ (or_intror (or_introl eq_refl))) as N2.
  unfold mixed, normal_velocity, relative_velocity, component, point_velocity, v3_at, vget in N1, N2. cbn in N1, N2. lra.
Qed.
(** with friction: the disc may slide on as before, or stop *)
Definition sliding : world R := slot_world 0 1 0 0 0 (1/2).
Lemma sliding_balance v imps y : length v = 9%nat -> length imps = 2%nat -> length y = 6%nat ->
  (forall x0 x1 x2 x3 x4 x5 x6 x7 x8, let x := [x0; x1; x2; x3; x4; x5; x6; x7; x8] in
    kinetic sliding x v = kinetic sliding x (w_v sliding) + contact_power (w_contacts sliding) imps x + dot y (constraint_velocity sliding x)) ->
  balance sliding (1/2) (vzeros 9) v imps y (vzeros 9).
Proof.
  intros _ Li Ly H. split; [exact Li|]. split; [exact Ly|]. intros x Lx. change (length x = 9%nat) in Lx. rewrite dot_zeros_r, dot_zeros_l.
  do 9 (destruct x as [|? x]; [discriminate|]). destruct x; [|discriminate]. rewrite H. ring.
Qed.
Lemma sliding_on : response sliding (1/2) [0; 0; 0; 0; 0; 1; 0; 0; 0] [(0, 0); (0, 0)].
Proof.
  exists (vzeros 9), (vzeros 6). split; [apply slot_forces|]. split; [reflexivity|]. split; [|split].
  - apply sliding_balance; try reflexivity. intros. unfold kinetic, contact_power, component, relative_velocity, point_velocity, v3_at, vget, x. cbn. rnum. ring.
  - unfold constraint_velocity. cbn. rnum. reflexivity.
  - repeat (apply Forall2_cons; [constructor; unfold mixed, normal_velocity, slip_velocity, component, relative_velocity, point_velocity, v3_at, vget; cbn; rnum; rewrite ?Rabs_R0; lra|]). apply Forall2_nil.
Qed.
Lemma sliding_stops : response sliding (1/2) (vzeros 9) [(1, 1/2); (1, -1/2)].
Proof.
  exists (vzeros 9), [-1/2; 1; -1/2; 1/2; -1; -1/2]. split; [apply slot_forces|]. split; [reflexivity|]. split; [|split].
  - apply sliding_balance; try reflexivity. intros. unfold kinetic, contact_power, component, relative_velocity, point_velocity, v3_at, vget, x, dot. cbn. rnum. field.
  - unfold constraint_velocity. cbn. rnum. reflexivity.
  - assert (A1 : Rabs (1/2) = 1/2) by (apply Rabs_pos_eq; lra). assert (A2 : Rabs (-1/2) = 1/2) by (rewrite Rabs_left by lra; lra).
    apply Forall2_cons; [|apply Forall2_cons; [|apply Forall2_nil]]; (constructor; unfold mixed, normal_velocity, slip_velocity, component, relative_velocity, point_velocity, v3_at, vget; cbn; rnum; try lra).
    all: repeat match goal with |- context[Rabs (?a / ?b)] => first [rewrite A1|rewrite A2] | |- context[Rabs ?x] => replace x with 0 by field; rewrite Rabs_R0 end; try lra.
Qed.
