(** Concrete worlds with friction *)
From Coq Require Import List Arith ZArith Lia Bool Reals Lra.
From Verif Require Import Num Tensor Utils Bodies Forces Constraints Contacts World Lapack LapackRef Pdipm Lcp Engines
     Spec GeoSpec BodySpec JointSpec FreshSpec EngineSpec ContactSpec SceneSpec FricSpec ResFacts RBase LinAlg LapackSpec PdipmSpec LuFacts WorldFacts HandlerFacts LayoutFacts HistFacts JointFacts JeFacts CacheFacts GeomFacts
     EngineFacts ContactSys EngineBalance FloatEx RealEx ContactEx RunTotal EngineEx SceneEx FricFacts FricRun.
Import ListNotations.
Open Scope R_scope.

Definition any_disc (b : body R) : Prop := exists id x vx vy e mu, 0 <= mu /\ b = disc id x vx vy e mu.
Lemma any_disc_available b : any_disc b -> available b.
Proof. intros (id & x & vx & vy & e & mu & _ & ->). apply disc_available. Qed.
Lemma any_disc_shape b : any_disc b -> ContactSpec.tidy b /\ ContactSpec.in_range b /\ (ContactSpec.gjk_rounds b <= 10)%nat.
Proof.
  intros (id & x & vx & vy & e & mu & _ & ->). split; [|split].
  - unfold ContactSpec.tidy, b_rad. cbn. lra.
  - unfold ContactSpec.in_range, b_rad. cbn [disc is_circle b_kind get circle_init body_init to_v3 bind]. assert (1 <= 10 ^ 9) by (cbn [pow]; lra). lra.
  - cbn. lia.
Qed.
Lemma any_disc_mass b : any_disc b -> (0 < b_mass b /\ 0 < b_inertia b) /\ 0 <= b_fric b.
Proof. intros (id & x & vx & vy & e & mu & H & ->). cbn. rnum. lra. Qed.

(** *** a disc hits another that is held in place, with friction *)
Section Held.
Variables (vx vy e mu : R).
Hypothesis Hmu : 0 <= mu.
Definition held_discs : list (body R) := two_discs 0 0 e mu vx vy e mu.
Definition hold : joint R := total_init (disc 0 0 0 0 e mu).
Definition held_world : world R :=
  mkWorld held_discs [(hold, 0%nat, None)] [] 0 (1/2) (1/10) 0 2 false false (cat3 (map b_v held_discs)) [touch 0 1] true 3 (world_M held_discs) None 1.
Lemma held_init : world_init pair_oracle disc_hd [] held_discs [hold] (1/2) (1/10) 0 2 false false = Ok held_world.
Proof.
  unfold world_init, held_discs, two_discs.
  match goal with |- context[mapM ?f [hold]] => assert (Ej : mapM f [hold] = Ok [(hold, 0%nat, None)]) by reflexivity; rewrite Ej; clear Ej end.
  assert (Es : forallb j_static [hold] = true) by reflexivity. assert (En : fold_left (fun n (j : joint R) => (n + j_num j)%nat) [hold] 0%nat = 3%nat) by reflexivity.
  rewrite Es, En. cbn [bind]. change (nofZ 0) with (IZR 0).
  unfold set_v. rewrite cat3_length, map_length. cbn [w_bodies length Nat.eqb Nat.mul Nat.add bind].
  unfold find_contacts. cbn [w_bodies with_state w_clk w_eps o_collide pair_oracle].
  change (all_pairs _) with [(0, 1)]%nat. cbn [fold_left].
  unfold disc_hd, diff_handler. cbn -[circle_circle disc world_M hold].
  change (with_v (disc 0 0 0 0 e mu) _) with (disc 0 0 0 0 e mu). change (with_v (disc 1 2 vx vy e mu) _) with (disc 1 2 vx vy e mu).
  rewrite disc_touch by lra. reflexivity.
Qed.
Lemma held_rough : rough 10 held_discs [hold] held_world.
Proof.
  assert (Hp : Forall any_disc held_discs) by (apply Forall_list2; do 6 eexists; (split; [|reflexivity]); exact Hmu). constructor.
  - constructor; [cbn; intuition discriminate|constructor; [cbn; tauto|constructor]].
  - constructor; [|constructor]. apply built_total. now left.
  - eapply Forall_impl; [|exact Hp]. apply any_disc_available.
  - eapply Forall_impl; [|exact Hp]. apply any_disc_shape.
  - eapply Forall_impl; [|exact Hp]. intros b Hb. now apply any_disc_mass.
  - eapply Forall_impl; [|exact Hp]. intros b Hb. now apply any_disc_mass.
  - apply (loop_free_add [] hold []); [constructor|]. left. exists 0%nat. split; [now left|intros j []].
  - intros t. eexists. unfold world_apply_forces. reflexivity.
  - cbn. lra.
  - reflexivity.
  - reflexivity.
Qed.
Lemma held_paired : paired [hold] held_discs.
Proof.
  split.
  - intros b [<-|[<-|[]]]; [right; exists hold; split; [now left|split; reflexivity]|left; split; [reflexivity|]]. intros j [<-|[]] [H|H]; discriminate.
  - intros a b c Ha Hb Hc _ N1 N2 _ _. cbn in Ha, Hb, Hc. destruct Ha as [<-|[<-|[]]], Hb as [<-|[<-|[]]], Hc as [<-|[<-|[]]]; reflexivity || (exfalso; now apply N1) || (exfalso; now apply N2).
Qed.
End Held.

(** *** a disc on a lever that jams: it turns about (3, 1) and hits the held disc with friction 1 *)
Definition lever_discs : list (body R) := two_discs 0 0 0 1 0 0 0 1.
Definition stop : joint R := total_init (disc 0 0 0 0 0 1).
Definition lever : joint R := joint_init (disc 1 2 0 0 0 1) None (3, 1).
Definition lever_world : world R :=
  mkWorld lever_discs [(stop, 0%nat, None); (lever, 1%nat, None)] [] 0 (1/2) (1/10) 0 2 false false (cat3 (map b_v lever_discs)) [touch 0 1] false 5 (world_M lever_discs) None 1.
Lemma lever_init : world_init pair_oracle disc_hd [] lever_discs [stop; lever] (1/2) (1/10) 0 2 false false = Ok lever_world.
Proof.
  unfold world_init, lever_discs, two_discs.
  match goal with |- context[mapM ?f [stop; lever]] => assert (Ej : mapM f [stop; lever] = Ok [(stop, 0%nat, None); (lever, 1%nat, None)]) by reflexivity; rewrite Ej; clear Ej end.
  assert (Es : forallb j_static [stop; lever] = false) by reflexivity. assert (En : fold_left (fun n (j : joint R) => (n + j_num j)%nat) [stop; lever] 0%nat = 5%nat) by reflexivity.
  rewrite Es, En. cbn [bind]. change (nofZ 0) with (IZR 0).
  unfold set_v. rewrite cat3_length, map_length. cbn [w_bodies length Nat.eqb Nat.mul Nat.add bind].
  unfold find_contacts. cbn [w_bodies with_state w_clk w_eps o_collide pair_oracle].
  change (all_pairs _) with [(0, 1)]%nat. cbn [fold_left].
  unfold disc_hd, diff_handler. cbn -[circle_circle disc world_M stop lever].
  change (with_v (disc 0 0 0 0 0 1) _) with (disc 0 0 0 0 0 1). change (with_v (disc 1 2 0 0 0 1) _) with (disc 1 2 0 0 0 1).
  rewrite disc_touch by lra. reflexivity.
Qed.
Lemma lever_rough : rough 10 lever_discs [stop; lever] lever_world.
Proof.
  assert (Hp : Forall any_disc lever_discs) by (apply Forall_list2; do 6 eexists; (split; [|reflexivity]); lra).
  destruct (joint_init_fields (disc 1 2 0 0 0 1) None (3, 1)) as (_ & A1 & A2 & _). fold lever in A1, A2. constructor.
  - constructor; [cbn; intuition discriminate|constructor; [cbn; tauto|constructor]].
  - constructor; [apply built_total; now left|]. constructor; [apply built_joint1; right; now left|constructor].
  - eapply Forall_impl; [|exact Hp]. apply any_disc_available.
  - eapply Forall_impl; [|exact Hp]. apply any_disc_shape.
  - eapply Forall_impl; [|exact Hp]. intros b Hb. now apply any_disc_mass.
  - eapply Forall_impl; [|exact Hp]. intros b Hb. now apply any_disc_mass.
  - apply (loop_free_add [stop] lever []).
    + apply (loop_free_add [] stop []); [constructor|]. left. exists 0%nat. split; [now left|intros j []].
    + left. exists 1%nat. split; [now left|]. intros j [<-|[]] [H|H]; discriminate.
  - intros t. eexists. unfold world_apply_forces. reflexivity.
  - cbn. lra.
  - reflexivity.
  - reflexivity.
Qed.
Lemma lever_wedges : ~ no_wedge lever_world (touch 0 1).
Proof.
  intros H. assert (P : pushed lever_world (touch 0 1) 1 0 [0; 0; 0; 2/5; 2/5; -2/5]).
  { split; [reflexivity|]. split.
    - lazy -[Rplus Rmult Rdiv Rinv Rminus Ropp IZR]. repeat (apply f_equal2; [field|]). reflexivity.
    - exists [0; 1; 0; -3/5; -2/5]. split; [reflexivity|]. intros u Lu. destruct u as [|a [|b [|c [|d [|f [|g [|]]]]]]]; try discriminate.
      lazy -[Rplus Rmult Rdiv Rinv Rminus Ropp IZR]. field. }
  specialize (H _ P). revert H. lazy -[Rplus Rmult Rdiv Rinv Rminus Ropp IZR Rabs Rle]. intros H.
  match type of H with context[Rabs ?a] => replace a with (4/5) in H by field end. rewrite Rabs_right in H by lra. lra.
Qed.
Lemma lever_singular : exists bs js w0 c pr,
  rough 10 bs js w0 /\ world_init pair_oracle disc_hd [] bs js (1/2) (1/10) 0 2 false false = Ok w0 /\ w_contacts w0 = [c] /\
  contact_problem w0 (mv (w_M w0) (w_v w0)) = Ok pr /\ ~ no_wedge w0 c /\
  ~ RegSpec.regular (3 * length (w_bodies w0)) 4 (w_num_constraints w0) (pr_Q pr) (pr_G pr) (pr_F pr) (pr_A pr).
Proof.
  exists lever_discs, [stop; lever], lever_world, (touch 0 1). eexists. split; [exact lever_rough|]. split; [exact lever_init|]. split; [reflexivity|].
  assert (E : exists pr, contact_problem lever_world (mv (w_M lever_world) (w_v lever_world)) = Ok pr) by (eexists; unfold contact_problem; reflexivity). destruct E as [pr E].
  split; [reflexivity|]. split; [exact lever_wedges|]. intros HR. apply lever_wedges.
  refine (proj1 (one_exact ref_lapack 1 10 pair_oracle lever_discs [stop; lever] lever_world ref_lapack_ok pair_sane lever_rough [] (1/2) (1/10) 0 2 false false lever_init 0 [] lever_world (touch 0 1) (mv (w_M lever_world) (w_v lever_world)) _ eq_refl eq_refl eq_refl) HR).
Qed.
