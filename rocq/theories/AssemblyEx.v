(** A disc hits one of two discs that are fixed to each other (example for C81) *)
From Coq Require Import List Arith ZArith Lia Bool Reals Lra.
From Verif Require Import Num Tensor Utils Bodies Forces Constraints Contacts World Lapack LapackRef Pdipm Lcp Engines
     Spec GeoSpec BodySpec JointSpec FreshSpec EngineSpec WellSpec ContactSpec AssemblySpec ResFacts RBase LinAlg LapackSpec PdipmSpec LuFacts HandlerFacts LayoutFacts EngineFacts ContactSys EngineBalance MomentumFacts EngineProps WellProps FloatEx RealEx ContactEx RunTotal EngineEx.
Import ListNotations.
Open Scope R_scope.

Lemma disc_call fuel (o : oracle R) clk bs i j a x vx vy e mu b y vx' vy' e' mu' fs fs' :
  nth_error bs i = Some (with_forces (disc a x vx vy e mu) fs) -> nth_error bs j = Some (with_forces (disc b y vx' vy' e' mu') fs') ->
  diff_handler fuel o (1/10) clk bs i j = Ok (map (fun '(n, p1, p2, pen) => mkContact n p1 p2 pen i j) (circle_circle (disc a x vx vy e mu) (disc b y vx' vy' e' mu') (1/10)), bs, clk).
Proof.
  intros H1 H2. unfold diff_handler, get_body. rewrite H1, H2. cbn -[circle_circle disc]. change (existsb _ _) with false. cbn -[circle_circle disc].
  change (is_circle (with_forces (disc a x vx vy e mu) fs)) with true. change (is_circle (with_forces (disc b y vx' vy' e' mu') fs')) with true. reflexivity.
Qed.
Section Dumbbell.
Variables (f vx e : R).
Definition dumb_heap : fheap R := [FExt (fun _ => (0, (0, 1))) f].
Definition bell0 : body R := disc 1 2 0 0 e 0.
Definition bell1 : body R := with_forces (disc 2 6 0 0 e 0) [0%nat].
Definition dumb_discs : list (body R) := [disc 0 0 vx 0 e 0; bell0; bell1].
Definition dumb_joints : list (joint R) := [fixed_init bell0 bell1].
Definition dumb_world : world R :=
  mkWorld dumb_discs [(fixed_init bell0 bell1, 1%nat, Some 2%nat)] dumb_heap 0 (1/2) (1/10) 0 2 false false (cat3 (map b_v dumb_discs)) [touch 0 1] false 3 (world_M dumb_discs) None 1.
(** the two discs that are fixed to each other *)
Definition bells (i : nat) : bool := Nat.eqb i 1 || Nat.eqb i 2.
Lemma dumb_init : world_init pair_oracle disc_hd dumb_heap dumb_discs dumb_joints (1/2) (1/10) 0 2 false false = Ok dumb_world.
Proof.
  unfold world_init, dumb_discs.
  match goal with |- context[mapM ?f dumb_joints] => assert (Ej : mapM f dumb_joints = Ok [(fixed_init bell0 bell1, 1%nat, Some 2%nat)]) by reflexivity; rewrite Ej; clear Ej end.
  assert (Es : forallb j_static dumb_joints = false) by reflexivity. assert (En : fold_left (fun n (j : joint R) => (n + j_num j)%nat) dumb_joints 0%nat = 3%nat) by reflexivity.
  rewrite Es, En. cbn [bind]. change (nofZ 0) with (IZR 0).
  match goal with |- context[set_v ?w ?v] => assert (Ev : set_v w v = Ok (with_state w dumb_discs (w_joints dumb_world) 0 (cat3 (map b_v dumb_discs)) [] None 0)) by reflexivity; rewrite Ev; clear Ev end.
  unfold find_contacts. cbn [bind w_bodies with_state w_clk w_eps w_joints w_t w_v w_contacts w_cache o_collide pair_oracle].
  change (all_pairs _) with [(0, 1); (0, 2); (1, 2)]%nat.
  assert (C01 : forall clk, disc_hd (1/10) clk dumb_discs 0%nat 1%nat = Ok ([touch 0 1], dumb_discs, clk)).
  { intros clk. unfold disc_hd. now rewrite (disc_call 10 pair_oracle clk dumb_discs 0 1 _ _ _ _ _ _ _ _ _ _ _ _ [] _ eq_refl eq_refl), disc_touch by lra. }
  assert (C02 : forall clk, disc_hd (1/10) clk dumb_discs 0%nat 2%nat = Ok ([], dumb_discs, clk)).
  { intros clk. unfold disc_hd. now rewrite (disc_call 10 pair_oracle clk dumb_discs 0 2 _ _ _ _ _ _ _ _ _ _ _ _ [] _ eq_refl eq_refl), disc_far by lra. }
  assert (C12 : forall clk, disc_hd (1/10) clk dumb_discs 1%nat 2%nat = Ok ([], dumb_discs, clk)).
  { intros clk. unfold disc_hd. now rewrite (disc_call 10 pair_oracle clk dumb_discs 1 2 _ _ _ _ _ _ _ _ _ _ _ _ [] _ eq_refl eq_refl), disc_far by lra. }
  cbn [bind dumb_discs fold_left]. fold dumb_discs. rewrite C01. cbn [bind app]. rewrite C02. cbn [bind app]. rewrite C12. cbn [bind app]. reflexivity.
Qed.
Lemma dumb_forces t : world_apply_forces dumb_world t = Ok [0; 0; 0; 0; 0; 0; 0; 0; f].
Proof. unfold world_apply_forces, dumb_world. cbn. rnum. repeat (f_equal; try ring). Qed.
Lemma dumb_smooth : smooth 10 dumb_discs dumb_joints dumb_world.
Proof.
  assert (Hp : Forall plain_disc dumb_discs).
  { constructor; [exists 0%nat, 0, vx, 0, e, []; reflexivity|]. constructor; [exists 1%nat, 2, 0, 0, e, []; reflexivity|]. constructor; [do 6 eexists; reflexivity|constructor]. }
  constructor.
  - repeat (constructor; [cbn; intuition discriminate|]). constructor.
  - constructor; [|constructor]. apply built_fixed; [right; now left|right; right; now left|discriminate].
  - eapply Forall_impl; [|exact Hp]. apply plain_disc_available.
  - eapply Forall_impl; [|exact Hp]. apply plain_disc_shape.
  - eapply Forall_impl; [|exact Hp]. intros b Hb. now apply plain_disc_mass.
  - eapply Forall_impl; [|exact Hp]. intros b Hb. now apply plain_disc_mass.
  - apply (loop_free_add [] (fixed_init bell0 bell1) []); [constructor|]. left. exists 1%nat. split; [now left|intros j []].
  - intros t. eexists. apply dumb_forces.
  - cbn. lra.
  - reflexivity.
  - reflexivity.
Qed.
Lemma dumb_session mi : session ref_lapack mi pair_oracle disc_hd dumb_discs dumb_joints dumb_world.
Proof.
  apply (session_history _ _ _ _ _ _ _ 0 10 dumb_heap (1/2) (1/10) 0 2 false false dumb_world []).
  - left; reflexivity.
  - apply pair_sane.
  - apply (sm_ids _ _ _ _ dumb_smooth).
  - apply (sm_built _ _ _ _ dumb_smooth).
  - apply (sm_available _ _ _ _ dumb_smooth).
  - apply dumb_init.
  - reflexivity.
Qed.
Lemma dumb_solve mi : (0 < mi)%nat -> exists v c, solve_dynamics ref_lapack mi dumb_world (1/2) = Ok (v, c).
Proof.
  intros Hmi. destruct (smooth_steps ref_lapack mi 10 pair_oracle dumb_discs dumb_joints dumb_world ref_lapack_ok Hmi pair_sane dumb_smooth dumb_heap (1/2) (1/10) 0 2 false false dumb_init 9 [] dumb_world [false]) as [w E]; [lia|reflexivity|].
  cbn [map exec] in E. unfold step in E. bind_inv E as w1 E1. destruct (step_dt_v _ _ _ _ _ _ _ E1) as (v & c & Es & _). exists v, c. exact Es.
Qed.
Lemma dumb_massive : massive dumb_world.
Proof. repeat (apply Forall_cons; [cbn; rnum; lra|]). apply Forall_nil. Qed.
Lemma dumb_assembly : assembly dumb_world bells.
Proof.
  constructor.
  - assert (T : forall a b, (a = 1 /\ b = 2 \/ a = 2 /\ b = 1)%nat -> together dumb_world a b).
    { intros a b H. apply (together_tied _ _ (fixed_init bell0 bell1) a); [constructor| |reflexivity]. cbn. destruct H as [[-> ->]|[-> ->]]; tauto. }
    intros i k Hi Hk. unfold bells in Hi, Hk. apply orb_true_iff in Hi, Hk. rewrite !Nat.eqb_eq in Hi, Hk. destruct Hi as [->| ->], Hk as [->| ->]; try constructor; apply T; tauto.
  - intros j i1 i2 [E|[]]. injection E as <- <- <-. reflexivity.
Qed.
Lemma dumb_frictionless : frictionless dumb_world.
Proof. intros c [<-|[]]. unfold mixed. cbn. lra. Qed.
Lemma dumb_response : exists v imps, response dumb_world (1/2) v imps.
Proof.
  apply (WellProps.existence ref_lapack 10 _ _ _ (1/2) _ (session_world _ _ _ _ _ _ _ (dumb_session 10)) dumb_massive dumb_frictionless (dumb_forces _)).
  exists [0; - Rabs vx - Rabs (e * vx); 0; 0; 0; 0; 0; 0; 0]. split; [reflexivity|]. split; [unfold constraint_velocity; cbn; rnum; repeat (f_equal; try ring)|].
  intros c [<-|[]]. unfold mixed, normal_velocity, relative_velocity, component, point_velocity, v3_at, vget. cbn. rnum.
  pose proof (Rabs_pos vx) as A. pose proof (Rle_abs (e * vx)) as B. pose proof (Rle_abs (- (e * vx))) as C. rewrite Rabs_Ropp in C. lra.
Qed.
End Dumbbell.
