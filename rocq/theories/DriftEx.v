(** Concrete worlds with joints between bodies *)
From Coq Require Import List Arith ZArith Lia Bool Reals Lra.
From Verif Require Import Num Tensor Utils Bodies Forces Constraints Contacts World Lapack LapackRef Pdipm Lcp Engines
     Spec GeoSpec BodySpec JointSpec FreshSpec EngineSpec DriftSpec ResFacts RBase LinAlg LapackSpec PdipmSpec LuFacts WorldFacts HandlerFacts LayoutFacts HistFacts JointFacts JeFacts CacheFacts GeomFacts
     EngineFacts ContactSys EngineBalance MomentumFacts PostFacts HeldFacts FloatEx RealEx ContactEx RunTotal EngineEx EngineProps DriftFacts DriftProps.
Import ListNotations.
Open Scope R_scope.

(** a unit disc of mass 1 on the x axis, spinning *)
Definition wheel (id : nat) (x om vy : R) (fs : list nat) : body R := with_forces (get dummy_body (circle_init id [x; 0] 1 [om; 0; vy] 1 0 0 (1/10))) fs.
Definition is_wheel (b : body R) : Prop := exists id x om vy fs, b = wheel id x om vy fs.
Lemma wheel_available b : is_wheel b -> available b.
Proof. intros (id & x & om & vy & fs & ->). exists (get dummy_body (circle_init id [x; 0] 1 [om; 0; vy] 1 0 0 (1/10))), [BForces fs]. split; [left|reflexivity]. exists id, [x; 0], 1, [om; 0; vy], 1, 0, 0, (1/10). reflexivity. Qed.
Lemma wheel_shape b : is_wheel b -> ContactSpec.tidy b /\ ContactSpec.in_range b /\ (ContactSpec.gjk_rounds b <= 10)%nat.
Proof.
  intros (id & x & om & vy & fs & ->). split; [|split].
  - unfold ContactSpec.tidy, b_rad. cbn. lra.
  - unfold ContactSpec.in_range, b_rad. cbn [wheel is_circle b_kind with_forces get circle_init body_init to_v3 bind]. assert (1 <= 10 ^ 9) by (cbn [pow]; lra). lra.
  - cbn. lia.
Qed.
Lemma wheel_mass b : is_wheel b -> (0 < b_mass b /\ 0 < b_inertia b) /\ b_fric b = 0.
Proof. intros (id & x & om & vy & fs & ->). cbn. rnum. lra. Qed.

Lemma far_call fuel (o : oracle R) clk bs i j a b x y om vy om' vy' fs fs' : nth_error bs i = Some (wheel a x om vy fs) -> nth_error bs j = Some (wheel b y om' vy' fs') -> x + 3 < y ->
  diff_handler fuel o (1/10) clk bs i j = Ok ([], bs, clk).
Proof.
  intros H1 H2 L. unfold diff_handler, get_body. rewrite H1, H2. cbn -[circle_circle wheel]. change (existsb _ _) with false. change (is_circle (wheel a x om vy fs)) with true. change (is_circle (wheel b y om' vy' fs')) with true. cbn -[circle_circle wheel].
  rewrite (far_discs (wheel a x om vy fs) (wheel b y om' vy' fs') (x, 0) (y, 0)) by (reflexivity || (cbn; lra)). reflexivity.
Qed.

(** *** a chain: pinned to the world at (-2, 0), a hinge, and two discs fixed to each other; gravity *)
Section Chain.
Variables (om0 om1 om2 vy0 vy1 vy2 : R).
Definition link0 := wheel 0 0 om0 vy0 [0%nat].
Definition link1 := wheel 1 5 om1 vy1 [0%nat].
Definition link2 := wheel 2 10 om2 vy2 [0%nat].
Definition chain_bodies : list (body R) := [link0; link1; link2].
Definition chain_joints : list (joint R) := [joint_init link0 None (-2, 0); joint_init link0 (Some link1) (5/2, 0); fixed_init link1 link2].
Definition chain_world : world R :=
  mkWorld chain_bodies [(joint_init link0 None (-2, 0), 0%nat, None); (joint_init link0 (Some link1) (5/2, 0), 0%nat, Some 1%nat); (fixed_init link1 link2, 1%nat, Some 2%nat)]
    falling_heap 0 (1/2) (1/10) 0 2 false false (cat3 (map b_v chain_bodies)) [] false 7 (world_M chain_bodies) None 1.
Lemma chain_init : world_init pair_oracle disc_hd falling_heap chain_bodies chain_joints (1/2) (1/10) 0 2 false false = Ok chain_world.
Proof.
  unfold world_init.
  match goal with |- context[mapM ?f chain_joints] => assert (Ej : mapM f chain_joints = Ok (w_joints chain_world)) by reflexivity; rewrite Ej; clear Ej end.
  assert (Es : forallb j_static chain_joints = false) by reflexivity. assert (En : fold_left (fun n (j : joint R) => (n + j_num j)%nat) chain_joints 0%nat = 7%nat) by reflexivity.
  rewrite Es, En. cbn [bind]. change (nofZ 0) with (IZR 0).
  match goal with |- context[set_v ?w ?v] => assert (Ev : set_v w v = Ok (with_state w chain_bodies (w_joints chain_world) 0 (cat3 (map b_v chain_bodies)) [] None 0)) by reflexivity; rewrite Ev; clear Ev end.
  unfold find_contacts. cbn [bind w_bodies with_state w_clk w_eps w_joints w_t w_v w_contacts w_cache o_collide pair_oracle].
  change (all_pairs _) with [(0, 1); (0, 2); (1, 2)]%nat.
  assert (C01 : forall clk, disc_hd (1/10) clk chain_bodies 0%nat 1%nat = Ok ([], chain_bodies, clk)) by (intros; eapply far_call; [reflexivity|reflexivity|lra]).
  assert (C02 : forall clk, disc_hd (1/10) clk chain_bodies 0%nat 2%nat = Ok ([], chain_bodies, clk)) by (intros; eapply far_call; [reflexivity|reflexivity|lra]).
  assert (C12 : forall clk, disc_hd (1/10) clk chain_bodies 1%nat 2%nat = Ok ([], chain_bodies, clk)) by (intros; eapply far_call; [reflexivity|reflexivity|lra]).
  cbn [bind chain_bodies fold_left]. fold chain_bodies. rewrite C01. cbn [bind app]. rewrite C02. cbn [bind app]. rewrite C12. cbn [bind app]. reflexivity.
Qed.
Lemma chain_wheels : Forall is_wheel chain_bodies.
Proof. constructor; [do 5 eexists; reflexivity|constructor; [do 5 eexists; reflexivity|constructor; [do 5 eexists; reflexivity|constructor]]]. Qed.
Lemma chain_smooth : smooth 10 chain_bodies chain_joints chain_world.
Proof.
  pose proof chain_wheels as Hp. constructor.
  - cbn. constructor; [cbn; intuition discriminate|constructor; [cbn; intuition discriminate|constructor; [cbn; tauto|constructor]]].
  - constructor; [apply built_joint1; now left|]. constructor; [apply built_joint2; [now left|right; now left|discriminate]|]. constructor; [apply built_fixed; [right; now left|right; right; now left|discriminate]|constructor].
  - eapply Forall_impl; [|exact Hp]. apply wheel_available.
  - eapply Forall_impl; [|exact Hp]. apply wheel_shape.
  - eapply Forall_impl; [|exact Hp]. intros b Hb. now apply wheel_mass.
  - eapply Forall_impl; [|exact Hp]. intros b Hb. now apply wheel_mass.
  - destruct (joint_init_fields link0 None (-2, 0)) as (_ & A1 & A2 & _). destruct (joint_init_fields link0 (Some link1) (5/2, 0)) as (_ & B1 & B2 & _).
    apply (loop_free_add [joint_init link0 None (-2, 0); joint_init link0 (Some link1) (5/2, 0)] (fixed_init link1 link2) []).
    + apply (loop_free_add [joint_init link0 None (-2, 0)] (joint_init link0 (Some link1) (5/2, 0)) []).
      * apply (loop_free_add [] (joint_init link0 None (-2, 0)) []); [constructor|]. left. exists 0%nat. split; [now left|intros j []].
      * left. exists 1%nat. split; [right; exact B2|]. intros j [<-|[]] [H|H]; [rewrite A1 in H|rewrite A2 in H]; discriminate.
    + left. exists 2%nat. split; [now right|]. intros j [<-|[<-|[]]] [H|H]; rewrite ?A1, ?A2, ?B1, ?B2 in H; discriminate.
  - intros t. eexists. unfold world_apply_forces. reflexivity.
  - cbn. lra.
  - reflexivity.
  - reflexivity.
Qed.
Lemma chain_runs mi fixed : (0 < mi)%nat -> exists w, exec 9 pair_oracle disc_hd (pdipm_engine ref_lapack mi) (map OStep fixed) chain_world = Ok w.
Proof.
  intros Hmi. apply (smooth_steps ref_lapack mi 10 pair_oracle chain_bodies chain_joints chain_world ref_lapack_ok Hmi pair_sane chain_smooth falling_heap (1/2) (1/10) 0 2 false false chain_init 9 [] chain_world fixed); [lia|reflexivity].
Qed.
Lemma chain_session mi : session ref_lapack mi pair_oracle disc_hd chain_bodies chain_joints chain_world.
Proof.
  apply (session_history _ _ _ _ _ _ _ 0 10 falling_heap (1/2) (1/10) 0 2 false false chain_world []).
  - left; reflexivity.
  - apply pair_sane.
  - apply (sm_ids _ _ _ _ chain_smooth).
  - apply (sm_built _ _ _ _ chain_smooth).
  - apply (sm_available _ _ _ _ chain_smooth).
  - apply chain_init.
  - reflexivity.
Qed.
Lemma chain_step mi : (0 < mi)%nat -> exists w, step_dt 9 pair_oracle disc_hd (pdipm_engine ref_lapack mi) chain_world (1/2) = Ok w.
Proof. intros H. destruct (chain_runs mi [false] H) as [w E]. cbn [map exec] in E. bind_inv E as w1 E1. exists w1. exact E1. Qed.
End Chain.

(** *** two discs fixed to each other, turning about each other, and nothing else *)
Definition spin0 := wheel 0 0 1 0 [].
Definition spin1 := wheel 1 5 1 5 [].
Definition spin_bodies : list (body R) := [spin0; spin1].
Definition spin_world : world R :=
  mkWorld spin_bodies [(fixed_init spin0 spin1, 0%nat, Some 1%nat)] [] 0 (1/2) (1/10) 0 2 false false (cat3 (map b_v spin_bodies)) [] false 3 (world_M spin_bodies) None 1.
Lemma spin_init : world_init pair_oracle disc_hd [] spin_bodies [fixed_init spin0 spin1] (1/2) (1/10) 0 2 false false = Ok spin_world.
Proof.
  unfold world_init.
  match goal with |- context[mapM ?f [fixed_init spin0 spin1]] => assert (Ej : mapM f [fixed_init spin0 spin1] = Ok (w_joints spin_world)) by reflexivity; rewrite Ej; clear Ej end.
  assert (Es : forallb j_static [fixed_init spin0 spin1] = false) by reflexivity. assert (En : fold_left (fun n (j : joint R) => (n + j_num j)%nat) [fixed_init spin0 spin1] 0%nat = 3%nat) by reflexivity.
  rewrite Es, En. cbn [bind]. change (nofZ 0) with (IZR 0).
  match goal with |- context[set_v ?w ?v] => assert (Ev : set_v w v = Ok (with_state w spin_bodies (w_joints spin_world) 0 (cat3 (map b_v spin_bodies)) [] None 0)) by reflexivity; rewrite Ev; clear Ev end.
  unfold find_contacts. cbn [bind w_bodies with_state w_clk w_eps w_joints w_t w_v w_contacts w_cache o_collide pair_oracle].
  change (all_pairs _) with [(0, 1)]%nat.
  assert (C01 : forall clk, disc_hd (1/10) clk spin_bodies 0%nat 1%nat = Ok ([], spin_bodies, clk)) by (intros; eapply far_call; [reflexivity|reflexivity|lra]).
  cbn [bind spin_bodies fold_left]. fold spin_bodies. rewrite C01. cbn [bind app]. reflexivity.
Qed.
Lemma spin_smooth : smooth 10 spin_bodies [fixed_init spin0 spin1] spin_world.
Proof.
  assert (Hp : Forall is_wheel spin_bodies) by (constructor; [do 5 eexists; reflexivity|constructor; [do 5 eexists; reflexivity|constructor]]). constructor.
  - cbn. constructor; [cbn; intuition discriminate|constructor; [cbn; tauto|constructor]].
  - constructor; [apply built_fixed; [now left|right; now left|discriminate]|constructor].
  - eapply Forall_impl; [|exact Hp]. apply wheel_available.
  - eapply Forall_impl; [|exact Hp]. apply wheel_shape.
  - eapply Forall_impl; [|exact Hp]. intros b Hb. now apply wheel_mass.
  - eapply Forall_impl; [|exact Hp]. intros b Hb. now apply wheel_mass.
  - apply (loop_free_add [] (fixed_init spin0 spin1) []); [constructor|]. left. exists 0%nat. split; [now left|intros j []].
  - intros t. eexists. unfold world_apply_forces. reflexivity.
  - cbn. lra.
  - reflexivity.
  - reflexivity.
Qed.
Lemma spin_session mi : session ref_lapack mi pair_oracle disc_hd spin_bodies [fixed_init spin0 spin1] spin_world.
Proof.
  apply (session_history _ _ _ _ _ _ _ 0 10 [] (1/2) (1/10) 0 2 false false spin_world []).
  - left; reflexivity.
  - apply pair_sane.
  - apply (sm_ids _ _ _ _ spin_smooth).
  - apply (sm_built _ _ _ _ spin_smooth).
  - apply (sm_available _ _ _ _ spin_smooth).
  - apply spin_init.
  - reflexivity.
Qed.
Lemma spin_step mi : (0 < mi)%nat -> exists w b0 b1, step_dt 9 pair_oracle disc_hd (pdipm_engine ref_lapack mi) spin_world (1/2) = Ok w /\
  nth_error (w_bodies w) 0 = Some b0 /\ nth_error (w_bodies w) 1 = Some b1 /\ dist (b_pos spin0) (b_pos spin1) = 5 /\ 5 < dist (b_pos b0) (b_pos b1).
Proof.
  intros Hmi. destruct (smooth_steps ref_lapack mi 10 pair_oracle spin_bodies [fixed_init spin0 spin1] spin_world ref_lapack_ok Hmi pair_sane spin_smooth [] (1/2) (1/10) 0 2 false false spin_init 9 [] spin_world [false]) as [w E]; [lia|reflexivity|].
  cbn [map exec] in E. bind_inv E as w1 E1. injection E as <-. unfold step in E1. change (w_dt spin_world) with (1/2) in E1. exists w1.
  destruct (session_facts _ _ _ _ _ _ _ (spin_session mi)) as (Hf & Hr & Ho & Hg & J0 & S & V).
  destruct (step_poses ref_lapack mi 9 pair_oracle disc_hd spin_bodies [fixed_init spin0 spin1] J0 Hf Hr Ho spin_world (1/2) w1 S V Hg E1) as (v & c & k & w2 & dp & Es & _ & _ & _ & Hdp & _ & _ & HQ).
  destruct (HQ 0%nat spin0 eq_refl) as (b0 & Hb0 & P0). destruct (HQ 1%nat spin1 eq_refl) as (b1 & Hb1 & P1). exists b0, b1. split; [exact E1|]. split; [exact Hb0|]. split; [exact Hb1|].
  assert (D0 : dist (b_pos spin0) (b_pos spin1) = 5). { unfold dist. cbn. replace ((0 - 5) * (0 - 5) + (0 - 0) * (0 - 0)) with (5 * 5) by ring. rewrite sqrt_square; lra. }
  split; [exact D0|].
  assert (Ev : v = w_v spin_world).
  { apply (steady ref_lapack mi spin_bodies [fixed_init spin0 spin1] J0 spin_world ref_lapack_ok S V (sm_masses _ _ _ _ spin_smooth) (1/2) v c); auto; try reflexivity.
    unfold constraint_velocity. cbn. unfold v2l, point_velocity, v2sub. cbn. rnum. unfold vzeros. cbn. repeat (apply f_equal2; [ring|]). reflexivity. }
  destruct (session_fixed ref_lapack mi pair_oracle disc_hd spin_bodies [fixed_init spin0 spin1] ref_lapack_ok 9 spin_world (1/2) w1 spin0 spin1 0 1 spin0 spin1 b0 b1 (spin_session mi) eq_refl (or_introl eq_refl) eq_refl eq_refl E1 eq_refl Hb0 eq_refl Hb1) as (_ & _ & D).
  rewrite D, D0. assert (T : turn spin1 b1 = 1 / 2 / 2 ^ k).
  { destruct Hdp as [[_ ->]|[X _]]; [|discriminate X]. assert (Z : v3_at (vzeros (3 * length (w_bodies spin_world))) 1 = (0, (0, 0))) by (unfold v3_at; rewrite !vget_zeros; reflexivity).
    unfold turn, b_rot. rewrite P1, Z, Ev. unfold v3add, v3scale. cbn. rnum. field. apply pow_nonzero. lra. }
  rewrite T. assert (Q : 0 < 1 / 2 / 2 ^ k) by (apply Rdiv_lt_0_compat; [lra|apply pow_lt; lra]). set (t := 1 / 2 / 2 ^ k) in *.
  assert (G : 1 < sqrt (1 + t * t)); [|lra]. rewrite <- sqrt_1 at 1. apply sqrt_lt_1_alt. nra.
Qed.
