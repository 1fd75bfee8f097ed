(** Two discs run into a third from both sides *)
From Coq Require Import List Arith ZArith Lia Bool Reals Lra Permutation.
From Verif Require Import BodyFacts Num Tensor Utils Bodies Forces Constraints Contacts World Lapack LapackRef Pdipm Lcp Engines
     Spec GeoSpec BodySpec JointSpec FreshSpec EngineSpec WellSpec ContactSpec SymSpec SceneSpec ResFacts RBase LinAlg LapackSpec PdipmSpec LuFacts HandlerFacts LayoutFacts EngineFacts ContactSys EngineBalance
     FloatEx RealEx ContactEx RunTotal EngineEx WellEx SceneEx.
Import ListNotations.
Open Scope R_scope.

(** names of the two outer discs exchanged *)
Definition swap02 (i : nat) : nat := match i with 0 => 2 | 2 => 0 | _ => i end%nat.
Lemma swap02_apart a b : swap02 a = swap02 b -> a = b.
Proof. destruct a as [|[|[|a]]], b as [|[|[|b]]]; cbn; congruence. Qed.
(** the mirror image in the y axis *)
Definition left_right : view := {| v_mirror := true; v_angle := PI; v_rot := 0; v_name := swap02; v_apart := swap02_apart |}.
Lemma lr_place a : place left_right a = (- fst a, snd a).
Proof. unfold place, rotate, left_right. cbn [v_mirror v_angle fst snd]. rewrite cos_PI, sin_PI. apply f_equal2; ring. Qed.
Section Trio.
Variables (u vy vm e e1 : R).
Definition trio : list (body R) := [disc 0 (-2) u vy e 0; disc 1 0 0 vm e1 0; disc 2 2 (- u) vy e 0].
Definition no_turn : joint R := rot_init (disc 1 0 0 vm e1 0).
Definition trio_world : world R :=
  mkWorld trio [(no_turn, 1%nat, None)] [] 0 (1/2) (1/10) 0 2 false false (cat3 (map b_v trio)) [touch 0 1; touch 1 2] true 1 (world_M trio) None 1.
Lemma trio_init : world_init pair_oracle disc_hd [] trio [no_turn] (1/2) (1/10) 0 2 false false = Ok trio_world.
Proof.
  unfold world_init, trio.
  match goal with |- context[mapM ?f [no_turn]] => assert (Ej : mapM f [no_turn] = Ok [(no_turn, 1%nat, None)]) by reflexivity; rewrite Ej; clear Ej end.
  assert (Es : forallb j_static [no_turn] = true) by reflexivity. assert (En : fold_left (fun n (j : joint R) => (n + j_num j)%nat) [no_turn] 0%nat = 1%nat) by reflexivity.
  rewrite Es, En. cbn [bind]. change (nofZ 0) with (IZR 0).
  unfold set_v. rewrite cat3_length, map_length. cbn [w_bodies length Nat.eqb Nat.mul Nat.add bind].
  unfold find_contacts. cbn [w_bodies with_state w_clk w_eps o_collide pair_oracle].
  change (all_pairs _) with [(0, 1); (0, 2); (1, 2)]%nat. cbn [fold_left].
  cbn [map mapi mapi_from].
  change (with_v (disc 0 (-2) u vy e 0) _) with (disc 0 (-2) u vy e 0). change (with_v (disc 1 0 0 vm e1 0) _) with (disc 1 0 0 vm e1 0). change (with_v (disc 2 2 (- u) vy e 0) _) with (disc 2 2 (- u) vy e 0).
  unfold disc_hd. cbn [bind]. erewrite (disc_call 10 pair_oracle (1/10) _ _ 0 1) by reflexivity. cbn [bind]. erewrite (disc_call 10 pair_oracle (1/10) _ _ 0 2) by reflexivity. cbn [bind].
  erewrite (disc_call 10 pair_oracle (1/10) _ _ 1 2) by reflexivity. cbn [bind].
  rewrite (disc_touch 0 1 (-2) 0), (disc_far 0 2 (-2) 2), (disc_touch 1 2 0 2) by lra. reflexivity.
Qed.
Lemma trio_available : Forall available trio.
Proof. unfold trio. repeat (apply Forall_cons; [apply disc_available|]). apply Forall_nil. Qed.
Lemma trio_ids : NoDup (map b_id trio).
Proof. constructor; [cbn; intuition discriminate|constructor; [cbn; intuition discriminate|constructor; [cbn; tauto|constructor]]]. Qed.
Lemma trio_built : Forall (built trio) [no_turn].
Proof. constructor; [|constructor]. apply built_rot. cbn. tauto. Qed.
Lemma trio_smooth : smooth 10 trio [no_turn] trio_world.
Proof.
  assert (Hp : Forall plain_disc trio) by (repeat (apply Forall_cons; [do 6 eexists; reflexivity|]); apply Forall_nil). constructor.
  - apply trio_ids.
  - apply trio_built.
  - apply trio_available.
  - eapply Forall_impl; [|exact Hp]. apply plain_disc_shape.
  - eapply Forall_impl; [|exact Hp]. intros b Hb. now apply plain_disc_mass.
  - eapply Forall_impl; [|exact Hp]. intros b Hb. now apply plain_disc_mass.
  - apply (loop_free_add [] no_turn []); [constructor|]. left. exists 1%nat. split; [now left|intros j []].
  - intros t. eexists. unfold world_apply_forces. reflexivity.
  - cbn. lra.
  - reflexivity.
  - reflexivity.
Qed.
Lemma trio_runs mi fixed : (0 < mi)%nat -> exists w, exec 9 pair_oracle disc_hd (pdipm_engine ref_lapack mi) (map OStep fixed) trio_world = Ok w.
Proof.
  intros Hmi. apply (smooth_steps ref_lapack mi 10 pair_oracle _ _ _ ref_lapack_ok Hmi pair_sane trio_smooth [] (1/2) (1/10) 0 2 false false trio_init 9 [] _ fixed); [lia|reflexivity].
Qed.
Lemma trio_round : round_scene (1/10) trio.
Proof.
  split; [apply trio_available|]. split; [repeat (apply Forall_cons; [reflexivity|]); apply Forall_nil|]. split; [apply trio_ids|]. split.
  - intros b1 b2 H1 H2. cbn in H1, H2. destruct H1 as [<-|[<-|[<-|[]]]], H2 as [<-|[<-|[<-|[]]]]; cbn; lra.
  - intros b1 b2 H1 H2 X. cbn in H1, H2. destruct H2 as [<-|[<-|[<-|[]]]]; destruct X.
Qed.
Lemma lr_disc i x vx vy' e' : turn_body left_right (disc i x vx vy' e' 0) = disc (swap02 i) (- x) (- vx) vy' e' 0.
Proof.
  unfold turn_body, turn_pose, turn_vel. cbn [disc get circle_init b_id]. unfold disc, circle_init. cbn. rewrite !lr_place. cbn. unfold hand. cbn. repeat (f_equal; try ring).
Qed.
Lemma trio_image : up_to_order (fun b b' => b' = turn_body left_right b) trio trio.
Proof.
  exists (rev trio). split; [apply Permutation_rev|]. unfold trio. cbn [rev app].
  constructor; [|constructor; [|constructor; [|constructor]]]; rewrite lr_disc; cbn [swap02]; f_equal; ring.
Qed.
Lemma trio_tie : up_to_order (built_alike left_right trio) [no_turn] [no_turn].
Proof.
  exists [no_turn]. split; [reflexivity|]. constructor; [|constructor].
  assert (E : no_turn = rot_init (turn_body left_right (disc 1 0 0 vm e1 0))) by (rewrite lr_disc, Ropp_0; reflexivity). rewrite E at 2. unfold no_turn. apply ba_rot. cbn. tauto.
Qed.
End Trio.
(** the same with nothing moving along y: its own image in the x axis, and under a half turn *)
Definition up_down : view := mirrored 0.
Definition half_turn : view := {| v_mirror := false; v_angle := PI; v_rot := 0; v_name := swap02; v_apart := swap02_apart |}.
Lemma ud_place a : place up_down a = (fst a, - snd a).
Proof. unfold place, up_down. cbn [v_mirror v_angle mirrored]. apply rotate_0. Qed.
Lemma ht_place a : place half_turn a = (- fst a, - snd a).
Proof. unfold place, rotate, half_turn. cbn [v_mirror v_angle fst snd]. rewrite cos_PI, sin_PI. apply f_equal2; ring. Qed.
Lemma ud_disc i x vx vy' e' : turn_body up_down (disc i x vx vy' e' 0) = disc i x vx (- vy') e' 0.
Proof.
  unfold turn_body, turn_pose, turn_vel. unfold disc, circle_init. cbn. rewrite !ud_place. cbn. unfold hand. cbn. repeat (f_equal; try ring).
Qed.
Lemma ht_disc i x vx vy' e' : turn_body half_turn (disc i x vx vy' e' 0) = disc (swap02 i) (- x) (- vx) (- vy') e' 0.
Proof.
  unfold turn_body, turn_pose, turn_vel. unfold disc, circle_init. cbn. rewrite !ht_place. cbn. unfold hand. cbn. repeat (f_equal; try ring).
Qed.
Lemma trio_up_down u e e1 : up_to_order (fun b b' => b' = turn_body up_down b) (trio u 0 0 e e1) (trio u 0 0 e e1).
Proof. exists (trio u 0 0 e e1). split; [reflexivity|]. unfold trio. constructor; [|constructor; [|constructor; [|constructor]]]; rewrite ud_disc, Ropp_0; reflexivity. Qed.
Lemma trio_tie_up_down u e e1 : up_to_order (built_alike up_down (trio u 0 0 e e1)) [no_turn 0 e1] [no_turn 0 e1].
Proof.
  exists [no_turn 0 e1]. split; [reflexivity|]. constructor; [|constructor].
  assert (E : no_turn 0 e1 = rot_init (turn_body up_down (disc 1 0 0 0 e1 0))) by (rewrite ud_disc, Ropp_0; reflexivity). rewrite E at 2. unfold no_turn. apply ba_rot. cbn. tauto.
Qed.
Lemma trio_half_turn u e e1 : up_to_order (fun b b' => b' = turn_body half_turn b) (trio u 0 0 e e1) (trio u 0 0 e e1).
Proof.
  exists (rev (trio u 0 0 e e1)). split; [apply Permutation_rev|]. unfold trio. cbn [rev app].
  constructor; [|constructor; [|constructor; [|constructor]]]; rewrite ht_disc; cbn [swap02]; f_equal; ring.
Qed.
Lemma trio_tie_half_turn u e e1 : up_to_order (built_alike half_turn (trio u 0 0 e e1)) [no_turn 0 e1] [no_turn 0 e1].
Proof.
  exists [no_turn 0 e1]. split; [reflexivity|]. constructor; [|constructor].
  assert (E : no_turn 0 e1 = rot_init (turn_body half_turn (disc 1 0 0 0 e1 0))) by (rewrite ht_disc, Ropp_0; reflexivity). rewrite E at 2. unfold no_turn. apply ba_rot. cbn. tauto.
Qed.
