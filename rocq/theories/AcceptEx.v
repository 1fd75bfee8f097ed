(** Concrete scenes for the examples about what World's constructor accepts *)
From Coq Require Import List Arith ZArith Bool Reals Lra Lia Floats.
From Verif Require Import Num Tensor Utils Bodies Forces Constraints Contacts World Lapack LapackRef Pdipm Lcp Engines
     Spec GeoSpec BodySpec JointSpec EngineSpec FreshSpec ContactSpec RewindSpec StrictSpec RunTotal AcceptSpec ResFacts RBase BodyFacts RigidFacts GeomFacts BodyReach PlaneFacts HandlerFacts WorldFacts FreshFacts LayoutFacts SatFacts CollideFacts
     FloatEx RealEx ContactEx StrictFacts PropContact AcceptFacts.
From Verif Require GameFacts.
Import ListNotations.
Open Scope R_scope.

(** a 2 by 2 box at the origin and a ball of radius 1/2 at (x, 0) *)
Definition near_box (x : R) (bs : list (body R)) : Prop :=
  exists b1, plain_rect 0 0 0 2 2 b1 /\ bs = [b1; ball 1 x 0 (1/2)].
Lemma near_box_ex x : exists bs, near_box x bs.
Proof. destruct (rect_ex 0 0 0 2 2) as (b1 & H1); [lra|lra|]. exists [b1; ball 1 x 0 (1/2)], b1. auto. Qed.
Lemma near_box_scene x bs : near_box x bs ->
  bs <> [] /\ Forall available bs /\ Forall (plain_body 18 (1/10)) bs /\ (forall b, In b bs -> available b /\ tidy b /\ ContactSpec.in_range b /\ (gjk_rounds b <= 18)%nat) /\
  (forall i j b1 b2, i <> j -> nth_error bs i = Some b1 -> nth_error bs j = Some b2 -> ~ excluded b1 b2 -> plain_pair (1/100) b1 b2) /\
  (forall b1 b2, In b1 bs -> In b2 bs -> excluded b1 b2 -> excluded b2 b1) /\
  (forall j, j_b1 j = 0%nat -> j_b2 j = Some 1%nat -> at_hand bs j) /\ (forall j, j_b1 j = 2%nat -> ~ at_hand bs j).
Proof.
  intros (b1 & H1 & ->). assert (A : Forall available [b1; ball 1 x 0 (1/2)]) by (apply Forall_cons; [eapply plain_available; eauto|apply Forall_cons; [apply ball_available|apply Forall_nil]]).
  assert (P : Forall (plain_body 18 (1/10)) [b1; ball 1 x 0 (1/2)]).
  { apply Forall_cons; [|apply Forall_cons; [|apply Forall_nil]].
    - destruct (plain_manageable 0 0 0 2 2 b1 H1) as (_ & _ & I1 & G1); [lra|lra|]. unfold plain_body, solid. rewrite (pr_kind _ _ _ _ _ _ H1), (pr_eps _ _ _ _ _ _ H1). cbn [fst snd]. repeat split; auto; lra.
    - destruct (ball_manageable 1 x 0 (1/2)) as (_ & _ & I2 & G2); [lra|]. unfold plain_body, solid. change (b_kind (ball 1 x 0 (1/2))) with (KCircle (1/2)). change (b_eps (ball 1 x 0 (1/2))) with (1/10). repeat split; auto; lra. }
  split; [discriminate|]. split; [exact A|]. split; [exact P|]. split; [intros b Hb; rewrite Forall_forall in A, P; pose proof (A b Hb); pose proof (P b Hb) as Pb; split; [assumption|]; split; [eapply plain_tidy; eauto|]; destruct Pb as (_ & I & G & _); auto|]. split.
  { intros [|[|i]] [|[|j]] c1 c2 N E1 E2 _; try lia; cbn in E1, E2; try discriminate; try (destruct i; discriminate); try (destruct j; discriminate).
    - injection E1 as <-. injection E2 as <-. unfold plain_pair. rewrite (pr_kind _ _ _ _ _ _ H1). cbn. lra.
    - injection E1 as <-. injection E2 as <-. unfold plain_pair. rewrite (pr_kind _ _ _ _ _ _ H1). cbn. lra. }
  split. { intros c1 c2 _ [<-|[<-|[]]]; unfold excluded; [rewrite (pr_nc _ _ _ _ _ _ H1)|]; intros []. }
  unfold at_hand. cbn [map]. rewrite (pr_id _ _ _ _ _ _ H1). change (b_id (ball 1 x 0 (1/2))) with 1%nat. split.
  - intros j E1 E2. rewrite E1, E2. split; [cbn; auto|]. intros id [= <-]. cbn. auto.
  - intros j E1. rewrite E1. intros [[H|[H|[]]] _]; discriminate.
Qed.
(** at 3/2 they touch *)
Lemma near_box_apart bs i j b1 b2 : near_box (3/2) bs -> i <> j -> nth_error bs i = Some b1 -> nth_error bs j = Some b2 -> overlap_at_most (1/100) b1 b2.
Proof.
  intros (b & H1 & ->). set (d := ball 1 (3/2) 0 (1/2)). pose proof (plain_circle _ _ _ _ _ _ H1) as Cb. pose proof (plain_verts _ _ _ _ _ _ H1) as Vb.
  assert (O : forall q1 q2, body_points b q1 -> body_points d q2 -> fst q1 <= fst q2).
  { intros q1 q2 P1 P2. apply (polygon_points _ _ Cb) in P1. apply (proj1 (circle_points d q2 eq_refl)) in P2. change (b_pos d) with (3/2, 0) in P2. change (b_rad d) with (1/2) in P2.
    assert (L : aff 0 1 0 (v2sub q1 (b_pos b)) <= 1). { apply (in_hull_aff (b_verts b)); [exact P1|]. intros z Hz. rewrite Vb in Hz. unfold corners in Hz. unfold aff. repeat (destruct Hz as [<-|Hz]; [cbn; lra|]). destruct Hz. }
    rewrite (pr_pos _ _ _ _ _ _ H1) in L. unfold aff, v2sub in L. rnum. cbn [fst snd] in *. pose proof (unit_dot (1, 0) (3/2, 0) q2) as D. unfold unit_vec in D. cbn [fst snd] in D. rewrite PlaneFacts.dist_sym in D. specialize (D ltac:(lra)). lra. }
  destruct i as [|[|i]], j as [|[|j]]; intros N E1 E2; try lia; cbn in E1, E2; try discriminate; try (destruct i; discriminate); try (destruct j; discriminate); injection E1 as <-; injection E2 as <-.
  - exists (-1, 0). split; [unfold unit_vec; cbn; lra|]. intros q1 q2 P1 P2. specialize (O q1 q2 P1 P2). cbn [fst snd]. lra.
  - exists (1, 0). split; [unfold unit_vec; cbn; lra|]. intros q1 q2 P1 P2. specialize (O q2 q1 P2 P1). cbn [fst snd]. lra.
Qed.
(** at 1 they overlap by half the radius or more *)
Lemma near_box_deep bs : near_box 1 bs -> exists i j b1 b2, i <> j /\ nth_error bs i = Some b1 /\ nth_error bs j = Some b2 /\ ~ excluded b1 b2 /\ ~ overlap_at_most (1/100) b1 b2.
Proof.
  intros (b & H1 & ->). set (d := ball 1 1 0 (1/2)). exists 0%nat, 1%nat, b, d. split; [lia|]. split; [reflexivity|]. split; [reflexivity|]. split; [intros []|].
  intros (n & Hn & H). pose proof (plain_circle _ _ _ _ _ _ H1) as Cb. pose proof (plain_verts _ _ _ _ _ _ H1) as Vb. unfold unit_vec in Hn.
  specialize (H (1, 0) (1 + fst n / 2, snd n / 2)). cbn [fst snd] in H.
  assert (P1 : body_points b (1, 0)).
  { apply (polygon_points _ _ Cb). rewrite (pr_pos _ _ _ _ _ _ H1), Vb. apply GameFacts.corners_hull; [lra|lra|]. unfold v2sub. rnum. cbn [fst snd]. lra. }
  assert (P2 : body_points d (1 + fst n / 2, snd n / 2)).
  { apply (circle_points d _ eq_refl). change (b_pos d) with (1, 0). change (b_rad d) with (1/2). unfold dist. cbn [fst snd].
    rewrite <- (sqrt_Rsqr (1/2)) by lra. apply sqrt_le_1_alt. unfold Rsqr. nra. }
  specialize (H P1 P2). nra.
Qed.

Lemma near_box_world x : exists w b1 b2, simulated 18 pair_oracle w /\ broadphase_sane (@pair_oracle R) /\ broadphase_complete (@pair_oracle R) /\
  nth_error (w_bodies w) 0 = Some b1 /\ nth_error (w_bodies w) 1 = Some b2 /\ padded w b1 b2 /\ ~ excluded b1 b2 /\ ~ excluded b2 b1 /\ plain_pair (1/4) b1 b2 /\
  b_pos b1 = (0, 0) /\ b_pos b2 = (x, 0).
Proof.
  destruct (near_box_ex x) as (bs & H). pose proof (near_box_scene _ _ H) as (S1 & S2 & S3 & _).
  destruct (scene_world 18 pair_oracle [] bs [] (1/2) (1/10) (1/100) 2 false pair_sane S1 S2 S3 (Forall_nil _)) as (w & W & Hs & We & Ef).
  destruct H as (b & H1 & ->). destruct (scene_body' _ w 0 b Ef eq_refl) as (b1 & B1 & E1). destruct (scene_body' _ w 1 _ Ef eq_refl) as (b2 & B2 & E2).
  exists w, b1, b2. pose proof (still_shape _ _ (still_forget _ _ E1)) as (I1 & P1 & _ & _ & _ & G1). pose proof (still_shape _ _ (still_forget _ _ E2)) as (I2 & P2 & _ & _ & _ & G2).
  apply Forall_inv in S3 as T1. apply Forall_inv_tail, Forall_inv in S3 as T2. destruct T1 as (S1' & _ & _ & D1 & _ & _). destruct T2 as (S2' & _ & _ & D2 & _ & _).
  destruct (forget_pad _ _ E1 S1' D1) as [Q1 Ep1]. destruct (forget_pad _ _ E2 S2' D2) as [Q2 Ep2].
  split; [exact Hs|]. split; [apply pair_sane|]. split; [apply pair_complete|]. split; [exact B1|]. split; [exact B2|].
  split. { unfold padded. rewrite We, Ep1, Ep2, (pr_eps _ _ _ _ _ _ H1). change (b_eps (ball 1 x 0 (1/2))) with (1/10). split; [exact Q1|]. split; [exact Q2|]. lra. }
  split; [unfold excluded; rewrite G2; intros []|]. split; [unfold excluded; rewrite G1, (pr_nc _ _ _ _ _ _ H1); intros []|].
  split. { apply (forget_plain _ _ _ _ _ E1 E2). unfold plain_pair. rewrite (pr_kind _ _ _ _ _ _ H1). cbn. lra. }
  split; [rewrite P1; apply (pr_pos _ _ _ _ _ _ H1)|rewrite P2; reflexivity].
Qed.

(** a triangle above the line y = 0 and a triangle below the line y = -1/32 *)
Definition wedge (strict : bool) : res (world float) := (
  do h1 <- hull_init 0 (0, 0) [(0, 0); (4, 0); (4, 3)] [0; 0; 0] 1 0.5 0.5 0.125;
  do h2 <- hull_init 1 (0, 0) [(0.25, -0x1p-5); (-1.75, -4); (0.5, -5)] [0; 0; 0] 1 0.5 0.5 0.125;
  world_init pair_oracle (diff_handler 18 pair_oracle) [] [h1; h2] [] 0.125 0.125 0x1p-20 2 false strict)%float.
