(** Contact detection between circles does not depend on the description of the scene *)
From Coq Require Import List Arith ZArith Bool Reals Lia Lra Permutation.
From Verif Require Import Num Tensor Utils Bodies Forces Constraints Contacts World Spec GeoSpec BodySpec JointSpec ContactSpec EngineSpec SymSpec SceneSpec
     RBase ResFacts LinAlg Pdipm Lcp LcpSym BodyFacts LayoutFacts SysFacts PlaneFacts WorldFacts HandlerFacts GeomFacts ContactFacts JointFacts JeFacts ListedFacts SceneFacts.
Import ListNotations.
Open Scope R_scope.

Definition circ (b : body R) : Prop := is_circle b = true /\ geom_ok b.
Definition scene (eps : R) (bs : list (body R)) : Prop :=
  Forall circ bs /\ (forall b1 b2, In b1 bs -> In b2 bs -> eps <= b_eps b1 + b_eps b2) /\
  (forall b1 b2, In b1 bs -> In b2 bs -> excluded b1 b2 -> excluded b2 b1).
Definition barred (b1 b2 : body R) : bool := existsb (Nat.eqb (b_id b1)) (g_no_contact (b_geom b2)).
Definition near (eps : R) (b1 b2 : body R) : bool :=
  negb (barred b1 b2) && negb (Rltb (b_rad b1 + b_rad b2 - dist (b_pos b1) (b_pos b2)) (- eps)).
Definition touch (eps : R) (b1 b2 : body R) (i j : nat) : contact R :=
  let D := dist (b_pos b1) (b_pos b2) in
  let n := v2div (v2sub (b_pos b1) (b_pos b2)) D in
  let pen := b_rad b1 + b_rad b2 - D in
  mkContact n (v2scale (b_rad b1 - pen / 2) (v2opp n)) (v2scale (b_rad b2 - pen / 2) n) pen i j.
Definition nob : contact R := mkContact (0, 0) (0, 0) (0, 0) 0 0 0.
Definition tch (eps : R) (bs : list (body R)) (p : nat * nat) : bool :=
  match nth_error bs (fst p), nth_error bs (snd p) with Some b1, Some b2 => near eps b1 b2 | _, _ => false end.
Definition mkc (eps : R) (bs : list (body R)) (p : nat * nat) : contact R :=
  match nth_error bs (fst p), nth_error bs (snd p) with Some b1, Some b2 => touch eps b1 b2 (fst p) (snd p) | _, _ => nob end.

Lemma find_circles gf o w : broadphase_sane o -> Forall circ (w_bodies w) ->
  find_contacts o (diff_handler gf o) w =
  Ok (with_state w (w_bodies w) (w_joints w) (w_t w) (w_v w)
        (map (mkc (w_eps w) (w_bodies w)) (filter (tch (w_eps w) (w_bodies w)) (o_collide o (w_clk w) (map b_geom (w_bodies w))))) (w_cache w) (S (w_clk w))).
Proof.
  intros Ho Hc. unfold find_contacts. set (bs := w_bodies w) in *. set (pairs := o_collide _ _ _).
  assert (HP : Forall (fun p => (fst p < length bs)%nat /\ (snd p < length bs)%nat) pairs).
  { apply Forall_forall. intros [i j] Hin. apply Ho in Hin. rewrite map_length in Hin. cbn. tauto. }
  clearbody pairs.
  match goal with |- context [fold_left ?f pairs _] => set (F := f) end.
  assert (G : forall acc clk, fold_left F pairs (Ok (acc, bs, clk)) = Ok (acc ++ map (mkc (w_eps w) bs) (filter (tch (w_eps w) bs) pairs), bs, clk)).
  { induction HP as [|[i j] ps [Hi Hj] HP IH]; intros acc clk; [cbn [fold_left filter map]; now rewrite app_nil_r|].
    cbn [fold_left]. cbn [fst snd] in Hi, Hj. destruct (nth_error bs i) as [b1|] eqn:E1; [|apply nth_error_None in E1; lia]. destruct (nth_error bs j) as [b2|] eqn:E2; [|apply nth_error_None in E2; lia].
    assert (C1 : is_circle b1 = true) by (rewrite Forall_forall in Hc; apply Hc; exact (nth_error_In _ _ E1)).
    assert (C2 : is_circle b2 = true) by (rewrite Forall_forall in Hc; apply Hc; exact (nth_error_In _ _ E2)).
    assert (EF : F (Ok (acc, bs, clk)) (i, j) = Ok (acc ++ (if tch (w_eps w) bs (i, j) then [mkc (w_eps w) bs (i, j)] else []), bs, clk)).
    { unfold F. cbn [bind]. unfold tch, mkc. cbn [fst snd]. rewrite E1, E2. unfold near, diff_handler. pose proof (proj2 (get_body_Ok bs i b1) E1) as G1. pose proof (proj2 (get_body_Ok bs j b2) E2) as G2. rewrite G1, G2. cbn [bind].
      fold (barred b1 b2). destruct (barred b1 b2); cbn [negb andb]; [reflexivity|]. rewrite C1, C2. cbn [andb]. rewrite circle_circle_eq. cbv zeta. destruct (Rltb _ _); reflexivity. }
    rewrite EF, IH. cbn [filter]. destruct (tch (w_eps w) bs (i, j)); cbn [map]; [|now rewrite app_nil_r]. now rewrite <- app_assoc. }
  rewrite G. reflexivity.
Qed.
Lemma near_sym eps bs b1 b2 : scene eps bs -> In b1 bs -> In b2 bs -> near eps b1 b2 = near eps b2 b1.
Proof.
  intros (_ & _ & Hx) H1 H2. unfold near. rewrite (PlaneFacts.dist_sym (b_pos b2)), (Rplus_comm (b_rad b2)). f_equal. f_equal.
  destruct (barred b1 b2) eqn:E1, (barred b2 b1) eqn:E2; auto; unfold barred in *.
  - apply existsb_In in E1. apply Hx in E1; auto. apply existsb_In in E1. congruence.
  - apply existsb_In in E2. apply Hx in E2; auto. apply existsb_In in E2. congruence.
Qed.
Lemma touch_mirror eps b1 b2 i j : touch eps b2 b1 j i = mirror (touch eps b1 b2 i j).
Proof.
  unfold touch, mirror. cbv zeta. cbn [c_normal c_p1 c_p2 c_pen c_i1 c_i2]. rewrite (PlaneFacts.dist_sym (b_pos b2)), (Rplus_comm (b_rad b2)). set (D := dist _ _).
  assert (N : v2div (v2sub (b_pos b2) (b_pos b1)) D = v2opp (v2div (v2sub (b_pos b1) (b_pos b2)) D)).
  { unfold v2opp, v2div, v2sub. rnum. cbn [fst snd]. unfold Rdiv. apply f_equal2; ring. }
  rewrite N. f_equal. unfold v2opp, v2scale. rnum. cbn [fst snd]. apply f_equal2; ring.
Qed.
Lemma near_overlap eps bs b1 b2 : scene eps bs -> In b1 bs -> In b2 bs -> near eps b1 b2 = true -> aabb_overlap (b_geom b1) (b_geom b2).
Proof.
  intros (Hc & He & _) H1 H2 H. unfold near in H. apply andb_true_iff in H. destruct H as [_ H]. destruct (Rltb_spec (b_rad b1 + b_rad b2 - dist (b_pos b1) (b_pos b2)) (- eps)) as [L|L]; [discriminate|].
  specialize (He b1 b2 H1 H2). rewrite Forall_forall in Hc. destruct (Hc b1 H1) as [C1 (P1 & S1 & _)], (Hc b2 H2) as [C2 (P2 & S2 & _)].
  unfold is_circle in C1, C2. unfold b_rad in L. destruct (b_kind b1) as [r1| |]; try discriminate. destruct (b_kind b2) as [r2| |]; try discriminate.
  unfold aabb_overlap, aabb_half. rewrite S1, S2, P1, P2. cbn [kind_gshape fst snd]. rnum.
  assert (Rabs (fst (b_pos b1) - fst (b_pos b2)) <= dist (b_pos b1) (b_pos b2) /\ Rabs (snd (b_pos b1) - snd (b_pos b2)) <= dist (b_pos b1) (b_pos b2)).
  { unfold dist. split; rewrite <- sqrt_Rsqr_abs; apply sqrt_le_1_alt; unfold Rsqr; pose proof (Rle_0_sqr (fst (b_pos b1) - fst (b_pos b2))) as S1'; pose proof (Rle_0_sqr (snd (b_pos b1) - snd (b_pos b2))) as S2'; unfold Rsqr in S1', S2'; lra. }
  lra.
Qed.

Lemma named_in (f : view) (i : nat) l : existsb (Nat.eqb (v_name f i)) (map (v_name f) l) = existsb (Nat.eqb i) l.
Proof.
  induction l as [|k l IH]; [reflexivity|]. cbn [map existsb]. rewrite IH. f_equal. destruct (Nat.eqb_spec i k) as [->|N]; [apply Nat.eqb_refl|]. apply Nat.eqb_neq. intros E. apply N. exact (v_apart f _ _ E).
Qed.
Lemma excluded_named (f : view) b1 b2 : excluded (turn_body f b1) (turn_body f b2) <-> excluded b1 b2.
Proof. unfold excluded. cbn [turn_body b_id b_geom g_no_contact]. rewrite <- !existsb_In, named_in. tauto. Qed.
Section Detect.
Variables (th : view) (eps : R) (sg : list nat) (bs bs' : list (body R)).
Definition cdir (c c' : contact R) : Prop :=
  c_normal c' = place th (c_normal c) /\ c_p1 c' = place th (c_p1 c) /\ c_p2 c' = place th (c_p2 c) /\ c_pen c' = c_pen c /\
  nth_error sg (c_i1 c') = Some (c_i1 c) /\ nth_error sg (c_i2 c') = Some (c_i2 c).
Definition crel (c c' : contact R) : Prop := cdir c c' \/ cdir (mirror c) c'.
Definition brel (b b' : body R) : Prop := b' = turn_body th b.
Hypothesis HB : listed brel sg bs bs'.
Hypothesis Hs : scene eps bs.

Lemma turn_is_circle b : is_circle (turn_body th b) = is_circle b.
Proof. unfold is_circle. cbn [turn_body b_kind]. destruct (b_kind b); reflexivity. Qed.
Lemma turn_rad b : b_rad (turn_body th b) = b_rad b.
Proof. unfold b_rad. cbn [turn_body b_kind]. destruct (b_kind b); reflexivity. Qed.
Lemma turn_circ b : circ b -> circ (turn_body th b).
Proof.
  intros [C (P & S & K)]. split; [now rewrite turn_is_circle|]. unfold geom_ok in *. cbn [turn_body b_geom b_kind b_eps g_pos g_shape g_quat b_pos b_p turn_pose snd]. unfold b_pos in *. cbn [turn_body b_p turn_pose snd fst]. rewrite P. split; [reflexivity|].
  unfold is_circle in C. destruct (b_kind b); try discriminate. split; [exact S|exact I].
Qed.
Lemma scene_turn : scene eps bs'.
Proof.
  assert (G : forall b', In b' bs' -> exists b, In b bs /\ b' = turn_body th b).
  { intros b' H. apply In_nth_error in H. destruct H as [k Ek]. destruct (listed_r _ _ _ _ _ _ HB Ek) as (i & b & _ & Eb & R). exists b. split; [exact (nth_error_In _ _ Eb)|exact R]. }
  destruct Hs as (H1 & H2 & H3). split; [|split].
  - apply Forall_forall. intros b' H. apply G in H. destruct H as (b & Hb & ->). apply turn_circ. rewrite Forall_forall in H1. auto.
  - intros b1 b2 E1 E2. apply G in E1, E2. destruct E1 as (a1 & E1 & ->), E2 as (a2 & E2 & ->). exact (H2 a1 a2 E1 E2).
  - intros b1 b2 E1 E2. apply G in E1, E2. destruct E1 as (a1 & E1 & ->), E2 as (a2 & E2 & ->). rewrite !excluded_named. exact (H3 a1 a2 E1 E2).
Qed.
Lemma near_turn b1 b2 : near eps (turn_body th b1) (turn_body th b2) = near eps b1 b2.
Proof. unfold near, barred. cbn [turn_body b_id b_geom g_no_contact]. rewrite named_in. rewrite !turn_rad. unfold b_pos. cbn [turn_body b_p turn_pose snd]. now rewrite rt_dist. Qed.
Lemma touch_turn b1 b2 i1 i2 k1 k2 : nth_error sg k1 = Some i1 -> nth_error sg k2 = Some i2 ->
  cdir (touch eps b1 b2 i1 i2) (touch eps (turn_body th b1) (turn_body th b2) k1 k2).
Proof.
  intros E1 E2. unfold cdir, touch. cbv zeta. cbn [c_normal c_p1 c_p2 c_pen c_i1 c_i2]. rewrite !turn_rad. unfold b_pos. cbn [turn_body b_p turn_pose snd]. rewrite rt_dist.
  rewrite <- rt_sub, <- rt_div, <- rt_opp, <- !rt_scale. auto 7.
Qed.
Definition key (p : nat * nat) : nat * nat := (Nat.min (fst p) (snd p), Nat.max (fst p) (snd p)).
Definition back (p : nat * nat) : nat * nat := (nth (fst p) sg 0%nat, nth (snd p) sg 0%nat).
Definition inr (n : nat) (p : nat * nat) : Prop := fst p <> snd p /\ (fst p < n)%nat /\ (snd p < n)%nat.
Lemma key_cases p q : key p = key q -> q = p \/ q = (snd p, fst p).
Proof. destruct p as [a b], q as [c d]. unfold key. cbn [fst snd]. intros H. injection H as H1 H2. assert ((c = a /\ d = b) \/ (c = b /\ d = a)) as [[-> ->]|[-> ->]] by lia; auto. Qed.
Lemma len_sg : length sg = length bs /\ length bs' = length bs.
Proof. apply (listed_len _ _ _ _ HB). Qed.
Lemma sg_nth k : (k < length bs)%nat -> nth_error sg k = Some (nth k sg 0%nat).
Proof. intros H. apply nth_error_nth'. destruct len_sg. lia. Qed.
Lemma sg_body k : (k < length bs)%nat -> exists b, nth_error bs (nth k sg 0%nat) = Some b /\ nth_error bs' k = Some (turn_body th b) /\ (nth k sg 0%nat < length bs)%nat.
Proof.
  intros H. destruct (listed_k _ _ _ _ _ _ HB (sg_nth k H)) as (a & b & Ea & Eb & Hr). rewrite Hr in Eb. exists a. split; [exact Ea|]. split; [exact Eb|]. apply nth_error_Some. congruence.
Qed.
Lemma sg_inj k l : (k < length bs)%nat -> (l < length bs)%nat -> nth k sg 0%nat = nth l sg 0%nat -> k = l.
Proof. destruct HB as [HO _]. pose proof (ordering_NoDup _ _ HO) as ND. destruct len_sg as [L _]. intros H1 H2. apply (proj1 (NoDup_nth sg 0%nat) ND); lia. Qed.
Lemma tch_back p : inr (length bs) p -> tch eps bs' p = tch eps bs (back p).
Proof.
  intros (_ & H1 & H2). destruct (sg_body _ H1) as (b1 & E1 & F1 & _), (sg_body _ H2) as (b2 & E2 & F2 & _). unfold tch, back. cbn [fst snd]. rewrite E1, E2, F1, F2. apply near_turn.
Qed.
Lemma tch_swap i j : tch eps bs (i, j) = tch eps bs (j, i).
Proof.
  unfold tch. cbn [fst snd]. destruct (nth_error bs i) eqn:E1, (nth_error bs j) eqn:E2; auto. apply (near_sym _ bs); auto; eapply nth_error_In; eauto.
Qed.
Lemma back_inr p : inr (length bs) p -> inr (length bs) (back p).
Proof.
  intros (H0 & H1 & H2). destruct (sg_body _ H1) as (_ & _ & _ & F1), (sg_body _ H2) as (_ & _ & _ & F2). split; [|auto]. cbn [back fst snd]. intros E. apply sg_inj in E; auto.
Qed.
Lemma contacts_match o o' k k' : broadphase_ok o -> broadphase_ok o' ->
  up_to_order crel (map (mkc eps bs) (filter (tch eps bs) (o_collide o k (map b_geom bs))))
                   (map (mkc eps bs') (filter (tch eps bs') (o_collide o' k' (map b_geom bs')))).
Proof.
  intros (O1 & O2 & O3) (O1' & O2' & O3'). specialize (O3 k (map b_geom bs)). specialize (O3' k' (map b_geom bs')).
  set (pairs := o_collide o k (map b_geom bs)) in *. set (pairs' := o_collide o' k' (map b_geom bs')) in *. destruct len_sg as [Lg Lb].
  assert (I1 : forall p, In p pairs -> inr (length bs) p). { intros [i j] H. apply O1 in H. rewrite map_length in H. exact H. }
  assert (I2 : forall p, In p pairs' -> inr (length bs) p). { intros [i j] H. apply O1' in H. rewrite map_length in H. unfold inr. cbn. lia. }
  set (l1 := filter (tch eps bs) pairs). set (l2 := filter (tch eps bs') pairs').
  assert (K : forall (l : list (nat * nat)) (f : nat * nat -> nat * nat), NoDup (map f l) -> forall g, NoDup (map f (filter g l))).
  { clear. intros l f. induction l as [|a l IH]; intros H g; [constructor|]. cbn [map filter] in *. apply NoDup_cons_iff in H. destruct H as [H1 H2]. destruct (g a); [|auto]. cbn [map]. constructor; [|auto].
    intros H. apply H1. apply in_map_iff in H. destruct H as (x & Ex & Hx). apply filter_In in Hx. apply in_map_iff. exists x. tauto. }
  assert (N1 : NoDup (map key l1)). { apply K. replace (map key pairs) with (map (fun '(i, j) => (Nat.min i j, Nat.max i j)) pairs); [exact O3|]. apply map_ext. now intros []. }
  assert (N2 : NoDup (map key l2)). { apply K. replace (map key pairs') with (map (fun '(i, j) => (Nat.min i j, Nat.max i j)) pairs'); [exact O3'|]. apply map_ext. now intros []. }
  assert (N3 : NoDup (map (fun p => key (back p)) l2)).
  { assert (I3 : forall p, In p l2 -> inr (length bs) p) by (intros p Hp; apply I2; apply filter_In in Hp; tauto). clearbody l2. clear - N2 I3 HB. induction l2 as [|p l IH]; [constructor|]. cbn [map] in *. apply NoDup_cons_iff in N2. destruct N2 as [M1 M2]. constructor; [|apply IH; auto; intros; apply I3; cbn; auto].
    intros H. apply M1. apply in_map_iff in H. destruct H as (q & Eq & Hq). apply in_map_iff. exists q. split; [|exact Hq]. pose proof (I3 p (or_introl eq_refl)) as (P0 & P1 & P2). pose proof (I3 q (or_intror Hq)) as (Q0 & Q1 & Q2).
    apply key_cases in Eq. destruct p as [a b], q as [c d]. unfold back in Eq. cbn [fst snd] in *. destruct Eq as [Eq|Eq]; injection Eq as E1 E2; apply sg_inj in E1, E2; auto; subst; unfold key; cbn [fst snd]; f_equal; lia. }
  assert (PM : Permutation (map (fun p => key (back p)) l2) (map key l1)).
  { apply NoDup_Permutation; auto. intros q. split; intros H; apply in_map_iff in H; destruct H as (p & <- & Hp); apply filter_In in Hp; destruct Hp as [Hp Tp]; apply in_map_iff.
    - pose proof (I2 p Hp) as Ip. rewrite tch_back in Tp by exact Ip. pose proof (back_inr p Ip) as (B0 & B1 & B2). set (q := back p) in *. destruct q as [i j]. cbn [fst snd] in *.
      destruct (nth_error bs i) as [b1|] eqn:E1; [|apply nth_error_None in E1; lia]. destruct (nth_error bs j) as [b2|] eqn:E2; [|apply nth_error_None in E2; lia].
      assert (OV : aabb_overlap (b_geom b1) (b_geom b2)). { apply (near_overlap eps bs); auto; try (eapply nth_error_In; eauto). unfold tch in Tp. cbn [fst snd] in Tp. now rewrite E1, E2 in Tp. }
      destruct (O2 k (map b_geom bs) i j (b_geom b1) (b_geom b2)) as [H|H]; auto; try (rewrite nth_error_map; now rewrite ?E1, ?E2).
      + exists (i, j). split; [reflexivity|]. apply filter_In. auto.
      + exists (j, i). split; [unfold key; cbn [fst snd]; f_equal; lia|]. apply filter_In. rewrite tch_swap. auto.
    - pose proof (I1 p Hp) as (B0 & B1 & B2). destruct p as [i j]. cbn [fst snd] in *.
      destruct (nth_error bs i) as [b1|] eqn:E1; [|apply nth_error_None in E1; lia]. destruct (nth_error bs j) as [b2|] eqn:E2; [|apply nth_error_None in E2; lia].
      destruct (listed_l _ _ _ _ _ _ HB E1) as (k1 & c1 & S1 & F1 & ->), (listed_l _ _ _ _ _ _ HB E2) as (k2 & c2 & S2 & F2 & ->).
      assert (T' : tch eps bs' (k1, k2) = true). { unfold tch in *. cbn [fst snd] in *. rewrite E1, E2 in Tp. rewrite F1, F2, near_turn. exact Tp. }
      assert (OV : aabb_overlap (b_geom (turn_body th b1)) (b_geom (turn_body th b2))).
      { apply (near_overlap eps bs'); [apply scene_turn| | |]; try (eapply nth_error_In; eauto). unfold tch in T'. cbn [fst snd] in T'. now rewrite F1, F2 in T'. }
      assert (NK : k1 <> k2) by (intros ->; congruence).
      assert (BK : back (k1, k2) = (i, j)). { unfold back. cbn [fst snd]. now rewrite (nth_error_nth _ _ 0%nat S1), (nth_error_nth _ _ 0%nat S2). }
      assert (BK' : back (k2, k1) = (j, i)). { unfold back. cbn [fst snd]. now rewrite (nth_error_nth _ _ 0%nat S1), (nth_error_nth _ _ 0%nat S2). }
      destruct (O2' k' (map b_geom bs') k1 k2 (b_geom (turn_body th b1)) (b_geom (turn_body th b2))) as [H|H]; auto; try (rewrite nth_error_map; now rewrite ?F1, ?F2).
      + exists (k1, k2). split; [now rewrite BK|]. apply filter_In. auto.
      + exists (k2, k1). split; [rewrite BK'; unfold key; cbn [fst snd]; f_equal; lia|]. apply filter_In. split; [exact H|]. rewrite tch_back by (apply I2; exact H). rewrite BK', tch_swap. exact Tp. }
  apply Permutation_map_inv in PM. destruct PM as (l3 & E3 & P3). exists (map (mkc eps bs) l3). split; [now apply Permutation_map|].
  assert (I3 : forall p, In p l2 -> inr (length bs) p) by (intros p Hp; apply I2; apply filter_In in Hp; tauto). clearbody l2. clear - E3 I3 HB. revert l3 E3.
  induction l2 as [|q l2 IH]; intros [|p l3] E3; cbn [map] in *; try discriminate; constructor; [|apply IH; [intros; apply I3; cbn; auto|congruence]].
  assert (Ek : key (back q) = key p) by exact (f_equal (hd (0, 0)%nat) E3). pose proof (I3 q (or_introl eq_refl)) as (Q0 & Q1 & Q2). destruct q as [k1 k2]. cbn [fst snd] in *.
  destruct (sg_body _ Q1) as (b1 & E1 & F1 & _), (sg_body _ Q2) as (b2 & E2 & F2 & _). pose proof (sg_nth _ Q1) as S1. pose proof (sg_nth _ Q2) as S2.
  assert (Em : mkc eps bs' (k1, k2) = touch eps (turn_body th b1) (turn_body th b2) k1 k2). { unfold mkc. cbn [fst snd]. now rewrite F1, F2. }
  apply (key_cases (back (k1, k2))) in Ek. unfold back in Ek. cbn [fst snd] in Ek. rewrite Em. destruct Ek as [-> | ->]; unfold mkc; cbn [fst snd]; rewrite E1, E2; [left; now apply touch_turn|].
  right. rewrite <- touch_mirror. now apply touch_turn.
Qed.
End Detect.
