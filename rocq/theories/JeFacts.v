(** The rows of Je, and the anchors *)
From Coq Require Import List Arith ZArith Bool Reals Lra Lia.
From Verif Require Import Num Tensor Utils Bodies Forces Constraints Contacts World Spec ResFacts RBase GeoSpec BodySpec JointSpec
     BodyFacts WorldFacts HandlerFacts LayoutFacts HistFacts UtilFacts LinAlg SysFacts BodyReach RewindSpec RewindFacts JointFacts.
Import ListNotations.
Open Scope R_scope.

Lemma polar_rotate r th d : polar_to_cart r (th + d) = rotate d (polar_to_cart r th).
Proof.
  unfold polar_to_cart, rotate. rnum. cbn [fst snd]. rewrite cos_plus, sin_plus. apply f_equal2; ring.
Qed.
Lemma joint_init_fields (b1 : body R) o pos : j_kind (joint_init b1 o pos) = JJoint /\ j_b1 (joint_init b1 o pos) = b_id b1 /\
  j_b2 (joint_init b1 o pos) = option_map b_id o /\ polar_to_cart (j_r1 (joint_init b1 o pos)) (j_rot1 (joint_init b1 o pos)) = v2sub pos (b_pos b1).
Proof.
  unfold joint_init. pose proof (polar_round_trip (v2sub pos (b_pos b1))) as P.
  destruct (cart_to_polar (v2sub pos (b_pos b1))) as [r th]. cbn. destruct P as [P _]. destruct o; auto.
Qed.
Lemma joint_anchor bs js w : world_of bs js w ->
  forall n c1 c2 pos, nth_error js n = Some (joint_init c1 c2 pos) -> In c1 bs -> (forall b, c2 = Some b -> In b bs) ->
  exists j i1 i2 b1,
    nth_error (w_joints w) n = Some (j, i1, i2) /\
    nth_error bs i1 = Some c1 /\ nth_error (w_bodies w) i1 = Some b1 /\
    j_pos1 j = rotate (b_rot b1 - b_rot c1) (v2sub pos (b_pos c1)) /\
    j_pos j = v2add (b_pos b1) (j_pos1 j) /\
    match c2, i2 with
    | None, None => True
    | Some d2, Some i => exists b2, nth_error bs i = Some d2 /\ nth_error (w_bodies w) i = Some b2 /\
        j_pos2 j = v2sub (j_pos j) (b_pos b2)
    | _, _ => False
    end.
Proof.
  intros Hw n c1 c2 pos Hn Hc1 Hc2. apply world_of_joints in Hw. destruct Hw as (J0 & Hnd & _ & He & [_ Hj] & _).
  destruct (nth_error_Forall2_l _ _ _ _ _ He Hn) as ([[j0 i1] i2] & He0 & (-> & (d1 & Hd1 & Ed1) & H2)).
  destruct (nth_error_Forall2_l _ _ _ _ _ Hj He0) as ([[j k1] k2] & Hj0 & (-> & -> & a1 & b1 & b2 & Ha & Hb & Hok)).
  destruct (joint_init_fields c1 c2 pos) as (K & I1 & I2 & P). rewrite I1 in Ed1. rewrite I2 in H2.
  assert (d1 = c1) by (eapply NoDup_ids; eauto). subst d1. rewrite Hd1 in Ha. inversion Ha; subst a1; clear Ha.
  apply joint_bodies_Ok in Hb. destruct Hb as [Hb1 Hb2].
  destruct Hok as (_ & _ & _ & _ & Hok). rewrite K in Hok. destruct Hok as (O1 & O2 & O3 & O4).
  exists j, i1, i2, b1. split; [exact Hj0|]. split; [exact Hd1|]. split; [exact Hb1|]. split.
  - rewrite O2, O1, polar_rotate, P. reflexivity.
  - split; [exact O3|]. destruct c2 as [d2|], i2 as [i|]; cbn in H2; try tauto.
    destruct H2 as (x & Hx & Ex). destruct Hb2 as (y & -> & Hy). exists y.
    assert (x = d2) by (eapply NoDup_ids; eauto). subst x. auto.
Qed.

(** *** rows *)
Definition entry_rows (n : nat) (e : jent) : matR :=
  let '(j, i1, i2) := e in
  let '(J1, oJ2) := j_J j in
  let rows := map (row_put (vzeros n) (3 * i1)) J1 in
  match oJ2, i2 with
  | Some J2, Some i => map2 (fun r b => row_put r (3 * i) b) rows J2
  | _, _ => rows
  end.
Definition wf_entry (nb : nat) (e : jent) : Prop :=
  let '(j, i1, i2) := e in (i1 < nb)%nat /\
  match i2 with Some i => (i < nb)%nat /\ i1 <> i | None => True end /\
  match j_kind j with
  | JJoint => match j_b2 j, i2 with None, None => True | Some _, Some _ => True | _, _ => False end
  | JFixed => match i2 with Some _ => True | None => False end
  | _ => i2 = None
  end.
Lemma map2_map {A B C D} (f : A -> B -> C) (g : D -> A) l l' : map2 f (map g l) l' = map2 (fun d b => f (g d) b) l l'.
Proof. revert l'; induction l; destruct l'; simpl; f_equal; auto. Qed.
Lemma j_num_J (j : joint R) : length (fst (j_J j)) = j_num j.
Proof. unfold j_J, j_num. destruct (j_kind j); reflexivity. Qed.
Lemma j_J2_num (j : joint R) J2 : snd (j_J j) = Some J2 -> length J2 = j_num j.
Proof. unfold j_J, j_num. destruct (j_kind j); cbn; try discriminate; [destruct (j_b2 j); [|discriminate]|]; intros E; inversion E; reflexivity. Qed.
Lemma entry_rows_length n e : length (entry_rows n e) = j_num (fst (fst e)).
Proof.
  destruct e as [[j i1] i2]. unfold entry_rows. pose proof (j_num_J j) as L1. pose proof (j_J2_num j) as L2.
  destruct (j_J j) as [J1 oJ2]. cbn [fst snd] in *. destruct oJ2 as [J2|]; [destruct i2|]; try (now rewrite map_length).
  specialize (L2 _ eq_refl). unfold mat, vec in *. rewrite map2_length, map_length. lia.
Qed.
Lemma Je_gen n es : forall (done : matR),
  snd (fold_left
         (fun '(row, m) '(j, i1, i2) =>
            let '(J1, oJ2) := j_J j in
            let m1 := blk_put m row (3 * i1) J1 in
            let m2 := match oJ2, i2 with
                      | Some J2, Some i => blk_put m1 row (3 * i) J2
                      | _, _ => m1
                      end in
            ((row + length J1)%nat, m2)) es
         (length done, done ++ mzeros (fold_right (fun e k => (j_num (fst (fst e)) + k)%nat) 0%nat es) n))
  = done ++ flat_map (entry_rows n) es.
Proof.
  set (F := fun '(row, m) '(j, i1, i2) => _).
  induction es as [|[[j i1] i2] es IH]; intros done; [reflexivity|].
  cbn [fold_left fold_right fst]. set (rest := fold_right _ 0%nat es) in *.
  assert (E : F (length done, done ++ mzeros (j_num j + rest) n) (j, i1, i2) =
              (length (done ++ entry_rows n (j, i1, i2)), (done ++ entry_rows n (j, i1, i2)) ++ mzeros rest n)).
  { rewrite app_length, entry_rows_length. unfold F, entry_rows. cbn [fst]. pose proof (j_num_J j) as L1. pose proof (j_J2_num j) as L2.
    destruct (j_J j) as [J1 oJ2]. cbn [fst snd] in *. rewrite mzeros_app, blk_put_app by (unfold mzeros; rewrite repeat_length; auto).
    rewrite <- L1. change (map2 (fun r b => row_put r (3 * i1) b) (mzeros (length J1) n) J1) with (map2 (fun r b => row_put r (3 * i1) b) (repeat (vzeros n) (length J1)) J1).
    rewrite map2_repeat. apply f_equal2; [reflexivity|].
    destruct oJ2 as [J2|]; [destruct i2 as [i|]|]; try (now rewrite app_assoc).
    specialize (L2 _ eq_refl). rewrite blk_put_app by (unfold mat, vec in *; rewrite map_length; lia). now rewrite app_assoc. }
  rewrite E, IH. cbn [flat_map]. now rewrite app_assoc.
Qed.
Lemma sum_nums js n : fold_left (fun n (j : joint R) => (n + j_num j)%nat) js n = (n + fold_right (fun j k => (j_num j + k)%nat) 0%nat js)%nat.
Proof. revert n; induction js; intros n; simpl; [lia|]. rewrite IHjs. lia. Qed.
Definition world_rows (w : world R) : Prop :=
  w_num_constraints w = fold_right (fun e k => (j_num (fst (fst e)) + k)%nat) 0%nat (w_joints w) /\
  Forall (wf_entry (length (w_bodies w))) (w_joints w).
Lemma Je_rows w : world_rows w -> Je w = flat_map (entry_rows (3 * length (w_bodies w))) (w_joints w).
Proof. intros [H _]. unfold Je. rewrite H. exact (Je_gen _ _ []). Qed.

Definition founded (bs : list (body R)) (js : list (joint R)) J0 (w : world R) : Prop :=
  NoDup (map b_id bs) /\ Forall (built bs) js /\ Forall2 (entry_of bs) js J0 /\ jinvs bs J0 w /\
  w_num_constraints w = fold_left (fun n j => (n + j_num j)%nat) js 0%nat.
Lemma founded_rows bs js J0 w : founded bs js J0 w -> world_rows w.
Proof.
  intros (Hnd & Hb & He & [HL Hj] & Hnum). split.
  - rewrite Hnum, sum_nums. cbn [Nat.add]. clear - He Hj. revert js He.
    induction Hj as [|[[j0 i1] i2] [[j k1] k2] J0 J1 Hj HJ IH]; intros js He; inversion He as [|j' ? js' ? E He']; subst; [reflexivity|].
    cbn [fold_right fst]. destruct E as (-> & _). destruct Hj as (_ & _ & a1 & b1 & b2 & _ & _ & K & _). unfold j_num at 1 3. rewrite K.
    f_equal. now apply IH.
  - rewrite HL. clear Hnum.
    assert (G : forall e, In e (w_joints w) -> wf_entry (length bs) e).
    { intros [[j k1] k2] Hin. apply In_nth_error in Hin. destruct Hin as [n Hn].
      destruct (nth_error_Forall2 _ _ _ _ _ Hj Hn) as ([[j0 i1] i2] & Hn0 & (-> & -> & a1 & b1 & b2 & Ha & Hbb & Hok)).
      destruct (nth_error_Forall2 _ _ _ _ _ He Hn0) as (j' & Hj' & (-> & (d1 & Hd1 & Ed1) & H2)).
      assert (Hblt : built bs j') by (rewrite Forall_forall in Hb; eapply Hb, nth_error_In; eauto).
      destruct Hok as (K & _ & B2 & _). unfold wf_entry. rewrite K, B2.
      split; [apply nth_error_Some; congruence|]. clear - H2 Hblt Hd1 Ed1 Hnd.
      assert (LT : forall i (x : body R), nth_error bs i = Some x -> (i < length bs)%nat) by (intros; apply nth_error_Some; congruence).
      destruct Hblt as [c1 pos H1|c1 c2 pos H1 H3 Hne|c1 c2 H1 H3 Hne|c1 H1|c1 H1|c1 H1|c1 H1].
      - destruct (joint_init_fields c1 None pos) as (K & I1 & I2 & P). rewrite K, I2 in *. cbn in *. destruct i2; tauto.
      - destruct (joint_init_fields c1 (Some c2) pos) as (K & I1 & I2 & P). rewrite K, I1, I2 in *. cbn in *. destruct i2; [|tauto].
        destruct H2 as (x & Hx & Ex). split; [|exact I]. split; [eauto|]. intros ->. congruence.
      - cbn in *. destruct i2; [|tauto]. destruct H2 as (x & Hx & Ex). split; [|exact I]. split; [eauto|]. intros ->. congruence.
      - cbn in *. destruct i2; tauto.
      - cbn in *. destruct i2; tauto.
      - cbn in *. destruct i2; tauto.
      - unfold total_init in *. destruct (cart_to_polar _). cbn in *. destruct i2; tauto. }
    rewrite Forall_forall. exact G.
Qed.
Lemma world_of_rows bs js w : world_of bs js w -> world_rows w.
Proof. intros H. apply world_of_joints in H. destruct H as (J0 & H). now apply (founded_rows bs js J0). Qed.

Definition entry_vel (w : world R) (x : vecR) (e : jent) : list R :=
  let '(j, i1, i2) := e in
  match nth_error (w_bodies w) i1 with
  | None => []
  | Some b1 => measured (j_kind j) (j_pos j) (b_pos b1) (v3_at x i1)
       (match i2 with None => None | Some i => match nth_error (w_bodies w) i with
          None => None | Some b2 => Some (b_pos b2, v3_at x i) end end)
  end.
Lemma v2sub_self (a : v2 R) : v2sub a a = (0, 0).
Proof. destruct a; unfold v2sub; cbn; apply f_equal2; ring. Qed.
Lemma v2sub_add (a b : v2 R) : v2sub (v2add a b) a = b.
Proof. destruct a, b; unfold v2sub, v2add; cbn; apply f_equal2; ring. Qed.
Lemma mv_entry nb (j : joint R) i1 i2 x : wf_entry nb (j, i1, i2) -> length x = (3 * nb)%nat ->
  mv (entry_rows (3 * nb) (j, i1, i2)) x =
  match j_kind j with
  | JJoint => match i2 with
     | None => v2l (point_velocity (v3_at x i1) (j_pos1 j))
     | Some i => v2l (v2sub (point_velocity (v3_at x i1) (j_pos1 j)) (point_velocity (v3_at x i) (j_pos2 j))) end
  | JFixed => match i2 with
     | None => [] | Some i => v2l (v2sub (point_velocity (v3_at x i1) (j_pos1 j)) (point_velocity (v3_at x i) (j_pos2 j)))
                         ++ [fst (v3_at x i1) - fst (v3_at x i)] end
  | JX => [fst (snd (v3_at x i1))] | JY => [snd (snd (v3_at x i1))] | JRot => [fst (v3_at x i1)]
  | JTotal => v3list (v3_at x i1)
  end.
Proof.
  intros (H1 & H2 & H3) Hx. unfold entry_rows, j_J.
  assert (P1 : forall a b c, dot (row_put (vzeros (3 * nb)) (3 * i1) [a; b; c]) x = a * fst (v3_at x i1) + (b * fst (snd (v3_at x i1)) + c * snd (snd (v3_at x i1)))).
  { intros. change [a; b; c] with (v3list (a, (b, c)) : vecR). rewrite dot_put1 by auto. unfold d3. cbn [fst snd]. ring. }
  assert (P2 : forall i a b c a' b' c', i2 = Some i -> dot (row_put (row_put (vzeros (3 * nb)) (3 * i1) [a; b; c]) (3 * i) [a'; b'; c']) x =
      a * fst (v3_at x i1) + (b * fst (snd (v3_at x i1)) + c * snd (snd (v3_at x i1))) + (a' * fst (v3_at x i) + (b' * fst (snd (v3_at x i)) + c' * snd (snd (v3_at x i))))).
  { intros i a b c a' b' c' ->. change [a; b; c] with (v3list (a, (b, c)) : vecR). change [a'; b'; c'] with (v3list (a', (b', c')) : vecR).
    rewrite dot_put2 by (try apply H2; auto). unfold d3. cbn [fst snd]. ring. }
  destruct (j_kind j) eqn:Ek.
  - destruct (j_b2 j), i2 as [i|]; try tauto; unfold joint_J1, joint_J2; cbn [map map2 app]; rewrite !mv_cons; cbn [mv map];
     rewrite ?P1, ?(P2 i) by auto; unfold v2l, v2sub, point_velocity; rnum; cbn [fst snd]; apply f_equal2; try ring; apply f_equal2; try ring; reflexivity.
  - destruct i2 as [i|]; [|tauto]. unfold joint_J1, joint_J2; cbn [map map2 app]; rewrite !mv_cons; cbn [mv map].
     rewrite ?(P2 i) by auto; unfold v2l, v2sub, point_velocity; rnum; cbn [fst snd app]; apply f_equal2; try ring; apply f_equal2; try ring; apply f_equal2; try ring; reflexivity.
  - cbn [map]. rewrite mv_cons, P1. cbn [mv map]. rnum. apply f_equal2; [ring|reflexivity].
  - cbn [map]. rewrite mv_cons, P1. cbn [mv map]. rnum. apply f_equal2; [ring|reflexivity].
  - cbn [map]. rewrite mv_cons, P1. cbn [mv map]. rnum. apply f_equal2; [ring|reflexivity].
  - change (meye 3 : matR) with [[1; 0; 0]; [0; 1; 0]; [0; 0; 1]]. cbn [map]. rewrite !mv_cons, !P1. cbn [mv map]. unfold v3list.
    apply f_equal2; [ring|]. apply f_equal2; [ring|]. apply f_equal2; [ring|reflexivity].
Qed.
Lemma founded_measures bs js J0 w x : founded bs js J0 w -> length x = (3 * length (w_bodies w))%nat ->
  mv (Je w) x = flat_map (entry_vel w x) (w_joints w).
Proof.
  intros Hw Hx. pose proof (founded_rows _ _ _ _ Hw) as HR. rewrite (Je_rows _ HR), mv_flat_map.
  destruct HR as [_ HR]. destruct Hw as (_ & _ & _ & [_ Hj] & _).
  rewrite !flat_map_concat_map. f_equal. apply map_ext_in. intros [[j i1] i2] Hin.
  rewrite Forall_forall in HR. rewrite mv_entry by auto.
  apply In_nth_error in Hin. destruct Hin as [n Hn].
  destruct (nth_error_Forall2 _ _ _ _ _ Hj Hn) as ([[j0 k1] k2] & Hn0 & (-> & -> & a1 & b1 & b2 & Ha & Hb & Hok)).
  apply joint_bodies_Ok in Hb. destruct Hb as [Hb1 Hb2]. unfold entry_vel. rewrite Hb1.
  destruct Hok as (K & _ & _ & _ & Hok). rewrite <- K in Hok. unfold measured.
  destruct (j_kind j) eqn:Ek; try reflexivity.
  - destruct Hok as (_ & _ & O3 & O4). assert (E1 : v2sub (j_pos j) (b_pos b1) = j_pos1 j) by (rewrite O3; apply v2sub_add).
    rewrite E1. destruct k2 as [i|]; [|reflexivity]. destruct Hb2 as (y & -> & Hy). rewrite Hy, O4. reflexivity.
  - destruct Hok as (O1 & O2 & O3). destruct k2 as [i|]; [|reflexivity]. destruct Hb2 as (y & -> & Hy). rewrite Hy, O3, O2. reflexivity.
Qed.
Lemma Je_measures bs js w x : world_of bs js w -> length x = (3 * length (w_bodies w))%nat ->
  mv (Je w) x = flat_map (entry_vel w x) (w_joints w).
Proof. intros H. apply world_of_joints in H. destruct H as (J0 & H). now apply (founded_measures bs js J0). Qed.
Lemma wf_entry_rows nb e : wf_entry nb e -> wf (j_num (fst (fst e))) (3 * nb) (entry_rows (3 * nb) e).
Proof.
  intros H. split; [apply entry_rows_length|]. destruct e as [[j i1] i2]. destruct H as (H1 & H2 & _).
  unfold entry_rows. 
  assert (L3 : forall J, J = fst (j_J j) \/ Some J = snd (j_J j) -> Forall (fun r : vecR => length r = 3%nat) J).
  { intros J [->|E].
    - unfold j_J. destruct (j_kind j); cbn; repeat constructor.
    - unfold j_J in E. destruct (j_kind j); cbn in E; try discriminate; [destruct (j_b2 j); [|discriminate]|]; inversion E; repeat constructor. }
  destruct (j_J j) as [J1 oJ2]. cbn [fst snd] in *.
  assert (A1 : Forall (fun r : vecR => length r = (3 * nb)%nat) (map (row_put (vzeros (3 * nb)) (3 * i1)) J1)).
  { rewrite Forall_map. specialize (L3 _ (or_introl eq_refl)). eapply Forall_impl; [|exact L3]. intros r Hr. cbn.
    transitivity (length (vzeros (3 * nb) : vecR)); [apply row_put_length|apply vzeros_length]. rewrite vzeros_length. unfold vec in *. lia. }
  destruct oJ2 as [J2|]; [destruct i2 as [i|]|]; try exact A1.
  specialize (L3 _ (or_intror eq_refl)). revert A1 L3. generalize (map (row_put (vzeros (3 * nb)) (3 * i1)) J1) as A. intros A HA. revert J2.
  induction HA as [|r A Hr HA IH]; intros J2 HJ; [constructor|]. destruct HJ as [|b J2 Hb HJ]; [constructor|]. cbn [map2]. constructor.
  - transitivity (length r); [|exact Hr]. apply row_put_length. unfold vec in *. lia.
  - apply IH; auto.
Qed.
Lemma wf_Je w : world_rows w -> wf (w_num_constraints w) (3 * length (w_bodies w)) (Je w).
Proof.
  intros HR. rewrite (Je_rows _ HR). destruct HR as [Hn HR]. rewrite Hn. clear Hn.
  induction HR; [apply wf_nil|]. cbn [flat_map fold_right]. apply wf_app; [now apply wf_entry_rows|exact IHHR].
Qed.
