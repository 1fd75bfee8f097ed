(** Invariants of joints and their Jacobians *)
From Coq Require Import List Arith ZArith Bool Reals Lra Lia.
From Verif Require Import Num Tensor Utils Bodies Forces Constraints Contacts World Spec ResFacts RBase GeoSpec BodySpec JointSpec
     BodyFacts WorldFacts HandlerFacts LayoutFacts HistFacts UtilFacts LinAlg SysFacts BodyReach RewindSpec RewindFacts.
Import ListNotations.
Open Scope R_scope.

Notation rots w := (map (fun '(j, _, _) => (j_rot1 j, j_rot2 j)) (w_joints w)).
Lemma step_dt_pieces2 (P : world R -> Prop) fuel o hd e :
  (forall w c, P w -> P (with_cache w c)) ->
  (forall w t, P w -> P (with_t w t)) ->
  (forall w v w', P w -> set_v w v = Ok w' -> P w') ->
  (forall w dt w', P w -> move_all w dt = Ok w' -> P w') ->
  (forall w0 w w', P w0 -> P w -> rewind w (cat3 (map b_p (w_bodies w0))) (rots w0) = Ok w' -> P w') ->
  (forall w w', P w -> find_contacts o hd w = Ok w' -> P w') ->
  forall w dt w', P w -> step_dt fuel o hd e w dt = Ok w' -> P w'.
Proof.
  intros Hc Ht Hv Hm Hr Hf w dt w' Hw H. unfold step_dt in H.
  bind_inv H as sol Es. destruct sol as [nv cache]. bind_inv H as w1 E1. bind_inv H as r Er.
  destruct r as [w2 dt']. bind_inv H as w3 E3.
  assert (P1 : P w1) by (eapply Hv; [apply Hc, Hw|exact E1]).
  apply step_loop_tries in Er. destruct Er as (k & _ & Htr).
  assert (P2 : P w2).
  { clear - Hm Hr Hf Hw P1 Htr.
    induction Htr as [xa xd xb xc M1 F1 _ | xa xd xb xc xe xk xf xd' M1 F1 _ _ R1 Htr IH].
    - exact (Hf _ _ (Hm _ _ _ P1 M1) F1).
    - apply IH. exact (Hr _ _ _ Hw (Hf _ _ (Hm _ _ _ P1 M1) F1) R1). }
  assert (P3 : P w3).
  { destruct (w_post_stab w2); [|inversion E3; subst; auto].
    bind_inv E3 as dp Ed. bind_inv E3 as wa Ea. bind_inv E3 as wb Eb. bind_inv E3 as wc Ec.
    exact (Hf _ _ (Hv _ _ _ (Hm _ _ _ (Hv _ _ _ P2 Ea) Eb) Ec) E3). }
  inversion H. subst. auto.
Qed.

(** the state of joint [e] given what it was built as ([e0]) and where the bodies are *)
Definition jok (j0 j : joint R) (a1 b1 : body R) (b2 : option (body R)) : Prop :=
  j_kind j = j_kind j0 /\ j_b1 j = j_b1 j0 /\ j_b2 j = j_b2 j0 /\ j_r1 j = j_r1 j0 /\
  match j_kind j0 with
  | JJoint => j_rot1 j = j_rot1 j0 + (b_rot b1 - b_rot a1) /\ j_pos1 j = polar_to_cart (j_r1 j0) (j_rot1 j) /\
      j_pos j = v2add (b_pos b1) (j_pos1 j) /\ match b2 with Some b => j_pos2 j = v2sub (j_pos j) (b_pos b) | None => True end
  | JFixed => j_pos j = b_pos b1 /\ j_pos1 j = v2sub (j_pos j) (b_pos b1) /\
      match b2 with Some b => j_pos2 j = v2sub (j_pos j) (b_pos b) | None => True end
  | JX | JY | JRot => j_pos j = b_pos b1 /\ j_rot1 j = b_rot b1
  | JTotal => j_rot1 j = j_rot1 j0 + (b_rot b1 - b_rot a1) /\ j_pos1 j = polar_to_cart (j_r1 j0) (j_rot1 j) /\
      j_pos j = v2add (b_pos b1) (j_pos1 j)
  end.
Definition jinv (B0 bs : list (body R)) (e0 e : jent) : Prop :=
  let '(j0, i1, i2) := e0 in let '(j, k1, k2) := e in
  k1 = i1 /\ k2 = i2 /\ exists a1 b1 b2, nth_error B0 i1 = Some a1 /\ joint_bodies bs i1 i2 = Ok (b1, b2) /\ jok j0 j a1 b1 b2.
Definition jinvs (B0 : list (body R)) (J0 : list jent) (w : world R) : Prop :=
  length (w_bodies w) = length B0 /\ Forall2 (jinv B0 (w_bodies w)) J0 (w_joints w).

Definition posed (b b' : body R) : Prop := b_p b' = b_p b.
Lemma jinv_posed B0 bs bs' e0 e : Forall2 posed bs bs' -> jinv B0 bs e0 e -> jinv B0 bs' e0 e.
Proof.
  destruct e0 as [[j0 i1] i2], e as [[j k1] k2]. intros HF (-> & -> & a1 & b1 & b2 & Ha & Hb & Hj).
  split; [reflexivity|]. split; [reflexivity|]. apply joint_bodies_Ok in Hb. destruct Hb as [H1 H2].
  destruct (nth_error_Forall2_l _ _ _ _ _ HF H1) as (c1 & Hc1 & P1).
  assert (Q : exists c2, joint_bodies bs' i1 i2 = Ok (c1, c2) /\ match b2, c2 with Some x, Some y => posed x y | None, None => True | _, _ => False end).
  { destruct i2 as [i|].
    - destruct H2 as (x & -> & H2). destruct (nth_error_Forall2_l _ _ _ _ _ HF H2) as (y & Hy & P2).
      exists (Some y). split; [apply joint_bodies_Ok; eauto|exact P2].
    - subst b2. exists None. split; [apply joint_bodies_Ok; auto|exact I]. }
  destruct Q as (c2 & Hc & P2). exists a1, c1, c2. split; [exact Ha|]. split; [exact Hc|].
  unfold jok in *. unfold posed, b_rot, b_pos in *. rewrite P1.
  destruct b2 as [x|], c2 as [y|]; try tauto. rewrite P2. exact Hj.
Qed.
Lemma jinvs_posed B0 J0 (w w' : world R) : Forall2 posed (w_bodies w) (w_bodies w') -> w_joints w' = w_joints w ->
  jinvs B0 J0 w -> jinvs B0 J0 w'.
Proof.
  intros HF Hj [HL H]. split; [rewrite <- HL; symmetry; eapply Forall2_len; eauto|]. rewrite Hj.
  clear Hj. induction H; constructor; auto. eapply jinv_posed; eauto.
Qed.
Lemma posed_forget (bs bs' : list (body R)) : map forget bs' = map forget bs -> Forall2 posed bs bs'.
Proof.
  revert bs'; induction bs as [|b bs IH]; intros [|b' bs'] H; simpl in H; try discriminate; constructor.
  - unfold posed. rewrite <- (forget_p b'), <- (forget_p b). congruence.
  - apply IH. congruence.
Qed.

Lemma update_jok j0 j a1 b1 b2 :
  j_kind j = j_kind j0 -> j_b1 j = j_b1 j0 -> j_b2 j = j_b2 j0 -> j_r1 j = j_r1 j0 ->
  match j_kind j0 with JJoint | JTotal => j_rot1 j = j_rot1 j0 + (b_rot b1 - b_rot a1) | _ => True end ->
  jok j0 (j_update_pos j b1 b2) a1 b1 b2.
Proof.
  intros K H1 H2 H3 H4. unfold jok, j_update_pos. rewrite K, H1, H2.
  destruct (j_kind j0); cbn; repeat split; auto; try congruence; try (rewrite H3; reflexivity);
  destruct b2; auto.
Qed.
Lemma b_rot_move b dt : b_rot (move b dt) = b_rot b + fst (b_v b) * dt.
Proof. unfold move, b_rot. rewrite set_p_p. cbn. rnum. ring. Qed.
Lemma b_v_move (b : body R) dt : b_v (move b dt) = b_v b.
Proof. unfold move. apply set_p_v. Qed.

Lemma jinvs_move B0 J0 w dt w' : jinvs B0 J0 w -> move_all w dt = Ok w' -> jinvs B0 J0 w'.
Proof.
  intros [HL HJ] H. unfold move_all in H. bind_inv H as js Ej. inversion H; subst w'; clear H.
  split; [cbn; now rewrite map_length|]. cbn [w_bodies w_joints with_joints with_bodies with_state].
  apply mapM_Forall2 in Ej. revert js Ej. induction HJ as [|[[j0 i1] i2] [[j k1] k2] J1 J2 Hj HJ IH]; intros js Ej;
    inversion Ej as [|? e ? js0 E Ej0]; subst; constructor; auto.
  destruct Hj as (-> & -> & a1 & b1 & b2 & Ha & Hb & Hok). cbn in E. bind_inv E as jb Eb. destruct jb as [c1 c2].
  inversion E; subst e; clear E. cbn [fst snd]. split; [reflexivity|]. split; [reflexivity|].
  exists a1, c1, c2. split; [exact Ha|]. split; [exact Eb|].
  assert (Hc : c1 = move b1 dt /\ c2 = moves dt b2).
  { apply joint_bodies_Ok in Hb, Eb. destruct Hb as [Hb1 Hb2], Eb as [Eb1 Eb2].
    rewrite nth_error_map, Hb1 in Eb1. inversion Eb1. split; [reflexivity|]. destruct i2 as [i|].
    - destruct Hb2 as (x & -> & Hx), Eb2 as (y & -> & Hy). rewrite nth_error_map, Hx in Hy. inversion Hy. reflexivity.
    - subst. reflexivity. }
  destruct Hc as [-> ->]. destruct Hok as (K & H1 & H2 & H3 & H4).
  unfold j_move. destruct (j_kind j) eqn:Ek; apply update_jok; cbn; auto; rewrite <- K; auto.
  - rewrite <- K in H4. destruct H4 as (H4 & _). rewrite H4, b_rot_move, b_v_move. rnum. ring.
  - rewrite <- K in H4. destruct H4 as (H4 & _). rewrite H4, b_rot_move, b_v_move. rnum. ring.
Qed.

Lemma jinvs_rewind B0 J0 w0 w w' : jinvs B0 J0 w0 -> jinvs B0 J0 w ->
  rewind w (cat3 (map b_p (w_bodies w0))) (rots w0) = Ok w' -> jinvs B0 J0 w'.
Proof.
  intros [HL0 HJ0] [HL HJ] H. unfold rewind in H. bind_inv H as js Ej. inversion H; subst w'; clear H.
  split; [cbn; now rewrite mapi_length'|]. cbn [w_bodies w_joints with_joints with_state].
  change (w_joints (world_set_p w (cat3 (map b_p (w_bodies w0))))) with (w_joints w) in Ej.
  set (bs := w_bodies (world_set_p w (cat3 (map b_p (w_bodies w0))))) in *.
  assert (HF : Forall2 posed (w_bodies w0) bs).
  { apply Forall2_nth_error.
    - unfold bs. cbn. rewrite mapi_length'. congruence.
    - intros i a b Hi Hb. unfold bs in Hb. cbn in Hb. rewrite mapi_nth in Hb.
      destruct (nth_error (w_bodies w) i); [|discriminate]. cbn in Hb. inversion Hb; subst b; clear Hb. unfold posed.
      rewrite set_p_p. assert (Hlt : (i < length (w_bodies w0))%nat) by (apply nth_error_Some; congruence).
      rewrite (v3_at_cat3 _ i v3zero) by (now rewrite map_length).
      apply nth_error_nth. now apply map_nth_error. }
  clearbody bs. apply mapM_Forall2 in Ej.
  revert js Ej HJ0. generalize (w_joints w0) as L0.
  induction HJ as [|[[j0 i1] i2] [[j k1] k2] J1 J2 Hj HJ IH]; intros L0 js Ej HJ0; inversion HJ0 as [|? [[l m1] m2] ? L1 Hl HL1]; subst;
    cbn in Ej; inversion Ej as [|? e ? js0 E Ej0]; subst; constructor; eauto.
  destruct Hj as (-> & -> & a1 & b1 & b2 & Ha & Hb & Hok). cbn in E. bind_inv E as jb Eb. destruct jb as [c1 c2].
  inversion E; subst e; clear E. cbn [fst snd]. split; [reflexivity|]. split; [reflexivity|].
  exists a1, c1, c2. split; [exact Ha|]. split; [exact Eb|].
  destruct Hl as (-> & -> & a1' & d1 & d2 & Ha' & Hd & Hlok). rewrite Ha in Ha'. inversion Ha'; subst a1'.
  assert (Hc : b_rot c1 = b_rot d1).
  { apply joint_bodies_Ok in Hd, Eb. destruct Hd as [Hd _], Eb as [Eb _].
    destruct (nth_error_Forall2_l _ _ _ _ _ HF Hd) as (x & Hx & P1). rewrite Eb in Hx. inversion Hx. unfold b_rot. now rewrite P1. }
  destruct Hok as (K & H1 & H2 & H3 & _). apply update_jok; cbn; auto.
  destruct Hlok as (_ & _ & _ & _ & H4). rewrite Hc. destruct (j_kind j0); auto; apply H4.
Qed.

Lemma jinvs_exec B0 J0 fuel o hd e ops w w' :
  handler_frame hd -> jinvs B0 J0 w -> exec fuel o hd e ops w = Ok w' -> jinvs B0 J0 w'.
Proof.
  intros Hf Hw H.
  assert (Hset : forall a v a', jinvs B0 J0 a -> set_v a v = Ok a' -> jinvs B0 J0 a').
  { intros a v a' Ha Hs. apply set_v_inv in Hs. destruct Hs as [_ ->]. apply (jinvs_posed B0 J0 a); [|reflexivity|exact Ha].
    cbn. apply Forall2_mapi. intros. reflexivity. }
  assert (Hfind : forall a a', jinvs B0 J0 a -> find_contacts o hd a = Ok a' -> jinvs B0 J0 a').
  { intros a a' Ha Hs. pose proof (find_contacts_frame _ _ _ _ Hf Hs) as E. apply find_contacts_inv in Hs.
    destruct Hs as (cs & bs & clk & ->).
    apply (jinvs_posed B0 J0 a); [|reflexivity|exact Ha]. now apply posed_forget. }
  eapply (exec_invariant fuel o hd e (jinvs B0 J0)); eauto.
  intros a dt a' Ha Hs. eapply (step_dt_pieces2 (jinvs B0 J0)); try exact Hs.
  - intros b c Hb. exact Hb.
  - intros b t Hb. exact Hb.
  - exact Hset.
  - intros b d b' Hb Hm. exact (jinvs_move _ _ _ _ _ Hb Hm).
  - intros b0 b b' H0 Hb Hr. exact (jinvs_rewind _ _ _ _ _ H0 Hb Hr).
  - exact Hfind.
  - exact Ha.
Qed.

(** *** the constructor *)
Lemma index_of_nth (bs : list (body R)) id i : index_of bs id = Ok i -> exists b, nth_error bs i = Some b /\ b_id b = id.
Proof.
  revert i; induction bs as [|b bs IH]; intros i H; [discriminate|]. cbn in H.
  destruct (Nat.eqb_spec (b_id b) id) as [E|E].
  - inversion H. exists b. auto.
  - bind_inv H as k Ek. inversion H. destruct (IH _ Ek) as (c & Hc & Hid). exists c. auto.
Qed.
Lemma NoDup_ids (bs : list (body R)) i b c : NoDup (map b_id bs) -> nth_error bs i = Some b -> In c bs -> b_id b = b_id c -> b = c.
Proof.
  intros Hn Hi Hc He. apply In_nth_error in Hc. destruct Hc as [k Hk].
  assert (i = k).
  { eapply (NoDup_nth_error (map b_id bs)); eauto.
    - rewrite map_length. apply nth_error_Some. congruence.
    - rewrite !nth_error_map, Hi, Hk. cbn. congruence. }
  subst k. congruence.
Qed.
(** entry [e] of the joint list for constraint [j] on the bodies [bs] *)
Definition entry_of (bs : list (body R)) (j : joint R) (e : jent) : Prop :=
  let '(j', i1, i2) := e in j' = j /\ (exists b1, nth_error bs i1 = Some b1 /\ b_id b1 = j_b1 j) /\
  match j_b2 j, i2 with None, None => True | Some id, Some i => exists b2, nth_error bs i = Some b2 /\ b_id b2 = id | _, _ => False end.
Lemma built_jinv bs j e : NoDup (map b_id bs) -> built bs j -> entry_of bs j e -> jinv bs bs e e.
Proof.
  intros Hn Hb He. destruct e as [[j' i1] i2]. destruct He as (-> & (c1 & Hc1 & E1) & He2).
  split; [reflexivity|]. split; [reflexivity|].
  assert (AS : forall p q : v2 R, p = v2add q (v2sub p q)).
  { intros [a b] [c d]. unfold v2add, v2sub. cbn. apply f_equal2; ring. }
  assert (SS : forall x : R, x = x + (b_rot c1 - b_rot c1)) by (intros; ring).
  exists c1, c1.
  destruct Hb as [b1 pos H1|b1 b2 pos H1 H2 Hne|b1 b2 H1 H2 Hne|b1 H1|b1 H1|b1 H1|b1 H1].
  - unfold joint_init in *. pose proof (polar_round_trip (v2sub pos (b_pos b1))) as P.
    destruct (cart_to_polar (v2sub pos (b_pos b1))) as [r th]. cbn in E1, He2.
    assert (c1 = b1) by (eapply NoDup_ids; eauto); subst c1. destruct i2; [tauto|].
    exists None. split; [exact Hc1|]. split; [apply joint_bodies_Ok; auto|]. unfold jok. cbn [j_kind j_b1 j_b2 j_r1 j_rot1 j_pos j_pos1 j_pos2].
    repeat (split; [reflexivity|]). split; [apply SS|]. split; [symmetry; apply P|]. split; [apply AS|exact I].
  - unfold joint_init in *. pose proof (polar_round_trip (v2sub pos (b_pos b1))) as P.
    destruct (cart_to_polar (v2sub pos (b_pos b1))) as [r th]. cbn in E1, He2.
    assert (c1 = b1) by (eapply NoDup_ids; eauto); subst c1. destruct i2; [|tauto]. destruct He2 as (c2 & Hc2 & E2).
    assert (c2 = b2) by (eapply NoDup_ids; eauto); subst c2.
    exists (Some b2). split; [exact Hc1|]. split; [apply joint_bodies_Ok; eauto|]. unfold jok. cbn [j_kind j_b1 j_b2 j_r1 j_rot1 j_pos j_pos1 j_pos2].
    repeat (split; [reflexivity|]). split; [apply SS|]. split; [symmetry; apply P|]. split; [apply AS|reflexivity].
  - cbn in E1, He2. assert (c1 = b1) by (eapply NoDup_ids; eauto); subst c1. destruct i2; [|tauto]. destruct He2 as (c2 & Hc2 & E2).
    assert (c2 = b2) by (eapply NoDup_ids; eauto); subst c2.
    exists (Some b2). split; [exact Hc1|]. split; [apply joint_bodies_Ok; eauto|]. unfold jok. cbn [j_kind j_b1 j_b2 j_r1 j_rot1 j_pos j_pos1 j_pos2 fixed_init].
    repeat split; reflexivity.
  - cbn in E1, He2. assert (c1 = b1) by (eapply NoDup_ids; eauto); subst c1. destruct i2; [tauto|].
    exists None. split; [exact Hc1|]. split; [apply joint_bodies_Ok; auto|]. repeat split; reflexivity.
  - cbn in E1, He2. assert (c1 = b1) by (eapply NoDup_ids; eauto); subst c1. destruct i2; [tauto|].
    exists None. split; [exact Hc1|]. split; [apply joint_bodies_Ok; auto|]. repeat split; reflexivity.
  - cbn in E1, He2. assert (c1 = b1) by (eapply NoDup_ids; eauto); subst c1. destruct i2; [tauto|].
    exists None. split; [exact Hc1|]. split; [apply joint_bodies_Ok; auto|]. repeat split; reflexivity.
  - unfold total_init in *. pose proof (polar_round_trip (v2sub (b_pos b1) (b_pos b1))) as P.
    destruct (cart_to_polar (v2sub (b_pos b1) (b_pos b1))) as [r th]. cbn in E1, He2.
    assert (c1 = b1) by (eapply NoDup_ids; eauto); subst c1. destruct i2; [tauto|].
    exists None. split; [exact Hc1|]. split; [apply joint_bodies_Ok; auto|]. unfold jok. cbn [j_kind j_b1 j_b2 j_r1 j_rot1 j_pos j_pos1 j_pos2].
    repeat (split; [reflexivity|]). split; [apply SS|]. split; [symmetry; apply P|]. apply AS.
Qed.
Lemma world_init_joints o hd heap bodies cons dt eps tol fd ps st w :
  handler_frame hd -> world_init o hd heap bodies cons dt eps tol fd ps st = Ok w ->
  Forall2 (entry_of bodies) cons (w_joints w) /\ Forall2 posed bodies (w_bodies w).
Proof.
  intros Hf H. unfold world_init in H. destruct bodies as [|b0 bs0] eqn:Eb; [discriminate|].
  bind_inv H as js Ej. bind_inv H as w1 E1. bind_inv H as w2 E2.
  destruct (st && _); [discriminate|]. inversion H; subst w2; clear H.
  rewrite <- Eb in *. pose proof (find_contacts_frame _ _ _ _ Hf E2) as Efr. apply find_contacts_inv in E2.
  destruct E2 as (cs & bs & clk & ->). cbn -[mapi] in Efr |- *. apply set_v_inv in E1. destruct E1 as [_ ->]. cbn -[mapi] in Efr |- *. split.
  - apply mapM_Forall2 in Ej. clear - Ej. induction Ej as [|j e cons js E Ej IH]; constructor; auto.
    bind_inv E as i1 E1. apply index_of_nth in E1. destruct (j_b2 j) as [id|] eqn:E2.
    + bind_inv E as i2 E3. apply index_of_nth in E3. inversion E; subst e. split; [reflexivity|]. split; [exact E1|]. rewrite E2. exact E3.
    + inversion E; subst e. split; [reflexivity|]. split; [exact E1|]. rewrite E2. exact I.
  - apply posed_forget in Efr. clear - Efr.
    apply Forall2_nth_error.
    + apply Forall2_len in Efr. rewrite mapi_length' in Efr. exact Efr.
    + intros i a b Ha Hb. destruct (nth_error_Forall2 _ _ _ _ _ Efr Hb) as (c & Hc & P). rewrite mapi_nth, Ha in Hc.
      inversion Hc; subst c. exact P.
Qed.
(** what every world built from [bs] and [js] knows about its joints *)
Lemma world_of_joints bs js w : world_of bs js w -> exists J0,
  NoDup (map b_id bs) /\ Forall (built bs) js /\ Forall2 (entry_of bs) js J0 /\ jinvs bs J0 w /\ 
  w_num_constraints w = fold_left (fun n j => (n + j_num j)%nat) js 0%nat.
Proof.
  intros [fuel o hd e heap dt eps tol fd ps st w0 ops Hf Hn Hb H0 Hx].
  destruct (world_init_joints _ _ _ _ _ _ _ _ _ _ _ _ Hf H0) as [HJ HP].
  exists (w_joints w0). split; [exact Hn|]. split; [exact Hb|]. split; [exact HJ|]. split.
  - eapply jinvs_exec; eauto. split; [symmetry; eapply Forall2_len; eauto|].
    clear - HJ HP Hn Hb. induction HJ as [|j e js es He HJ IH]; constructor.
    + apply (jinv_posed bs bs); auto. eapply built_jinv; eauto. now inversion Hb.
    + apply IH. now inversion Hb.
  - apply exec_cfg in Hx. apply cfg_fields in Hx. apply world_init_inv in H0. intuition congruence.
Qed.
