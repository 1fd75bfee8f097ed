(** Joints without loops are independent in every pose *)
From Coq Require Import List Arith ZArith Bool Reals Lra Lia Psatz.
From Verif Require Import Num Tensor Utils Bodies Forces Constraints Contacts World Lapack Pdipm Lcp Engines Spec GeoSpec JointSpec EngineSpec
     RBase ResFacts LinAlg LapackSpec KktSpec PdipmSpec WorldFacts HandlerFacts LayoutFacts HistFacts SysFacts RewindFacts JointFacts JeFacts
     CacheFacts BodyReach GeomFacts PdipmFacts PdipmLoop SolverFacts EngineFacts ContactSys EngineBalance MomentumFacts PostFacts HeldFacts.
Import ListNotations.
Open Scope R_scope.

Definition etouches (e : jent) (i : nat) : Prop := let '(_, i1, i2) := e in i1 = i \/ i2 = Some i.
Definition ekind (e : jent) : jkind := j_kind (fst (fst e)).
Definition efirst (e : jent) : nat := snd (fst e).
Definition eadds (es : list jent) (e : jent) : Prop :=
  (exists i, etouches e i /\ forall e', In e' es -> ~ etouches e' i) \/
  (along_axis (ekind e) /\ forall e', In e' es -> etouches e' (efirst e) -> along_axis (ekind e') /\ ekind e' <> ekind e).
Inductive eloop_free : list jent -> Prop :=
| eloop_nil : eloop_free []
| eloop_add l1 e l2 : eloop_free (l1 ++ l2) -> eadds (l1 ++ l2) e -> eloop_free (l1 ++ e :: l2).
(** the entry refers to bodies of the world, and a two-body kind has two of them *)
Definition proper (w : world R) (e : jent) : Prop :=
  let '(j, i1, i2) := e in (i1 < length (w_bodies w))%nat /\ i2 <> Some i1 /\
  match i2 with Some i => (i < length (w_bodies w))%nat /\ (j_kind j = JJoint \/ j_kind j = JFixed) | None => j_kind j <> JFixed end.

(** the motion [u] of body [i] alone *)
Definition solo (n i : nat) (u : v3 R) : vec R := cat3 (map (fun k => if Nat.eqb k i then u else v3zero) (seq 0 n)).
Lemma solo_length n i u : length (solo n i u) = (3 * n)%nat.
Proof. unfold solo. now rewrite cat3_length, map_length, seq_length. Qed.
Lemma solo_at n i u k : (k < n)%nat -> v3_at (solo n i u) k = if Nat.eqb k i then u else v3zero.
Proof.
  intros H. unfold solo. rewrite (v3_at_cat3 _ k (if Nat.eqb 0 i then u else v3zero)) by (rewrite map_length, seq_length; exact H).
  rewrite (map_nth (fun k => if Nat.eqb k i then u else v3zero) (seq 0 n) 0%nat k). rewrite seq_nth by exact H. reflexivity.
Qed.

Section Entries.
Variable w : world R.
Notation n := (length (w_bodies w)).
Notation rows e := (entry_vel w (vzeros (3 * n)) e).
Lemma rows_length x e : length (entry_vel w x e) = length (rows e).
Proof. apply entry_vel_length. Qed.
Lemma rows_flat x es : length (flat_map (entry_vel w x) es) = length (flat_map (fun e => rows e) es).
Proof. induction es as [|e es IH]; [reflexivity|]. cbn [flat_map]. now rewrite !app_length, IH, rows_length. Qed.

Lemma untouched_zero i u e : proper w e -> ~ etouches e i -> Forall (fun a => a = 0) (entry_vel w (solo n i u) e).
Proof.
  destruct e as [[j i1] i2]. intros (P1 & P2 & P3) H. cbn in H. unfold entry_vel. destruct (nth_error (w_bodies w) i1) as [b1|]; [|constructor].
  rewrite solo_at by exact P1. destruct (Nat.eqb_spec i1 i) as [E|E]; [exfalso; tauto|].
  destruct i2 as [k|].
  - destruct P3 as [P3 _]. destruct (nth_error (w_bodies w) k) as [b2|]; [rewrite solo_at by exact P3; destruct (Nat.eqb_spec k i) as [E2|E2]; [exfalso; apply H; right; congruence|]|];
      destruct (j_kind j); cbn; unfold v2sub, point_velocity; cbn; rnum; cbn [fst snd]; repeat (apply Forall_cons; [cbn [fst snd]; ring|]); apply Forall_nil.
  - destruct (j_kind j); cbn; unfold v2sub, point_velocity; cbn; rnum; cbn [fst snd]; repeat (apply Forall_cons; [cbn [fst snd]; ring|]); apply Forall_nil.
Qed.
(** axis constraints of another kind do not see a motion along the axis *)
Definition along (k : jkind) : v3 R := match k with JX => (0, (1, 0)) | JY => (0, (0, 1)) | _ => (1, (0, 0)) end.
Lemma other_axis_zero i k e : proper w e -> along_axis k -> along_axis (ekind e) -> ekind e <> k -> Forall (fun a => a = 0) (entry_vel w (solo n i (along k)) e).
Proof.
  destruct e as [[j i1] i2]. unfold ekind. cbn [fst]. intros (P1 & _) Hk He Hn. unfold entry_vel. destruct (nth_error (w_bodies w) i1) as [b1|]; [|constructor].
  rewrite solo_at by exact P1. destruct Hk as [ -> | [ -> | -> ]], He as [E|[E|E]]; rewrite E in *; try congruence; destruct (Nat.eqb i1 i); cbn; constructor; auto.
Qed.
Lemma zeros_of (l : vecR) : Forall (fun a => a = 0) l -> l = vzeros (length l).
Proof. induction 1 as [|a l H HF IH]; [reflexivity|]. unfold vzeros in *. cbn [length repeat]. rewrite H. f_equal. exact IH. Qed.
Lemma dot_zeros_of y (l : vecR) : Forall (fun a => a = 0) l -> dot y l = 0.
Proof. intros H. rewrite (zeros_of l H). apply dot_zeros_r. Qed.

(** a constraint with a body of its own *)
Lemma dot2 a b p q : dot [a; b] [p; q] = a * p + b * q.
Proof. cbn. rnum. ring. Qed.
Lemma dot3 a b c p q r : dot [a; b; c] [p; q; r] = a * p + b * q + c * r.
Proof. cbn. rnum. ring. Qed.
Lemma own_body i e y : proper w e -> etouches e i -> length y = length (rows e) ->
  (forall u, dot y (entry_vel w (solo n i u) e) = 0) -> Forall (fun a => a = 0) y.
Proof.
  destruct e as [[j i1] i2]. intros (P1 & P2 & P3) Ht Ly H.
  destruct (nth_error (w_bodies w) i1) as [b1|] eqn:E1; [|apply nth_error_None in E1; lia].
  destruct i2 as [k|].
  - destruct P3 as [P3 K]. destruct (nth_error (w_bodies w) k) as [b2|] eqn:E2; [|apply nth_error_None in E2; lia].
    assert (NE : i1 <> k) by congruence.
    assert (HH : forall u, dot y (measured (j_kind j) (j_pos j) (b_pos b1) (if Nat.eqb i1 i then u else v3zero) (Some (b_pos b2, if Nat.eqb k i then u else v3zero))) = 0).
    { intros u. specialize (H u). unfold entry_vel in H. rewrite E1, E2, !solo_at in H by auto. exact H. }
    unfold entry_vel in Ly. rewrite E1, E2 in Ly. clear H.
    assert (C : i1 = i /\ k <> i \/ k = i /\ i1 <> i) by (destruct Ht as [Q|Q]; [left|right; injection Q as Q]; split; congruence).
    destruct K as [K|K]; rewrite K in *; cbn in Ly.
    + destruct y as [|a [|b [|]]]; try discriminate. pose proof (HH (0, (1, 0))) as A1. pose proof (HH (0, (0, 1))) as A2. clear HH.
      destruct C as [[C1 C2]|[C1 C2]]; apply Nat.eqb_eq in C1; apply Nat.eqb_neq in C2; rewrite C1, C2 in A1, A2; cbn [measured] in A1, A2; unfold v2l in A1, A2; rewrite dot2 in A1, A2; unfold v2sub, point_velocity, v3zero, v2zero in A1, A2; cbn in A1, A2; rnum; (constructor; [lra|constructor; [lra|constructor]]).
    + destruct y as [|a [|b [|c [|]]]]; try discriminate. pose proof (HH (0, (1, 0))) as A1. pose proof (HH (0, (0, 1))) as A2. pose proof (HH (1, (0, 0))) as A3. clear HH.
      destruct C as [[C1 C2]|[C1 C2]]; apply Nat.eqb_eq in C1; apply Nat.eqb_neq in C2; rewrite C1, C2 in A1, A2, A3; cbn [measured] in A1, A2, A3; unfold v2l in A1, A2, A3; cbn [app] in A1, A2, A3; rewrite dot3 in A1, A2, A3; unfold v2sub, point_velocity, v3zero, v2zero in A1, A2, A3; cbn in A1, A2, A3; rnum.
      * assert (a = 0) by lra. assert (b = 0) by lra. subst a b. constructor; [reflexivity|constructor; [reflexivity|constructor; [lra|constructor]]].
      * assert (a = 0) by lra. assert (b = 0) by lra. subst a b. constructor; [reflexivity|constructor; [reflexivity|constructor; [lra|constructor]]].
  - destruct Ht as [ -> |Q]; [|discriminate].
    assert (HH : forall u, dot y (measured (j_kind j) (j_pos j) (b_pos b1) u None) = 0).
    { intros u. specialize (H u). unfold entry_vel in H. rewrite E1, solo_at, Nat.eqb_refl in H by auto. exact H. }
    unfold entry_vel in Ly. rewrite E1 in Ly. clear H. pose proof (HH (0, (1, 0))) as A1. pose proof (HH (0, (0, 1))) as A2. pose proof (HH (1, (0, 0))) as A3. clear HH.
    destruct (j_kind j); try congruence; cbn in Ly.
    + destruct y as [|a [|b [|]]]; try discriminate. cbn [measured] in A1, A2. unfold v2l in A1, A2. rewrite dot2 in A1, A2. unfold v2sub, point_velocity in A1, A2. cbn in A1, A2. rnum. constructor; [lra|constructor; [lra|constructor]].
    + destruct y as [|a [|]]; try discriminate. cbn in A1, A2, A3. rnum. constructor; [lra|constructor].
    + destruct y as [|a [|]]; try discriminate. cbn in A1, A2, A3. rnum. constructor; [lra|constructor].
    + destruct y as [|a [|]]; try discriminate. cbn in A1, A2, A3. rnum. constructor; [lra|constructor].
    + destruct y as [|a [|b [|c [|]]]]; try discriminate. cbn [measured] in A1, A2, A3. rewrite dot3 in A1, A2, A3. cbn in A1, A2, A3. rnum. constructor; [lra|constructor; [lra|constructor; [lra|constructor]]].
Qed.
Lemma own_axis e y : proper w e -> along_axis (ekind e) -> length y = length (rows e) -> dot y (entry_vel w (solo n (efirst e) (along (ekind e))) e) = 0 -> Forall (fun a => a = 0) y.
Proof.
  destruct e as [[j i1] i2]. unfold ekind, efirst. cbn [fst snd]. intros (P1 & _) Ha Ly H. unfold entry_vel in *.
  destruct (nth_error (w_bodies w) i1) as [b1|] eqn:E1; [|apply nth_error_None in E1; lia]. rewrite solo_at, Nat.eqb_refl in H by auto.
  destruct Ha as [E|[E|E]]; rewrite E in *; cbn in Ly; destruct y as [|a [|]]; try discriminate; cbn in H; rnum; constructor; try lra; constructor.
Qed.

Lemma rest_zero x (es : list jent) y : (forall e, In e es -> Forall (fun a => a = 0) (entry_vel w x e)) -> dot y (flat_map (entry_vel w x) es) = 0.
Proof. intros H. apply dot_zeros_of. apply Forall_forall. intros a Ha. apply in_flat_map in Ha. destruct Ha as (e & He & Ha). specialize (H e He). rewrite Forall_forall in H. now apply H. Qed.
Lemma entries_independent es : eloop_free es -> Forall (proper w) es -> forall y, length y = length (flat_map (fun e => rows e) es) ->
  (forall x, length x = (3 * n)%nat -> dot y (flat_map (entry_vel w x) es) = 0) -> Forall (fun a => a = 0) y.
Proof.
  induction 1 as [|l1 e l2 Hl IH Ha]; intros HP y Ly H.
  - destruct y; [constructor|discriminate].
  - apply Forall_app in HP. destruct HP as [HP1 HP2]. apply Forall_cons_iff in HP2. destruct HP2 as [HPe HP2].
    rewrite flat_map_app in Ly. cbn [flat_map] in Ly. rewrite !app_length in Ly.
    set (m1 := length (flat_map (fun e => rows e) l1)) in *. set (me := length (rows e)) in *. set (m2 := length (flat_map (fun e => rows e) l2)) in *.
    set (y1 := firstn m1 y). set (ye := firstn me (skipn m1 y)). set (y2 := skipn me (skipn m1 y)).
    assert (Ey : y = y1 ++ ye ++ y2) by (unfold y1, ye, y2; now rewrite !firstn_skipn).
    assert (L1 : length y1 = m1) by (unfold y1; rewrite firstn_length; unfold vec in *; lia).
    assert (Le : length ye = me) by (unfold ye; rewrite firstn_length, skipn_length; unfold vec in *; lia).
    assert (L2 : length y2 = m2) by (unfold y2; rewrite !skipn_length; unfold vec in *; lia).
    assert (D : forall x, length x = (3 * n)%nat -> dot y1 (flat_map (entry_vel w x) l1) + (dot ye (entry_vel w x e) + dot y2 (flat_map (entry_vel w x) l2)) = 0).
    { intros x Lx. rewrite <- (H x Lx). rewrite Ey, flat_map_app. cbn [flat_map]. rewrite !dot_app; [reflexivity| |].
      - rewrite rows_length. exact Le.
      - rewrite rows_flat. exact L1. }
    assert (Q : forall x, length x = (3 * n)%nat -> (forall e', In e' (l1 ++ l2) -> Forall (fun a => a = 0) (entry_vel w x e')) -> dot ye (entry_vel w x e) = 0).
    { intros x Lx Hz. rewrite <- (D x Lx). rewrite (rest_zero x l1 y1), (rest_zero x l2 y2) by (intros e' He'; apply Hz, in_or_app; auto). ring. }
    assert (PR : forall e', In e' (l1 ++ l2) -> proper w e') by (apply Forall_forall; apply Forall_app; auto).
    assert (Ze : Forall (fun a => a = 0) ye).
    { destruct Ha as [(i & Ht & Hn)|[Hx Hn]].
      - apply (own_body i e); auto. intros u. apply Q; [apply solo_length|]. intros e' He'. apply untouched_zero; auto.
      - apply (own_axis e); auto. apply Q; [apply solo_length|]. intros e' He'.
        assert (Dc : etouches e' (efirst e) \/ ~ etouches e' (efirst e)).
        { destruct e' as [[j' k1] k2]. cbn. destruct (Nat.eq_dec k1 (efirst e)); [tauto|]. destruct k2 as [k|]; [destruct (Nat.eq_dec k (efirst e)) as [->|]; [tauto|]|]; right; intros [A|A]; congruence. }
        destruct Dc as [Dc|Dc]; [|apply untouched_zero; auto]. destruct (Hn e' He' Dc) as [Hx' Hne]. apply other_axis_zero; auto. }
    assert (Zr : Forall (fun a => a = 0) (y1 ++ y2)).
    { apply IH; [apply Forall_app; auto|rewrite flat_map_app, !app_length; unfold vec in *; lia|]. intros x Lx. rewrite flat_map_app, dot_app by (rewrite rows_flat; exact L1).
      rewrite <- (D x Lx). assert (Z : dot ye (entry_vel w x e) = 0) by (rewrite dot_comm; now apply dot_zeros_of). rewrite Z. ring. }
    rewrite Ey. apply Forall_app in Zr. destruct Zr as [Z1 Z2]. apply Forall_app. split; [exact Z1|]. apply Forall_app. auto.
Qed.
End Entries.

(** from the constraints to the entries of the world *)
Section World.
Variables (bs : list (body R)) (js : list (joint R)) (J0 : list jent) (w : world R).
Hypothesis HS : sound bs js J0 w.
(** entry [e] of the world belongs to constraint [j] *)
Definition stands (j : joint R) (e : jent) : Prop :=
  ekind e = j_kind j /\ proper w e /\ (exists c, nth_error bs (efirst e) = Some c /\ b_id c = j_b1 j) /\ (forall i c, nth_error bs i = Some c -> etouches e i <-> touches j (b_id c)) /\
  (forall id, touches j id -> exists i c, nth_error bs i = Some c /\ b_id c = id).
Lemma index_of i k (b c : body R) : NoDup (map b_id bs) -> nth_error bs i = Some b -> nth_error bs k = Some c -> b_id b = b_id c -> i = k.
Proof. intros Hn Hi Hk E. apply (NoDup_nth_error (map b_id bs)); [exact Hn|rewrite map_length; apply nth_error_Some; congruence|]. rewrite !nth_error_map, Hi, Hk. cbn. congruence. Qed.
Lemma built_kinds j : built bs j -> j_b2 j <> Some (j_b1 j) /\ match j_b2 j with Some _ => j_kind j = JJoint \/ j_kind j = JFixed | None => j_kind j <> JFixed end.
Proof.
  intros H. destruct H as [b1 pos Hb|b1 b2 pos Hb Hb2 Hne|b1 b2 Hb Hb2 Hne|b1 Hb|b1 Hb|b1 Hb|b1 Hb].
  1: destruct (joint_init_fields b1 None pos) as (K & I1 & I2 & _). 2: destruct (joint_init_fields b1 (Some b2) pos) as (K & I1 & I2 & _).
  1,2: rewrite I1, I2, K; cbn; split; [congruence|]; auto; discriminate.
  all: cbn; split; try congruence; try discriminate; auto.
Qed.
Lemma entries_stand : Forall2 stands js (w_joints w).
Proof.
  destruct (so_found _ _ _ _ HS) as (Hn & Hb & He & [HLn Hj] & _). pose proof (so_len _ _ _ _ HS) as Len.
  clear HS. revert Hb He. generalize js. induction Hj as [|[[j0 i1] i2] [[j k1] k2] J K H HJ IH]; intros l Hb He; inversion He as [|j' ? l' ? E He']; subst; [constructor|].
  apply Forall_cons_iff in Hb. destruct Hb as [Hb Hb']. constructor; [|now apply IH]. destruct E as (-> & (c1 & Hc1 & Ec1) & E2). destruct H as (-> & -> & a1 & b1 & b2 & Ha & Hbb & Hok).
  destruct (built_kinds _ Hb) as [B1 B2]. assert (K' : j_kind j = j_kind j') by apply Hok.
  assert (T : forall i c, nth_error bs i = Some c -> etouches (j, i1, i2) i <-> touches j' (b_id c)).
  { intros i c Hc. cbn. unfold touches. destruct (j_b2 j') as [id|], i2 as [k|]; try contradiction.
    - destruct E2 as (c2 & Hc2 & <-). split.
      + intros [<-|Q]; [left; congruence|]. injection Q as <-. right. congruence.
      + intros [Q|Q]; [left; eapply index_of; eauto; congruence|]. injection Q as Q. right. f_equal. eapply index_of; eauto.
    - split; [intros [<-|Q]; [left; congruence|discriminate]|]. intros [Q|Q]; [left; eapply index_of; eauto; congruence|discriminate]. }
  repeat split.
  - exact K'.
  - rewrite Len. apply nth_error_Some. congruence.
  - intros ->. destruct (j_b2 j') as [id|]; [|contradiction]. destruct E2 as (c2 & Hc2 & <-). apply B1. f_equal. congruence.
  - destruct (j_b2 j') as [id|], i2 as [k|]; try contradiction; rewrite K'.
    + destruct E2 as (c2 & Hc2 & _). split; [rewrite Len; apply nth_error_Some; congruence|exact B2].
    + exact B2.
  - exists c1. auto.
  - apply T; auto.
  - apply T; auto.
  - unfold touches. intros id [<-|Q]; [eauto|]. rewrite Q in E2. destruct i2 as [k|]; [|contradiction]. destruct E2 as (c2 & ? & ?). eauto.
Qed.
Lemma stands_adds l es j e : Forall2 stands l es -> stands j e -> adds l j -> eadds es e.
Proof.
  intros HF (K & P & (c & Hc & Ec) & T & X) [(id & Ht & Hn)|[Hx Hn]].
  - left. destruct (X id Ht) as (i & d & Hd & <-). exists i. split; [now apply (T i d)|]. intros e' He' Ht'. destruct (Forall2_In_r _ _ _ _ HF He') as (j' & Hj' & (_ & _ & _ & T' & _)). apply (Hn j' Hj'). now apply (T' i d).
  - right. rewrite K. split; [exact Hx|]. intros e' He' Ht'. destruct (Forall2_In_r _ _ _ _ HF He') as (j' & Hj' & (K' & _ & _ & T' & _)). rewrite K'. apply Hn; auto. rewrite <- Ec. now apply (T' _ c Hc).
Qed.
Lemma loop_free_entries l es : loop_free l -> Forall2 stands l es -> eloop_free es.
Proof.
  intros H. revert es. induction H as [|l1 j l2 Hl IH Ha]; intros es HF; [inversion HF; constructor|].
  apply Forall2_app_inv_l in HF. destruct HF as (e1 & er & F1 & F2 & ->). inversion F2 as [|? e ? e2 F3 F4]; subst.
  assert (FF : Forall2 stands (l1 ++ l2) (e1 ++ e2)) by now apply Forall2_app. constructor; [now apply IH|]. exact (stands_adds _ _ _ _ FF F3 Ha).
Qed.
Lemma loop_free_independent : loop_free js -> independent w.
Proof.
  intros H y Ly Hy. pose proof entries_stand as ES. pose proof (loop_free_entries _ _ H ES) as HE.
  assert (HP : Forall (proper w) (w_joints w)). { apply Forall_forall. intros e He. destruct (Forall2_In_r _ _ _ _ ES He) as (j & _ & (_ & P & _)). exact P. }
  assert (Lc : length (flat_map (fun e => entry_vel w (vzeros (3 * length (w_bodies w))) e) (w_joints w)) = w_num_constraints w).
  { change (length (constraint_velocity w (vzeros (3 * length (w_bodies w)))) = w_num_constraints w). rewrite <- (Je_cv _ _ _ _ HS) by apply vzeros_length. rewrite mv_length. apply (wf_length _ _ _ (so_Je _ _ _ _ HS)). }
  rewrite <- Ly. apply zeros_of. apply (entries_independent w (w_joints w) HE HP y); [congruence|]. intros x Lx. exact (Hy x Lx).
Qed.
End World.
