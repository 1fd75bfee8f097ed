(** Rejected trial moves are undone (exact arithmetic) *)
From Coq Require Import List Arith ZArith Bool Reals Lra Lia Psatz.
From Verif Require Import Num Tensor Utils Bodies Forces Constraints Contacts World Spec ResFacts RBase GeoSpec BodySpec
     BodyFacts RigidFacts GeomFacts BodyReach WorldFacts HandlerFacts LayoutFacts HistFacts TimeFacts RewindSpec.
Import ListNotations.
Open Scope R_scope.

(** equal up to last_sat_idx and, for a Rect, the quaternion (which the next move sets anyway) *)
Definition nq (b : body R) : body R :=
  let g := b_geom b in
  {| b_id := b_id b; b_kind := b_kind b; b_p := b_p b; b_v := b_v b; b_mass := b_mass b;
     b_inertia := b_inertia b; b_fric := b_fric b; b_rest := b_rest b; b_eps := b_eps b;
     b_forces := b_forces b;
     b_geom := {| g_shape := g_shape g; g_pos := g_pos g; g_quat := None; g_no_contact := g_no_contact g |} |}.
Definition sim (b b0 : body R) : Prop :=
  match b_kind b0 with KRect _ _ _ => nq (forget b) = nq (forget b0) | _ => forget b = forget b0 end.

Lemma set_p_nq (c : body R) p : (match b_kind c with KRect _ _ _ => True | _ => False end) -> set_p c p = set_p (nq c) p.
Proof.
  destruct c as [id k p0 v m i0 f r ep fs g]; destruct k; cbn; try tauto. intros _.
  unfold set_p. cbn. destruct (Reqb _ _); reflexivity.
Qed.
Lemma sim_set_p b b0 p : sim b b0 -> forget (set_p b p) = forget (set_p b0 p).
Proof.
  unfold sim. rewrite !forget_set_p. destruct (b_kind b0) as [r|vs l|d vs l] eqn:Ek; try (intros ->; reflexivity).
  intros H.
  assert (K0 : match b_kind (forget b0) with KRect _ _ _ => True | _ => False end) by (rewrite forget_b_kind, Ek; exact I).
  assert (K : match b_kind (forget b) with KRect _ _ _ => True | _ => False end).
  { change (b_kind (forget b)) with (b_kind (nq (forget b))). rewrite H. exact K0. }
  rewrite (set_p_nq _ _ K), (set_p_nq _ _ K0), H. reflexivity.
Qed.
Lemma sim_pv b b0 : sim b b0 -> b_p b = b_p b0 /\ b_v b = b_v b0.
Proof.
  unfold sim. intros H. rewrite <- (forget_p b), <- (forget_p b0), <- (forget_v b), <- (forget_v b0).
  destruct (b_kind b0); try (rewrite H; split; reflexivity).
  change (b_p (forget b)) with (b_p (nq (forget b))). change (b_v (forget b)) with (b_v (nq (forget b))).
  rewrite H. split; reflexivity.
Qed.
Lemma sim_move b b0 dt : sim b b0 -> forget (move b dt) = forget (move b0 dt).
Proof. intros H. unfold move. destruct (sim_pv _ _ H) as [-> ->]. now apply sim_set_p. Qed.
Lemma sim_refl b : sim b b.
Proof. unfold sim. destruct (b_kind b); reflexivity. Qed.
Lemma sim_forget b b' b0 : forget b = forget b' -> sim b' b0 -> sim b b0.
Proof. unfold sim. intros ->. auto. Qed.

Lemma sim_back b p : geom_ok b -> sim (set_p (set_p b p) (b_p b)) b.
Proof.
  intros (Hg & _ & Hk). unfold sim.
  destruct b as [id k p0 v m i0 f r ep fs g]. unfold b_pos, b_rot in *. cbn [b_geom b_p b_kind] in *.
  destruct g as [gs gp gq gn]. cbn [g_pos g_quat] in *. subst gp.
  assert (RR : forall a b vs, map (rotate (a - b)) (map (rotate (b - a)) vs) = vs).
  { intros a b vs. rewrite map_rotate_plus. replace (a - b + (b - a)) with 0 by ring. apply map_rotate_0. }
  destruct k as [rad|vs l|d vs l].
  - reflexivity.
  - unfold set_p. cbn. rnum.
    destruct (Reqb_spec (fst p - fst p0) 0) as [E|E]; cbn;
      destruct (Reqb_spec (fst p0 - fst p) 0) as [E'|E']; cbn; try lra; try reflexivity.
    rewrite !hull_rotate_eq, RR. reflexivity.
  - assert (F : rect_form vs) by (destruct Hk as (-> & _ & _); apply rect_form_rotate, corners_form).
    unfold set_p. cbn. rnum.
    destruct (Reqb_spec (fst p - fst p0) 0) as [E|E]; cbn;
      destruct (Reqb_spec (fst p0 - fst p) 0) as [E'|E']; cbn; try lra; try reflexivity.
    rewrite rect_rotate_eq with (vs := vs) by auto.
    rewrite rect_rotate_eq by (apply rect_form_rotate; auto). rewrite RR. reflexivity.
Qed.

(** *** the loop *)
Lemma Forall2_nth_error {A B} (P : A -> B -> Prop) l l' :
  length l = length l' -> (forall i a b, nth_error l i = Some a -> nth_error l' i = Some b -> P a b) -> Forall2 P l l'.
Proof.
  revert l'; induction l as [|a l IH]; intros [|b l'] HL H; try discriminate; constructor.
  - apply (H 0%nat); reflexivity.
  - apply IH; [simpl in HL; lia|]. intros i x y Hx Hy. apply (H (S i)); auto.
Qed.
Lemma nth_error_Forall2 {A B} (P : A -> B -> Prop) l l' i b : Forall2 P l l' -> nth_error l' i = Some b ->
  exists a, nth_error l i = Some a /\ P a b.
Proof.
  intros H; revert i; induction H; intros [|i] Hi; try discriminate; cbn in *.
  - inversion Hi; subst. eauto.
  - eauto.
Qed.
Lemma nth_error_Forall2_l {A B} (P : A -> B -> Prop) l l' i a : Forall2 P l l' -> nth_error l i = Some a ->
  exists b, nth_error l' i = Some b /\ P a b.
Proof.
  intros H; revert i; induction H; intros [|i] Hi; try discriminate; cbn in *.
  - inversion Hi; subst. eauto.
  - eauto.
Qed.
Lemma map_forget_nth (l l' : list (body R)) i a b : map forget l = map forget l' -> nth_error l i = Some a -> nth_error l' i = Some b ->
  forget a = forget b.
Proof.
  intros E Ha Hb. apply (map_nth_error forget) in Ha. apply (map_nth_error forget) in Hb. rewrite E in Ha. congruence.
Qed.
Definition same_place (bs B : list (body R)) : Prop := Forall2 sim bs B.
Definition one_move (dt : R) (B bs : list (body R)) : Prop :=
  Forall2 (fun b0 b => forget b = forget (move b0 dt)) B bs.

Lemma same_place_move bs B dt bs' : same_place bs B -> map forget bs' = map forget (map (fun b => move b dt) bs) ->
  one_move dt B bs'.
Proof.
  intros H E. apply Forall2_nth_error.
  - apply Forall2_len in H. apply (f_equal (@length _)) in E. rewrite !map_length in E. lia.
  - intros i b0 b H0 Hb. destruct (nth_error_Forall2 _ _ _ _ _ H H0) as (c & Hc & Hs).
    rewrite (map_forget_nth _ _ i b (move c dt) E Hb).
    + now apply sim_move.
    + now apply (map_nth_error (fun b => move b dt)).
Qed.
Lemma one_move_back dt B bs : Forall geom_ok B -> one_move dt B bs ->
  same_place (mapi (fun i b => set_p b (v3_at (cat3 (map b_p B)) i)) bs) B.
Proof.
  intros HB H. apply Forall2_nth_error.
  - rewrite mapi_length'. symmetry. eapply Forall2_len; eauto.
  - intros i b b0 Hb H0. rewrite mapi_nth in Hb. destruct (nth_error_Forall2_l _ _ _ _ _ H H0) as (c & Hc & Hs).
    rewrite Hc in Hb. cbn in Hb. inversion Hb; subst b; clear Hb.
    assert (Hi : (i < length B)%nat) by (apply nth_error_Some; congruence).
    rewrite (v3_at_cat3 _ i v3zero) by (now rewrite map_length).
    assert (En : nth i (map b_p B) v3zero = b_p b0).
    { apply nth_error_nth. now apply map_nth_error. }
    rewrite En. apply (sim_forget _ (set_p (move b0 dt) (b_p b0))).
    + rewrite !forget_set_p, Hs. reflexivity.
    + unfold move. apply sim_back. rewrite Forall_forall in HB. apply HB. eapply nth_error_In; eauto.
Qed.
Lemma tries_bodies o hd B sr w dt k w' dt' :
  handler_frame hd -> Forall geom_ok B -> same_place (w_bodies w) B ->
  tries o hd (cat3 (map b_p B)) sr w dt k w' dt' ->
  dt' = dt / 2 ^ k /\ one_move dt' B (w_bodies w').
Proof.
  intros Hf HB Hs Ht. remember (cat3 (map b_p B)) as sp eqn:Esp.
  induction Ht as [w dt w1 w2 E1 E2 Ha | w dt w1 w2 w3 k w' dt' E1 E2 En Eb E3 Ht IH].
  - split; [simpl; lra|]. apply move_all_inv in E1. destruct E1 as [js ->].
    apply find_contacts_frame in E2; auto. cbn in E2. eapply same_place_move; eauto.
  - apply move_all_inv in E1. destruct E1 as [js ->]. apply find_contacts_frame in E2; auto. cbn in E2.
    apply rewind_inv in E3. destruct E3 as [js' ->]. destruct IH as [I1 I2].
    + cbn. rewrite Esp. eapply one_move_back; auto. eapply same_place_move; eauto.
    + split; [|exact I2]. rewrite I1. rnum. simpl. field. apply pow_nonzero. lra.
Qed.

(** *** joints *)
(** a joint without rot2, which rewinding does not restore *)
Definition no_rot2 (j : joint R) : joint R := j_with_rots j (j_rot1 j) None.
Notation jent := (joint R * nat * option nat)%type.
Definition drift (j0 : joint R) (b2 : option (body R)) (s : R) : option R :=
  match j_kind j0, b2, j_rot2 j0 with
  | JJoint, Some b, Some r => Some (r + fst (b_v b) * s)
  | _, _, r => r
  end.
Definition moves (dt : R) (b2 : option (body R)) : option (body R) := option_map (fun b => move b dt) b2.

(** [e] is [e0] after one move of dt of the bodies [B], except that rot2 went on for [s] *)
Definition jmoved (dt s : R) (B : list (body R)) (e0 e : jent) : Prop :=
  let '(j0, i1, i2) := e0 in let '(j, k1, k2) := e in
  k1 = i1 /\ k2 = i2 /\ exists b1 b2, joint_bodies B i1 i2 = Ok (b1, b2) /\
  no_rot2 j = no_rot2 (j_move j0 (move b1 dt) (moves dt b2) dt) /\ j_rot2 j = drift j0 b2 s.
(** moving [e] gives the same as moving [e0], up to rot2 *)
Definition jsame (s : R) (B : list (body R)) (e0 e : jent) : Prop :=
  let '(j0, i1, i2) := e0 in let '(j, k1, k2) := e in
  k1 = i1 /\ k2 = i2 /\ exists b1 b2, joint_bodies B i1 i2 = Ok (b1, b2) /\ j_rot2 j = drift j0 b2 s /\ j_kind j = j_kind j0 /\
  (forall c1 c2 dt, (c2 = None <-> b2 = None) -> no_rot2 (j_move j c1 c2 dt) = no_rot2 (j_move j0 c1 c2 dt)).

Lemma joint_bodies_Ok (bs : list (body R)) i1 i2 b1 b2 : joint_bodies bs i1 i2 = Ok (b1, b2) <->
  nth_error bs i1 = Some b1 /\
  match i2 with None => b2 = None | Some i => exists b, b2 = Some b /\ nth_error bs i = Some b end.
Proof.
  unfold joint_bodies. destruct i2 as [i|].
  - split.
    + intros H. bind_inv H as x E1. bind_inv H as y E2. apply get_body_Ok in E1, E2. inversion H; subst. eauto.
    + intros [H1 (b & -> & H2)]. apply get_body_Ok in H1, H2. rewrite H1, H2. reflexivity.
  - split.
    + intros H. bind_inv H as x E1. apply get_body_Ok in E1. inversion H; subst. auto.
    + intros [H1 ->]. apply get_body_Ok in H1. rewrite H1. reflexivity.
Qed.
(** what a joint reads of a body *)
Definition seen (b b' : body R) : Prop := b_p b = b_p b' /\ b_v b = b_v b'.
Definition oseen (o o' : option (body R)) : Prop :=
  match o, o' with None, None => True | Some a, Some b => seen a b | _, _ => False end.
Lemma update_pos_seen j b1 b1' o o' : seen b1 b1' -> oseen o o' -> j_update_pos j b1 o = j_update_pos j b1' o'.
Proof.
  intros [H1 H2] Ho. unfold j_update_pos, b_pos, b_rot. rewrite H1.
  destruct o, o'; cbn in Ho; try tauto; try (destruct Ho as [E1 E2]; rewrite E1); reflexivity.
Qed.
Lemma j_move_seen j b1 b1' o o' dt : seen b1 b1' -> oseen o o' -> j_move j b1 o dt = j_move j b1' o' dt.
Proof.
  intros H1 Ho. unfold j_move.
  assert (Hv : fst (b_v b1) = fst (b_v b1')) by (now destruct H1 as [_ ->]). rewrite Hv.
  destruct (j_kind j); try (apply update_pos_seen; assumption).
  destruct o as [a|], o' as [a'|]; cbn in Ho; try tauto.
  - destruct Ho as [E1 E2]. rewrite E2. apply update_pos_seen; auto. split; auto.
  - apply update_pos_seen; cbn; auto.
Qed.
Lemma forget_seen b b' : forget b = forget b' -> seen b b'.
Proof.
  intros H. split; [rewrite <- (forget_p b), H, forget_p|rewrite <- (forget_v b), H, forget_v]; reflexivity.
Qed.
Lemma joint_bodies_rel (P : body R -> body R -> Prop) (bs B : list (body R)) i1 i2 b1 b2 :
  Forall2 P B bs -> joint_bodies bs i1 i2 = Ok (b1, b2) ->
  exists c1 c2, joint_bodies B i1 i2 = Ok (c1, c2) /\ P c1 b1 /\
   match c2, b2 with None, None => True | Some x, Some y => P x y | _, _ => False end.
Proof.
  intros HF H. apply joint_bodies_Ok in H. destruct H as [H1 H2].
  destruct (nth_error_Forall2 _ _ _ _ _ HF H1) as (c1 & Hc1 & P1). exists c1.
  destruct i2 as [i|].
  - destruct H2 as (b & -> & Hb). destruct (nth_error_Forall2 _ _ _ _ _ HF Hb) as (c & Hc & P2).
    exists (Some c). split; [apply joint_bodies_Ok; eauto|auto].
  - subst b2. exists None. split; [apply joint_bodies_Ok; auto|auto].
Qed.
Lemma update_pos_rot2 (j : joint R) a b : j_rot2 (j_update_pos j a b) = j_rot2 j.
Proof. unfold j_update_pos. destruct (j_kind j); reflexivity. Qed.
Lemma jent_moves w B J dt w1 s :
  same_place (w_bodies w) B -> Forall2 (jsame s B) J (w_joints w) -> move_all w dt = Ok w1 ->
  Forall2 (jmoved dt (s + dt) B) J (w_joints w1).
Proof.
  intros Hs HJ H. unfold move_all in H. bind_inv H as js Ej. inversion H; subst w1; clear H. cbn.
  apply mapM_Forall2 in Ej. revert J HJ.
  induction Ej as [|[[j k1] k2] e js0 js1 E Ej IH]; intros J HJ; inversion HJ as [|[[j0 i1] i2] ? J0 ? H0 HJ0]; subst; constructor; auto.
  destruct H0 as (-> & -> & b1 & b2 & Hb & Hr & Hk & Hm). cbn in E. bind_inv E as jb Eb. destruct jb as [a1 a2].
  inversion E; subst e; clear E. cbn [fst snd]. split; [reflexivity|]. split; [reflexivity|]. exists b1, b2. split; [exact Hb|].
  assert (OM : one_move dt B (map (fun b => move b dt) (w_bodies w))) by (eapply same_place_move; eauto).
  destruct (joint_bodies_rel _ _ _ _ _ _ _ OM Eb) as (c1 & c2 & Hc & P1 & P2).
  rewrite Hb in Hc. inversion Hc; subst c1 c2; clear Hc.
  apply forget_seen in P1.
  assert (P2' : oseen a2 (moves dt b2)).
  { destruct a2, b2; cbn; try tauto. now apply forget_seen. }
  rewrite (j_move_seen _ _ _ _ _ _ P1 P2'). split.
  - apply Hm. destruct b2; cbn; split; intros; congruence.
  - unfold j_move. rewrite Hk. unfold drift in *.
    assert (Hv : forall x, fst (b_v (move x dt)) = fst (b_v x)) by (intros x; unfold move; now rewrite set_p_v).
    destruct (j_kind j0) eqn:Ek; rewrite update_pos_rot2; cbn; try exact Hr.
    destruct b2 as [x|]; cbn; [|exact Hr]. rewrite Hr. destruct (j_rot2 j0); cbn; [|reflexivity].
    rewrite Hv. f_equal. rnum. ring.
Qed.
Lemma no_rot2_inv j j' : no_rot2 j = no_rot2 j' -> j = j_with_rots j' (j_rot1 j') (j_rot2 j).
Proof. destruct j, j'. unfold no_rot2, j_with_rots. cbn. intros H. inversion H; subst. reflexivity. Qed.

(** moving a joint that was moved and put back *)
Lemma jsame_back j0 b1 b2 c1 c2 dt r x1 x2 dt' :
  (c2 = None <-> b2 = None) -> (x2 = None <-> b2 = None) ->
  no_rot2 (j_move (j_update_pos (j_with_rots (j_move j0 b1 b2 dt) (j_rot1 j0) r) c1 c2) x1 x2 dt') =
  no_rot2 (j_move j0 x1 x2 dt').
Proof.
  intros H1 H2. destruct j0 as [k n1 n2 p p1 p2 r1 rot1 rot2].
  destruct b2, c2; try (exfalso; intuition congruence); destruct x2; try (exfalso; intuition congruence);
  destruct k; cbn; try reflexivity.
Qed.
Lemma rewind_bodies w sp sr w' : rewind w sp sr = Ok w' -> w_bodies w' = w_bodies (world_set_p w sp).
Proof. intros H. unfold rewind in H. bind_inv H as js Ej. inversion H. reflexivity. Qed.
Lemma jent_back w B J dt s w3 sp :
  Forall2 (jmoved dt s B) J (w_joints w) -> same_place (w_bodies (world_set_p w sp)) B ->
  rewind w sp (map (fun '(j, _, _) => (j_rot1 j, j_rot2 j)) J) = Ok w3 ->
  Forall2 (jsame s B) J (w_joints w3).
Proof.
  intros HJ HB H. unfold rewind in H. bind_inv H as js Ej. inversion H; subst w3; clear H. cbn [w_joints with_joints with_state].
  change (w_joints (world_set_p w sp)) with (w_joints w) in Ej.
  set (bs := w_bodies (world_set_p w sp)) in *. clearbody bs. apply mapM_Forall2 in Ej.
  revert js Ej. induction HJ as [|[[j0 i1] i2] [[j k1] k2] J0 L0 H0 HJ IH]; intros js Ej; cbn in Ej;
    inversion Ej as [|? e ? js0 E Ej0]; subst; constructor; auto.
  destruct H0 as (-> & -> & b1 & b2 & Hb & Hn & Hr). cbn in E. bind_inv E as jb Eb. destruct jb as [a1 a2].
  inversion E; subst e; clear E. cbn [fst snd]. split; [reflexivity|]. split; [reflexivity|]. exists b1, b2. split; [exact Hb|].
  assert (Hnone : a2 = None <-> b2 = None).
  { apply joint_bodies_Ok in Hb, Eb. destruct Hb as [_ Hb], Eb as [_ Eb]. destruct i2 as [i|].
    - destruct Hb as (x & -> & _), Eb as (y & -> & _). split; congruence.
    - subst; tauto. }
  apply no_rot2_inv in Hn.
  assert (Ek : j_kind j = j_kind j0).
  { rewrite Hn. unfold j_move. destruct j0 as [k n1 n2 p p1 p2 r1 rot1 rot2]; destruct k; reflexivity. }
  split; [|split].
  - rewrite <- Hr. unfold j_update_pos, j_with_rots. cbn. destruct (j_kind j); reflexivity.
  - rewrite <- Ek. unfold j_update_pos, j_with_rots. cbn. destruct (j_kind j); reflexivity.
  - intros c1 c2 dt0 Hc. rewrite Hn.
    etransitivity; [|apply (jsame_back j0 (move b1 dt) (moves dt b2) a1 a2 dt (j_rot2 j))].
    + reflexivity.
    + rewrite Hnone. destruct b2; cbn; split; congruence.
    + rewrite Hc. destruct b2; cbn; split; congruence.
Qed.

Lemma tries_joints o hd B J w dt k w' dt' s :
  handler_frame hd -> Forall geom_ok B -> same_place (w_bodies w) B -> Forall2 (jsame s B) J (w_joints w) ->
  tries o hd (cat3 (map b_p B)) (map (fun '(j, _, _) => (j_rot1 j, j_rot2 j)) J) w dt k w' dt' ->
  Forall2 (jmoved dt' (s + dt * (2 - / 2 ^ k)) B) J (w_joints w').
Proof.
  intros Hf HB Hs HJ Ht. remember (cat3 (map b_p B)) as sp eqn:Esp.
  remember (map (fun '(j, _, _) => (j_rot1 j, j_rot2 j)) J) as sr eqn:Esr. revert s HJ.
  induction Ht as [w dt w1 w2 E1 E2 Ha | w dt w1 w2 w3 k w' dt' E1 E2 En Eb E3 Ht IH]; intros s HJ.
  - pose proof (jent_moves _ _ _ _ _ _ Hs HJ E1) as HM. apply find_contacts_inv in E2.
    destruct E2 as (cs & bs & clk & ->). cbn. replace (s + dt * (2 - / 1)) with (s + dt) by (field). exact HM.
  - pose proof (jent_moves _ _ _ _ _ _ Hs HJ E1) as HM.
    assert (HM2 : Forall2 (jmoved dt (s + dt) B) J (w_joints w2)).
    { pose proof E2 as E2'. apply find_contacts_inv in E2'. destruct E2' as (cs & bs & clk & ->). exact HM. }
    assert (HB3 : same_place (w_bodies (world_set_p w2 sp)) B).
    { subst sp. cbn. eapply one_move_back; auto. apply move_all_inv in E1. destruct E1 as [js ->].
      apply find_contacts_frame in E2; auto. cbn in E2. eapply same_place_move; eauto. }
    pose proof (rewind_bodies _ _ _ _ E3) as Eb3.
    rewrite Esr in E3. pose proof (jent_back _ _ _ _ _ _ _ HM2 HB3 E3) as HJ3.
    specialize (IH ltac:(rewrite Eb3; exact HB3) _ HJ3).
    replace (s + dt * (2 - / 2 ^ S k)) with (s + dt + ndiv dt (nofZ 2) * (2 - / 2 ^ k)); [exact IH|].
    rnum. simpl. field. apply pow_nonzero. lra.
Qed.
Lemma jsame_refl B J : (forall j i1 i2, In (j, i1, i2) J -> exists b, joint_bodies B i1 i2 = Ok b) ->
  Forall2 (jsame 0 B) J J.
Proof.
  intros H. induction J as [|[[j i1] i2] J IH]; constructor.
  - split; [reflexivity|]. split; [reflexivity|]. destruct (H j i1 i2 (or_introl eq_refl)) as [[b1 b2] Hb].
    exists b1, b2. split; [exact Hb|]. split; [|split; [reflexivity|auto]].
    unfold drift. destruct (j_kind j); try reflexivity. destruct b2, (j_rot2 j); try reflexivity. f_equal. ring.
  - apply IH. intros. eapply H. right; eauto.
Qed.

Lemma one_move_bodies_of o hd sp sr w dt k w' dt' : tries o hd sp sr w dt k w' dt' ->
  forall j i1 i2, In (j, i1, i2) (w_joints w) -> exists b, joint_bodies (w_bodies w) i1 i2 = Ok b.
Proof.
  intros Ht j i1 i2 Hin.
  assert (H : exists w1, move_all w dt = Ok w1) by (inversion Ht; eauto). destruct H as [w1 H].
  unfold move_all in H. bind_inv H as js Ej. apply mapM_Forall2 in Ej.
  apply In_nth_error in Hin. destruct Hin as [n Hn].
  destruct (nth_error_Forall2_l _ _ _ _ _ Ej Hn) as (e & _ & He). cbn in He. bind_inv He as jb Eb.
  destruct jb as [b1 b2]. apply joint_bodies_Ok in Eb. destruct Eb as [E1 E2].
  rewrite nth_error_map in E1. destruct (nth_error (w_bodies w) i1) as [c1|] eqn:C1; [|discriminate].
  destruct i2 as [i|].
  - destruct E2 as (b & _ & E2). rewrite nth_error_map in E2.
    destruct (nth_error (w_bodies w) i) as [c2|] eqn:C2; [|discriminate].
    exists (c1, Some c2). apply joint_bodies_Ok. eauto.
  - exists (c1, None). apply joint_bodies_Ok. auto.
Qed.

(** the bodies of [w] with the velocities [v] *)
Definition with_vs (bs : list (body R)) (v : list R) : list (body R) := mapi (fun i b => with_v b (v3_at v i)) bs.
Lemma with_vs_geom bs v : Forall geom_ok bs -> Forall geom_ok (with_vs bs v).
Proof.
  intros H. unfold with_vs. assert (F : Forall2 (fun b b' => geom_ok b -> geom_ok b') bs (mapi (fun i b => with_v b (v3_at v i)) bs)).
  { apply Forall2_mapi. intros i b Hb. exact Hb. }
  rewrite Forall_forall in *. intros b Hb. destruct (Forall2_In_r _ _ _ _ F Hb) as (a & Ha & Hab). auto.
Qed.
Lemma with_vs_p bs v : map b_p (with_vs bs v) = map b_p bs.
Proof. unfold with_vs. apply mapi_map. reflexivity. Qed.

Lemma step_dt_moves fuel o hd e w dt w' :
  handler_frame hd -> Forall geom_ok (w_bodies w) -> step_dt fuel o hd e w dt = Ok w' ->
  exists v cache k w1 w2,
    e_solve e w dt = Ok (v, cache) /\ set_v (with_cache w cache) v = Ok w1 /\
    tries o hd (cat3 (map b_p (w_bodies w))) (map (fun '(j, _, _) => (j_rot1 j, j_rot2 j)) (w_joints w))
      w1 dt k w2 (dt / 2 ^ k) /\
    one_move (dt / 2 ^ k) (with_vs (w_bodies w) v) (w_bodies w2) /\
    Forall2 (jmoved (dt / 2 ^ k) (dt * (2 - / 2 ^ k)) (with_vs (w_bodies w) v)) (w_joints w) (w_joints w2) /\
    (w_post_stab w = false -> w' = with_t w2 (w_t w2 + dt / 2 ^ k)) /\
    (w_post_stab w = true -> exists dp wa wb wc w3, e_post e w2 = Ok dp /\ set_v w2 (map (fun a => a / 2) dp) = Ok wa /\
       move_all wa (dt / 2 ^ k) = Ok wb /\ set_v wb (w_v w2) = Ok wc /\ find_contacts o hd wc = Ok w3 /\
       w' = with_t w3 (w_t w3 + dt / 2 ^ k)).
Proof.
  intros Hf HB H. unfold step_dt in H. cbv zeta in H. bind_inv H as sol Es. destruct sol as [v cache].
  bind_inv H as w1 E1. bind_inv H as r El. destruct r as [w2 dt'].
  apply step_loop_tries in El. destruct El as [k [_ Ht]].
  pose proof E1 as E1'. apply set_v_inv in E1'. destruct E1' as [_ E1'].
  assert (Eb : w_bodies w1 = with_vs (w_bodies w) v) by (subst w1; reflexivity).
  assert (Ej : w_joints w1 = w_joints w) by (subst w1; reflexivity).
  assert (Ep : map b_p (w_bodies w) = map b_p (with_vs (w_bodies w) v)) by (now rewrite with_vs_p).
  assert (HBv : Forall geom_ok (with_vs (w_bodies w) v)) by (now apply with_vs_geom).
  assert (Hs : same_place (w_bodies w1) (with_vs (w_bodies w) v)).
  { rewrite Eb. clear. unfold same_place. induction (with_vs (w_bodies w) v); constructor; auto. apply sim_refl. }
  assert (HJ : Forall2 (jsame 0 (with_vs (w_bodies w) v)) (w_joints w) (w_joints w1)).
  { rewrite Ej. apply jsame_refl. rewrite <- Eb, <- Ej. exact (one_move_bodies_of _ _ _ _ _ _ _ _ _ Ht). }
  rewrite Ep in Ht. pose proof (tries_bodies _ _ _ _ _ _ _ _ _ Hf HBv Hs Ht) as [Ed HM].
  pose proof (tries_joints _ _ _ _ _ _ _ _ _ _ Hf HBv Hs HJ Ht) as HMj. subst dt'.
  rewrite Rplus_0_l in HMj. rewrite <- Ep in Ht.
  exists v, cache, k, w1, w2. split; [exact Es|]. split; [exact E1|]. split; [exact Ht|]. split; [exact HM|]. split; [exact HMj|].
  pose proof (tries_cfg _ _ _ _ _ _ _ _ _ Ht) as [Hc _].
  assert (Eps : w_post_stab w2 = w_post_stab w).
  { apply cfg_fields in Hc. subst w1. cbn in Hc. tauto. }
  rewrite Eps in H. split; intros Hps; rewrite Hps in H.
  - cbn in H. inversion H. reflexivity.
  - bind_inv H as w3 E3. bind_inv E3 as dp Edp. bind_inv E3 as wa Ewa. bind_inv E3 as wb Ewb. bind_inv E3 as wc Ewc.
    inversion H. exists dp, wa, wb, wc, w3. repeat (split; [eassumption|]). reflexivity.
Qed.

(** *** statements *)

Lemma trials_det_aux {T} {N : Num T} o hd sp sr (w : world T) dt k w' dt' :
  tries o hd sp sr w dt k w' dt' -> forall l w'' dt'', tries o hd sp sr w dt l w'' dt'' -> l = k /\ w'' = w' /\ dt'' = dt'.
Proof.
  induction 1 as [w dt w1 w2 E1 E2 Ha | w dt w1 w2 w3 k w' dt' E1 E2 En Eb E3 Ht IH]; intros l w'' dt'' H2;
    inversion H2 as [a b c d F1 F2 Fa | a b c d f l0 g h F1 F2 Fn Fb F3 Ft]; subst.
  - rewrite E1 in F1. inversion F1; subst. rewrite E2 in F2. inversion F2; subst. auto.
  - exfalso. rewrite E1 in F1. inversion F1; subst. rewrite E2 in F2. inversion F2; subst.
    destruct Ha as [Ha|[Ha1 Ha2]]; [congruence|]. destruct Fb; congruence.
  - exfalso. rewrite E1 in F1. inversion F1; subst. rewrite E2 in F2. inversion F2; subst.
    destruct Fa as [Ha|[Ha1 Ha2]]; [congruence|]. destruct Eb; congruence.
  - rewrite E1 in F1. inversion F1; subst. rewrite E2 in F2. inversion F2; subst.
    rewrite E3 in F3. inversion F3; subst. destruct (IH _ _ _ Ft) as (A1 & A2 & A3). subst. auto.
Qed.
Lemma accepted_within_tol {T} {N : Num T} fuel (o : oracle T) (hd : handler T) (e : engine T) w dt w' :
  w_strict w = true -> step_dt fuel o hd e w dt = Ok w' ->
  exists w2, accepted_state o hd e w dt w2 /\
             forall c, In c (w_contacts w2) -> nleb (c_pen c) (w_tol w) = true.
Proof.
  intros Hs H. unfold step_dt in H. cbv zeta in H. bind_inv H as sol Es. destruct sol as [v cache].
  bind_inv H as w1 E1. bind_inv H as r El. destruct r as [w2 dt'].
  apply step_loop_tries in El. destruct El as [k [_ Ht]]. clear H.
  exists w2. split; [exists k, dt', v, cache, w1; auto|].
  pose proof (tries_accepted _ _ _ _ _ _ _ _ _ Ht) as Ha. pose proof (tries_cfg _ _ _ _ _ _ _ _ _ Ht) as [Hc _].
  pose proof (set_v_cfg _ _ _ E1) as Hc1. apply cfg_fields in Hc, Hc1.
  assert (S2 : w_strict w2 = true) by (cbn in Hc1; intuition congruence).
  assert (T2 : w_tol w2 = w_tol w) by (cbn in Hc1; intuition congruence).
  destruct Ha as [Ha|[Ha _]]; [|congruence]. rewrite no_penetration_spec, Forall_forall in Ha.
  intros c Hc'. rewrite <- T2. auto.
Qed.

Lemma rejected_moves fuel (o : oracle R) hd e w dt w' :
    handler_frame hd -> Forall reachable_body (w_bodies w) -> w_post_stab w = false ->
    step_dt fuel o hd e w dt = Ok w' ->
    exists v k, solved_velocity e w dt v /\ rejected o hd e w dt k /\
      length (w_bodies w') = length (w_bodies w) /\
      forall i b, nth_error (w_bodies w) i = Some b ->
        exists b', nth_error (w_bodies w') i = Some b' /\
                   forget b' = forget (move (with_v b (v3_at v i)) (dt / 2 ^ k)).
Proof.
  intros Hf HB Hps H. apply step_dt_moves in H; auto.
  2:{ rewrite Forall_forall in *. intros b Hb. apply reachable_geom; auto. }
  destruct H as (v & cache & k & w1 & w2 & Es & E1 & Ht & HM & _ & Hw & _). specialize (Hw Hps). subst w'.
  exists v, k. split; [exists cache; exact Es|]. split; [exists w2, (dt / 2 ^ k), v, cache, w1; auto|].
  cbn [w_bodies with_t with_state]. split.
  - apply Forall2_len in HM. unfold with_vs in HM. rewrite mapi_length' in HM. auto.
  - intros i b Hb. eapply nth_error_Forall2_l with (a := with_v b (v3_at v i)) in HM.
    + exact HM.
    + unfold with_vs. rewrite mapi_nth, Hb. reflexivity.
Qed.
Lemma tries_v {T} {N : Num T} o hd sp sr (w : world T) dt k w' dt' : tries o hd sp sr w dt k w' dt' -> w_v w' = w_v w.
Proof.
  induction 1 as [w dt w1 w2 E1 E2 Ha | w dt w1 w2 w3 k w' dt' E1 E2 En Eb E3 Ht IH].
  - apply move_all_inv in E1. destruct E1 as [js ->]. apply find_contacts_inv in E2. destruct E2 as (cs & bs & clk & ->). reflexivity.
  - rewrite IH. apply move_all_inv in E1. destruct E1 as [js ->]. apply find_contacts_inv in E2. destruct E2 as (cs & bs & clk & ->).
    apply rewind_inv in E3. destruct E3 as [js' ->]. reflexivity.
Qed.
Lemma rejected_moves_post_stab fuel (o : oracle R) hd e w dt w' :
    handler_frame hd -> Forall reachable_body (w_bodies w) -> w_post_stab w = true ->
    step_dt fuel o hd e w dt = Ok w' ->
    exists v k dp, solved_velocity e w dt v /\ rejected o hd e w dt k /\
      length (w_bodies w') = length (w_bodies w) /\
      forall i b, nth_error (w_bodies w) i = Some b ->
        exists b', nth_error (w_bodies w') i = Some b' /\
          forget b' = forget (with_v (move (with_v (move (with_v b (v3_at v i)) (dt / 2 ^ k))
                                                   (v3_at (map (fun x => x / 2) dp) i)) (dt / 2 ^ k))
                                     (v3_at v i)).
Proof.
  intros Hf HB Hps H. apply step_dt_moves in H; auto.
  2:{ rewrite Forall_forall in *. intros b Hb. apply reachable_geom; auto. }
  destruct H as (v & cache & k & w1 & w2 & Es & E1 & Ht & HM & _ & _ & Hw).
  destruct (Hw Hps) as (dp & wa & wb & wc & w3 & Edp & Ea & Eb & Ec & E3 & ->).
  exists v, k, dp. split; [exists cache; exact Es|]. split; [exists w2, (dt / 2 ^ k), v, cache, w1; auto|].
  cbn [w_bodies with_t with_state].
  assert (Ev : w_v w2 = v).
  { clear - E1 Ht. assert (w_v w1 = v) by (apply set_v_inv in E1; destruct E1 as [_ ->]; reflexivity).
    rewrite <- H. eapply tries_v; eauto. }
  apply find_contacts_frame in E3; auto.
  apply set_v_inv in Ec, Ea. destruct Ec as [_ ->], Ea as [_ ->]. apply move_all_inv in Eb. destruct Eb as [js ->].
  cbn [w_bodies with_t with_state with_bodies with_joints] in E3.
  assert (L : length (w_bodies w2) = length (w_bodies w)).
  { apply Forall2_len in HM. unfold with_vs in HM. rewrite mapi_length' in HM. auto. }
  split.
  - apply (f_equal (@length _)) in E3. rewrite !map_length, mapi_length', map_length, mapi_length' in E3. lia.
  - intros i b Hb. eapply nth_error_Forall2_l with (a := with_v b (v3_at v i)) in HM;
      [|unfold with_vs; rewrite mapi_nth, Hb; reflexivity].
    destruct HM as (b2 & Hb2 & E2).
    assert (Hlen : length (w_bodies w3) = length (w_bodies w)).
    { apply (f_equal (@length _)) in E3. rewrite !map_length, mapi_length', map_length, mapi_length' in E3. lia. }
    destruct (nth_error (w_bodies w3) i) as [b3|] eqn:Hb3.
    2:{ apply nth_error_None in Hb3. assert (i < length (w_bodies w))%nat by (apply nth_error_Some; congruence). lia. }
    exists b3. split; [reflexivity|].
    set (L3 := mapi _ _) in E3.
    assert (HL : nth_error L3 i = Some (with_v (move (with_v b2 (v3_at (map (fun x => x / 2) dp) i)) (dt / 2 ^ k)) (v3_at v i))).
    { unfold L3. rewrite mapi_nth, nth_error_map, mapi_nth, Hb2. cbn. rewrite Ev. reflexivity. }
    rewrite (map_forget_nth _ _ _ _ _ E3 Hb3 HL).
    rewrite !forget_with_v, !forget_move, !forget_with_v, E2. rewrite !forget_move, !forget_with_v. reflexivity.
Qed.
Lemma joint_ends_with_vs w v i1 i2 b1 b2 :
  joint_bodies (with_vs (w_bodies w) v) i1 i2 = Ok (b1, b2) -> joint_ends w v i1 i2 b1 b2.
Proof.
  intros H. apply joint_bodies_Ok in H. destruct H as [H1 H2]. unfold with_vs in *. rewrite mapi_nth in H1. split.
  - destruct (nth_error (w_bodies w) i1); [|discriminate]. cbn in H1. inversion H1. eauto.
  - destruct i2 as [i|]; [|exact H2]. destruct H2 as (b & -> & H2). rewrite mapi_nth in H2.
    destruct (nth_error (w_bodies w) i); [|discriminate]. cbn in H2. inversion H2. eauto.
Qed.
Lemma rejected_joints fuel (o : oracle R) hd e w dt w' :
    handler_frame hd -> Forall reachable_body (w_bodies w) -> w_post_stab w = false ->
    step_dt fuel o hd e w dt = Ok w' ->
    exists v k, solved_velocity e w dt v /\ rejected o hd e w dt k /\
      length (w_joints w') = length (w_joints w) /\
      forall n j i1 i2, nth_error (w_joints w) n = Some (j, i1, i2) ->
        exists j' b1 b2, nth_error (w_joints w') n = Some (j', i1, i2) /\
          joint_ends w v i1 i2 b1 b2 /\
          let dt' := dt / 2 ^ k in
          let one := j_move j (move b1 dt') (option_map (fun b => move b dt') b2) dt' in
          j' = j_with_rots one (j_rot1 one) (j_rot2 j').
Proof.
  intros Hf HB Hps H. apply step_dt_moves in H; auto.
  2:{ rewrite Forall_forall in *. intros b Hb. apply reachable_geom; auto. }
  destruct H as (v & cache & k & w1 & w2 & Es & E1 & Ht & _ & HM & Hw & _). specialize (Hw Hps). subst w'.
  exists v, k. split; [exists cache; exact Es|]. split; [exists w2, (dt / 2 ^ k), v, cache, w1; auto|].
  cbn [w_joints with_t with_state]. split; [symmetry; eapply Forall2_len; eauto|].
  intros n j i1 i2 Hj. destruct (nth_error_Forall2_l _ _ _ _ _ HM Hj) as ([[j' k1] k2] & Hj' & Hm).
  destruct Hm as (-> & -> & b1 & b2 & Hb & Hn & Hr). exists j', b1, b2. split; [exact Hj'|].
  split; [now apply joint_ends_with_vs|]. now apply no_rot2_inv.
Qed.
Lemma rot2_drift fuel (o : oracle R) hd e w dt w' :
    handler_frame hd -> Forall reachable_body (w_bodies w) -> w_post_stab w = false ->
    step_dt fuel o hd e w dt = Ok w' ->
    exists v k, solved_velocity e w dt v /\ rejected o hd e w dt k /\
      forall n j i1 i2 r2, nth_error (w_joints w) n = Some (j, i1, Some i2) ->
        j_kind j = JJoint -> j_rot2 j = Some r2 ->
        exists j', nth_error (w_joints w') n = Some (j', i1, Some i2) /\
                   j_rot2 j' = Some (r2 + fst (v3_at v i2) * (dt * (2 - / 2 ^ k))).
Proof.
  intros Hf HB Hps H. apply step_dt_moves in H; auto.
  2:{ rewrite Forall_forall in *. intros b Hb. apply reachable_geom; auto. }
  destruct H as (v & cache & k & w1 & w2 & Es & E1 & Ht & _ & HM & Hw & _). specialize (Hw Hps). subst w'.
  exists v, k. split; [exists cache; exact Es|]. split; [exists w2, (dt / 2 ^ k), v, cache, w1; auto|].
  cbn [w_joints with_t with_state].
  intros n j i1 i2 r2 Hj Hk Hr2. destruct (nth_error_Forall2_l _ _ _ _ _ HM Hj) as ([[j' k1] k2] & Hj' & Hm).
  destruct Hm as (-> & -> & b1 & b2 & Hb & Hn & Hr). exists j'. split; [exact Hj'|].
  apply joint_ends_with_vs in Hb. destruct Hb as [_ (b & _ & ->)]. rewrite Hr. unfold drift. rewrite Hk, Hr2. reflexivity.
Qed.
