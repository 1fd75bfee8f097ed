(** What the contact callbacks leave alone, for every arithmetic *)
From Coq Require Import List Arith ZArith Lia Bool.
From Verif Require Import Num Tensor Utils Bodies Forces Constraints Contacts World
     ResFacts Spec WorldFacts.
Import ListNotations.
Open Scope nat_scope.

Section HandlerFacts.
Context {T : Type} {N : Num T}.
Implicit Types (w : world T) (o : oracle T) (hd : handler T) (e : engine T) (bs bodies : list (body T)).

Lemma forget_set_last (b : body T) i : forget (set_last b i) = forget b.
Proof. unfold forget, set_last. destruct b as [id k p v m i0 f r ep fs g]; destruct k; reflexivity. Qed.
Lemma forget_id (b : body T) : b_id (forget b) = b_id b.
Proof. destruct b as [id k p v m i0 f r ep fs g]; destruct k; reflexivity. Qed.
Lemma forget_p (b : body T) : b_p (forget b) = b_p b.
Proof. destruct b as [id k p v m i0 f r ep fs g]; destruct k; reflexivity. Qed.
Lemma forget_v (b : body T) : b_v (forget b) = b_v b.
Proof. destruct b as [id k p v m i0 f r ep fs g]; destruct k; reflexivity. Qed.
Lemma forget_geom (b : body T) : b_geom (forget b) = b_geom b.
Proof. destruct b as [id k p v m i0 f r ep fs g]; destruct k; reflexivity. Qed.
Lemma forget_verts (b : body T) : b_verts (forget b) = b_verts b.
Proof. destruct b as [id k p v m i0 f r ep fs g]; destruct k; reflexivity. Qed.
Lemma forget_mass (b : body T) : b_mass (forget b) = b_mass b.
Proof. destruct b as [id k p v m i0 f r ep fs g]; destruct k; reflexivity. Qed.
Lemma forget_inertia (b : body T) : b_inertia (forget b) = b_inertia b.
Proof. destruct b as [id k p v m i0 f r ep fs g]; destruct k; reflexivity. Qed.
Lemma forget_forces (b : body T) : b_forces (forget b) = b_forces b.
Proof. destruct b as [id k p v m i0 f r ep fs g]; destruct k; reflexivity. Qed.
Lemma forget_fric (b : body T) : b_fric (forget b) = b_fric b.
Proof. destruct b as [id k p v m i0 f r ep fs g]; destruct k; reflexivity. Qed.
Lemma forget_rest (b : body T) : b_rest (forget b) = b_rest b.
Proof. destruct b as [id k p v m i0 f r ep fs g]; destruct k; reflexivity. Qed.
Lemma forget_eps (b : body T) : b_eps (forget b) = b_eps b.
Proof. destruct b as [id k p v m i0 f r ep fs g]; destruct k; reflexivity. Qed.
Lemma forget_with_v (b : body T) v : forget (with_v b v) = with_v (forget b) v.
Proof. destruct b as [id k p v0 m i0 f r ep fs g]; destruct k; reflexivity. Qed.
Lemma forget_set_p (b : body T) p : forget (set_p b p) = set_p (forget b) p.
Proof.
  destruct b as [id k p0 v m i0 f r ep fs g]; destruct k; unfold forget, set_p; simpl.
  - reflexivity.
  - destruct (neqb (nsub (fst p) (fst p0)) n0); reflexivity.
  - destruct (neqb (nsub (fst p) (fst p0)) n0); reflexivity.
Qed.
Lemma forget_move (b : body T) dt : forget (move b dt) = move (forget b) dt.
Proof. unfold move. rewrite forget_set_p, forget_p, forget_v. reflexivity. Qed.

(** projections that do not see last_sat_idx *)
Lemma map_forget {A} (f : body T -> A) (Hf : forall b, f (forget b) = f b) bs bs' :
  map forget bs' = map forget bs -> map f bs' = map f bs.
Proof.
  intros H.
  rewrite <- (map_ext (fun b => f (forget b)) f Hf bs'), <- (map_ext (fun b => f (forget b)) f Hf bs).
  rewrite <- (map_map forget f bs'), <- (map_map forget f bs). now rewrite H.
Qed.

Lemma nth_error_forget (bs bs' : list (body T)) i b :
  map forget bs' = map forget bs -> nth_error bs' i = Some b ->
  exists b0, nth_error bs i = Some b0 /\ forget b = forget b0.
Proof.
  intros H Hi. assert (E : nth_error (map forget bs') i = Some (forget b))
    by now rewrite nth_error_map, Hi.
  rewrite H, nth_error_map in E. destruct (nth_error bs i) eqn:Eb; inversion E. eauto.
Qed.

Lemma get_body_Ok (bs : list (body T)) i b : get_body bs i = Ok b <-> nth_error bs i = Some b.
Proof. unfold get_body. destruct (nth_error bs i); split; intros H; inversion H; reflexivity. Qed.

Lemma map_forget_upd bs i (b b' : body T) :
  nth_error bs i = Some b -> forget b' = forget b -> map forget (upd bs i b') = map forget bs.
Proof. apply map_upd_same. Qed.

Lemma circle_hull_forget fuel (c hu : body T) eps start op hu' :
  circle_hull fuel c hu eps start = Ok (op, hu') -> forget hu' = forget hu.
Proof.
  unfold circle_hull. intros H. binv H. destruct a as [cl ids].
  destruct (Nat.ltb (length ids) 3).
  - destruct (nltb _ _); inversion H; reflexivity.
  - destruct (ss_exit _); [inversion H; apply forget_set_last|].
    destruct (ss_best _) as [[n pt2]|]; inversion H. apply forget_set_last.
Qed.

Lemma hull_hull_forget (b1 b2 : body T) eps ps b1' b2' :
  hull_hull b1 b2 eps = Ok (ps, b1', b2') -> forget b1' = forget b1 /\ forget b2' = forget b2.
Proof.
  unfold hull_hull. intros H. binv H. cbv zeta in H.
  destruct (nltb eps (sep_dist a)).
  { inversion H; subst. split; [apply forget_set_last|reflexivity]. }
  binv H. destruct (nltb eps (sep_dist a0)).
  { inversion H; subst. split; apply forget_set_last. }
  destruct (nltb (sep_dist a) (sep_dist a0)).
  - destruct (sep_info a0) as [[[[[? ?] ?] ?] ?]|]; inversion H; subst; split; apply forget_set_last.
  - destruct (sep_info a) as [[[[[? ?] ?] ?] ?]|]; inversion H; subst; split; apply forget_set_last.
Qed.

Lemma diff_handler_frame fuel o : handler_frame (diff_handler fuel o).
Proof.
  intros eps clk bs i1 i2 cs bs' clk' H. unfold diff_handler in H.
  bind_inv H as b1 E1. bind_inv H as b2 E2. apply get_body_Ok in E1, E2.
  destruct (existsb _ _); [inversion H; reflexivity|].
  destruct (is_circle b1 && is_circle b2) eqn:Ec; [inversion H; reflexivity|].
  destruct (is_circle b1 || is_circle b2) eqn:Eo.
  - destruct (is_circle b2) eqn:E2c.
    + destruct (Nat.eqb _ 0); [discriminate|]. binv H. destruct a as [op hu']. inversion H; subst.
      eapply map_forget_upd; eauto. eapply circle_hull_forget; eauto.
    + destruct (Nat.eqb _ 0); [discriminate|]. binv H. destruct a as [op hu']. inversion H; subst.
      eapply map_forget_upd; eauto. eapply circle_hull_forget; eauto.
  - binv H. destruct a as [[ps b1'] b2']. inversion H; subst.
    apply hull_hull_forget in E. destruct E as [F1 F2].
    assert (G : map forget (upd bs i1 b1') = map forget bs) by (eapply map_forget_upd; eauto).
    rewrite <- G. destruct (nth_error (upd bs i1 b1') i2) as [c|] eqn:Ex.
    + eapply map_forget_upd; eauto. rewrite F2.
      destruct (nth_error_forget _ _ _ _ G Ex) as (b0 & Eb & Ef). rewrite Eb in E2. inversion E2; subst.
      symmetry. exact Ef.
    + assert (length (upd bs i1 b1') <= i2) by now apply nth_error_None.
      rewrite upd_length in H0. apply nth_error_None in H0. congruence.
Qed.

Lemma ode_handler_inv o eps clk bs i1 i2 cs bs' clk' :
  ode_handler o eps clk bs i1 i2 = Ok (cs, bs', clk') -> bs' = bs.
Proof.
  unfold ode_handler. intros H. binv H. binv H.
  destruct (existsb _ _); [inversion H; reflexivity|].
  cbv zeta in H. destruct (fold_left _ _ _). inversion H. reflexivity.
Qed.

Lemma ode_handler_frame o : handler_frame (ode_handler o).
Proof. intros eps clk bs i1 i2 cs bs' clk' H. apply ode_handler_inv in H. now subst. Qed.

(** ** exclusions *)
Definition handler_respects hd : Prop :=
  forall eps clk bs i1 i2 cs bs' clk',
    hd eps clk bs i1 i2 = Ok (cs, bs', clk') ->
    Forall (fun c => c_i1 c = i1 /\ c_i2 c = i2 /\
              exists b1 b2, nth_error bs i1 = Some b1 /\ nth_error bs i2 = Some b2 /\
                            ~ In (b_id b1) (g_no_contact (b_geom b2))) cs.

Lemma existsb_In x l : existsb (Nat.eqb x) l = true <-> In x l.
Proof.
  rewrite existsb_exists. split.
  - intros (y & Hy & E). apply Nat.eqb_eq in E. now subst.
  - intros H. exists x. split; auto. apply Nat.eqb_refl.
Qed.

Lemma mk_contacts_idx i1 i2 (ps : list (v2 T * v2 T * v2 T * T)) (P : Prop) :
  P -> Forall (fun c => c_i1 c = i1 /\ c_i2 c = i2 /\ P) (mk_contacts i1 i2 ps).
Proof.
  intros HP. unfold mk_contacts. rewrite Forall_forall. intros c Hc. apply in_map_iff in Hc.
  destruct Hc as ([[[n p1] p2] pen] & <- & _). simpl. auto.
Qed.

Lemma diff_handler_respects fuel o : handler_respects (diff_handler fuel o).
Proof.
  intros eps clk bs i1 i2 cs bs' clk' H. unfold diff_handler in H.
  bind_inv H as b1 E1. bind_inv H as b2 E2. apply get_body_Ok in E1, E2.
  destruct (existsb (Nat.eqb (b_id b1)) (g_no_contact (b_geom b2))) eqn:Ex;
    [inversion H; constructor|].
  assert (HP : exists b1 b2, nth_error bs i1 = Some b1 /\ nth_error bs i2 = Some b2 /\
                            ~ In (b_id b1) (g_no_contact (b_geom b2))).
  { exists b1, b2. repeat split; auto. intros Hin. apply existsb_In in Hin. congruence. }
  destruct (is_circle b1 && is_circle b2) eqn:Ec; [inversion H; subst; apply mk_contacts_idx; exact HP|].
  destruct (is_circle b1 || is_circle b2) eqn:Eo.
  - destruct (is_circle b2) eqn:E2c; (destruct (Nat.eqb _ 0); [discriminate|]); binv H;
      destruct a as [op hu']; inversion H; subst; apply mk_contacts_idx; exact HP.
  - binv H. destruct a as [[ps b1'] b2']. inversion H; subst. apply mk_contacts_idx; exact HP.
Qed.

Lemma ode_handler_respects o : handler_respects (ode_handler o).
Proof.
  intros eps clk bs i1 i2 cs bs' clk' H. unfold ode_handler in H.
  bind_inv H as b1 E1. bind_inv H as b2 E2. apply get_body_Ok in E1, E2.
  destruct (existsb (Nat.eqb (b_id b1)) (g_no_contact (b_geom b2))) eqn:Ex;
    [inversion H; constructor|].
  assert (HP : exists b1 b2, nth_error bs i1 = Some b1 /\ nth_error bs i2 = Some b2 /\
                            ~ In (b_id b1) (g_no_contact (b_geom b2))).
  { exists b1, b2. repeat split; auto. intros Hin. apply existsb_In in Hin. congruence. }
  cbv zeta in H.
  match type of H with context[fold_left ?f ?l ?a] => set (F := f) in H; set (L := l) in H end.
  assert (G : forall l acc, Forall (fun c => c_i1 c = i1 /\ c_i2 c = i2 /\
      exists b1 b2, nth_error bs i1 = Some b1 /\ nth_error bs i2 = Some b2 /\
                            ~ In (b_id b1) (g_no_contact (b_geom b2))) (fst acc) ->
    Forall (fun c => c_i1 c = i1 /\ c_i2 c = i2 /\
      exists b1 b2, nth_error bs i1 = Some b1 /\ nth_error bs i2 = Some b2 /\
                            ~ In (b_id b1) (g_no_contact (b_geom b2))) (fst (fold_left F l acc))).
  { induction l as [|[[pt n] dep] l IH]; intros [cs0 dn] Ha; simpl; [exact Ha|].
    apply IH. unfold F. destruct dn; [exact Ha|].
    destruct (nltb n0 (snd pt)); [exact Ha|].
    destruct (nltb _ _); [exact Ha|]. simpl in *. apply Forall_app. split; [exact Ha|].
    constructor; [simpl; auto|constructor]. }
  specialize (G L ([], false) ltac:(constructor)).
  destruct (fold_left F L ([], false)) as [cs1 dn]. inversion H; subst. exact G.
Qed.

(** the loop over candidate pairs *)
Definition fc_step hd (eps : T) (acc : res (list (contact T) * list (body T) * nat))
           (ij : nat * nat) :=
  let '(i1, i2) := ij in
  do s <- acc;
  let '(cs, bs, clk) := s in
  do r <- hd eps clk bs i1 i2;
  let '(new, bs', clk') := r in
  Ok (cs ++ new, bs', clk').

Lemma fc_fold_err hd eps pairs er :
  fold_left (fc_step hd eps) pairs (Err er) = Err er.
Proof. induction pairs as [|[i j] pairs IH]; simpl; auto. Qed.

Lemma fc_fold_inv hd eps (P : list (contact T) -> list (body T) -> Prop) pairs :
  (forall cs bs clk i1 i2 new bs' clk',
     In (i1, i2) pairs -> P cs bs -> hd eps clk bs i1 i2 = Ok (new, bs', clk') ->
     P (cs ++ new) bs') ->
  forall cs bs clk cs' bs' clk',
    P cs bs -> fold_left (fc_step hd eps) pairs (Ok (cs, bs, clk)) = Ok (cs', bs', clk') ->
    P cs' bs'.
Proof.
  induction pairs as [|[i j] pairs IH]; intros Hs cs bs clk cs' bs' clk' HP H; simpl in H.
  - inversion H; subst; auto.
  - destruct (hd eps clk bs i j) as [[[new b'] k']|er] eqn:Eh; simpl in H.
    + eapply IH; [|eapply Hs; eauto; now left|exact H].
      intros; eapply Hs; eauto. now right.
    + rewrite fc_fold_err in H. discriminate.
Qed.

Lemma find_contacts_fold o hd w w' :
  find_contacts o hd w = Ok w' ->
  exists cs bs clk,
    fold_left (fc_step hd (w_eps w)) (o_collide o (w_clk w) (map b_geom (w_bodies w)))
              (Ok ([], w_bodies w, S (w_clk w))) = Ok (cs, bs, clk) /\
    w' = with_state w bs (w_joints w) (w_t w) (w_v w) cs (w_cache w) clk.
Proof.
  unfold find_contacts. intros H. bind_inv H as st E. destruct st as [[cs bs] clk].
  exists cs, bs, clk. inversion H; subst. split; auto.
Qed.

Lemma find_contacts_frame o hd w w' :
  handler_frame hd -> find_contacts o hd w = Ok w' ->
  map forget (w_bodies w') = map forget (w_bodies w).
Proof.
  intros Hf H. apply find_contacts_fold in H. destruct H as (cs & bs & clk & E & ->). simpl.
  apply (fc_fold_inv hd (w_eps w) (fun _ b => map forget b = map forget (w_bodies w))) in E; auto.
  intros. rewrite (Hf _ _ _ _ _ _ _ _ H1). auto.
Qed.

(** identity and exclusion set of each body *)
Definition excl (b : body T) : nat * list nat := (b_id b, g_no_contact (b_geom b)).
Lemma excl_forget b : excl (forget b) = excl b.
Proof. unfold excl. now rewrite forget_id, forget_geom. Qed.
Lemma excl_with_v b v : excl (with_v b v) = excl b.
Proof. reflexivity. Qed.
Lemma excl_set_p b p : excl (set_p b p) = excl b.
Proof.
  destruct b as [id k p0 v m i0 f r ep fs g]; destruct k; unfold set_p; simpl; try reflexivity;
    destruct (neqb _ _); reflexivity.
Qed.

Lemma mapi_from_map {A B C} (f : nat -> A -> B) (g : B -> C) (h : A -> C) l i :
  (forall i a, g (f i a) = h a) -> map g (mapi_from i f l) = map h l.
Proof. intros H. revert i; induction l; simpl; intros; [auto|]. rewrite H, IHl. reflexivity. Qed.
Lemma mapi_map {A B C} (f : nat -> A -> B) (g : B -> C) (h : A -> C) l :
  (forall i a, g (f i a) = h a) -> map g (mapi f l) = map h l.
Proof. apply mapi_from_map. Qed.

(** contacts are allowed by the exclusion sets *)
Definition contacts_allowed (ex : list (nat * list nat)) (cs : list (contact T)) : Prop :=
  Forall (fun c => exists x1 x2, nth_error ex (c_i1 c) = Some x1 /\ nth_error ex (c_i2 c) = Some x2 /\
                                 ~ In (fst x1) (snd x2)) cs.

Lemma find_contacts_allowed o hd w w' :
  handler_frame hd -> handler_respects hd -> find_contacts o hd w = Ok w' ->
  map excl (w_bodies w') = map excl (w_bodies w) /\
  contacts_allowed (map excl (w_bodies w)) (w_contacts w').
Proof.
  intros Hf Hr H. split.
  { apply (map_forget excl excl_forget). eapply find_contacts_frame; eauto. }
  apply find_contacts_fold in H. destruct H as (cs & bs & clk & E & ->). simpl.
  apply (fc_fold_inv hd (w_eps w)
           (fun c b => map forget b = map forget (w_bodies w) /\
                       contacts_allowed (map excl (w_bodies w)) c)) in E.
  - tauto.
  - intros c b k i1 i2 new b' k' Hin [Hm Hc] Hh. split.
    + rewrite (Hf _ _ _ _ _ _ _ _ Hh); auto.
    + apply Forall_app. split; [exact Hc|].
      specialize (Hr _ _ _ _ _ _ _ _ Hh). eapply Forall_impl; [|exact Hr].
      intros a (E1 & E2 & b1 & b2 & N1 & N2 & Hni). rewrite E1, E2.
      exists (excl b1), (excl b2).
      rewrite <- (map_forget excl excl_forget _ _ Hm), !nth_error_map, N1, N2. auto.
  - split; [reflexivity|constructor].
Qed.

Lemma find_contacts_pairs o hd w w' :
  handler_respects hd -> find_contacts o hd w = Ok w' ->
  Forall (fun c => In (c_i1 c, c_i2 c) (o_collide o (w_clk w) (map b_geom (w_bodies w)))) (w_contacts w').
Proof.
  intros Hr H. apply find_contacts_fold in H. destruct H as (cs & bs & clk & E & ->). simpl.
  apply (fc_fold_inv hd (w_eps w)
           (fun c b => Forall (fun c => In (c_i1 c, c_i2 c)
                        (o_collide o (w_clk w) (map b_geom (w_bodies w)))) c)) in E; auto.
  intros c b k i1 i2 new b' k' Hin Hc Hh. apply Forall_app. split; [exact Hc|].
  specialize (Hr _ _ _ _ _ _ _ _ Hh). eapply Forall_impl; [|exact Hr].
  intros a (-> & -> & _). exact Hin.
Qed.

(** the invariant of C10 *)
Definition excl_inv (ex : list (nat * list nat)) w : Prop :=
  map excl (w_bodies w) = ex /\ contacts_allowed ex (w_contacts w).
Definition pairs_inv (n : nat) w : Prop :=
  length (w_bodies w) = n /\
  Forall (fun c => c_i1 c <> c_i2 c /\ c_i1 c < n /\ c_i2 c < n) (w_contacts w).

Lemma move_all_excl w dt w' : move_all w dt = Ok w' -> map excl (w_bodies w') = map excl (w_bodies w).
Proof.
  intros H. apply move_all_inv in H. destruct H as [js ->]. simpl. rewrite map_map.
  apply map_ext. intros b. apply excl_set_p.
Qed.
Lemma set_v_excl w v w' : set_v w v = Ok w' -> map excl (w_bodies w') = map excl (w_bodies w).
Proof.
  intros H. apply set_v_inv in H. destruct H as [_ ->]. simpl. apply mapi_map. reflexivity.
Qed.
Lemma rewind_excl w sp sr w' : rewind w sp sr = Ok w' -> map excl (w_bodies w') = map excl (w_bodies w).
Proof.
  intros H. apply rewind_inv in H. destruct H as [js ->]. simpl. apply mapi_map.
  intros. apply excl_set_p.
Qed.

(** an invariant of the pieces of a step is an invariant of the step *)
Lemma step_dt_pieces (P : world T -> Prop) fuel o hd e :
  (forall w c, P w -> P (with_cache w c)) ->
  (forall w t, P w -> P (with_t w t)) ->
  (forall w v w', P w -> set_v w v = Ok w' -> P w') ->
  (forall w dt w', P w -> move_all w dt = Ok w' -> P w') ->
  (forall w sp sr w', P w -> rewind w sp sr = Ok w' -> P w') ->
  (forall w w', P w -> find_contacts o hd w = Ok w' -> P w') ->
  forall w dt w', P w -> step_dt fuel o hd e w dt = Ok w' -> P w'.
Proof.
  intros Hc Ht Hv Hm Hr Hf w dt w' Hw H. unfold step_dt in H.
  bind_inv H as sol Es. destruct sol as [nv cache]. bind_inv H as w1 E1. bind_inv H as r Er.
  destruct r as [w2 dt']. bind_inv H as w3 E3.
  assert (P1 : P w1) by (eapply Hv; [apply Hc, Hw|exact E1]).
  apply step_loop_tries in Er. destruct Er as (k & _ & Htr).
  assert (P2 : P w2).
  { clear - Hm Hr Hf P1 Htr.
    induction Htr as [xa xd xb xc M1 F1 _ | xa xd xb xc xe xk xf xd' M1 F1 _ _ R1 Htr IH].
    - exact (Hf _ _ (Hm _ _ _ P1 M1) F1).
    - apply IH. exact (Hr _ _ _ _ (Hf _ _ (Hm _ _ _ P1 M1) F1) R1). }
  assert (P3 : P w3).
  { destruct (w_post_stab w2); [|inversion E3; subst; auto].
    bind_inv E3 as dp Ed. bind_inv E3 as wa Ea. bind_inv E3 as wb Eb. bind_inv E3 as wc Ec.
    exact (Hf _ _ (Hv _ _ _ (Hm _ _ _ (Hv _ _ _ P2 Ea) Eb) Ec) E3). }
  inversion H. subst. auto.
Qed.

Lemma excl_inv_exec ex fuel o hd e ops w w' :
  handler_frame hd -> handler_respects hd ->
  excl_inv ex w -> exec fuel o hd e ops w = Ok w' -> excl_inv ex w'.
Proof.
  intros Hf Hr Hi H.
  assert (Hset : forall a v a', excl_inv ex a -> set_v a v = Ok a' -> excl_inv ex a').
  { intros a v a' [H1 H2] Hs. split; [rewrite (set_v_excl _ _ _ Hs); auto|].
    now rewrite (set_v_contacts _ _ _ Hs). }
  eapply (exec_invariant fuel o hd e (excl_inv ex)); eauto.
  intros a dt a' Ha Hs. eapply (step_dt_pieces (excl_inv ex)); try exact Hs; auto.
  - intros b d b' [H1 H2] Hm. split; [rewrite (move_all_excl _ _ _ Hm); auto|].
    apply move_all_inv in Hm. destruct Hm as [js ->]. exact H2.
  - intros b sp sr b' [H1 H2] Hm. split; [rewrite (rewind_excl _ _ _ _ Hm); auto|].
    apply rewind_inv in Hm. destruct Hm as [js ->]. exact H2.
  - intros b b' [H1 H2] Hc. destruct (find_contacts_allowed _ _ _ _ Hf Hr Hc) as [Q1 Q2].
    split; [congruence|]. now rewrite H1 in Q2.
Qed.

Lemma pairs_inv_exec n fuel o hd e ops w w' :
  handler_frame hd -> handler_respects hd -> broadphase_sane o ->
  pairs_inv n w -> exec fuel o hd e ops w = Ok w' -> pairs_inv n w'.
Proof.
  intros Hf Hr Ho Hi H.
  assert (Hset : forall a v a', pairs_inv n a -> set_v a v = Ok a' -> pairs_inv n a').
  { intros a v a' [H1 H2] Hs. split; [|now rewrite (set_v_contacts _ _ _ Hs)].
    rewrite <- H1, <- (map_length excl), (set_v_excl _ _ _ Hs), map_length. auto. }
  eapply (exec_invariant fuel o hd e (pairs_inv n)); eauto.
  intros a dt a' Ha Hs. eapply (step_dt_pieces (pairs_inv n)); try exact Hs; auto.
  - intros b d b' [H1 H2] Hm. split.
    + rewrite <- H1, <- (map_length excl), (move_all_excl _ _ _ Hm), map_length. auto.
    + apply move_all_inv in Hm. destruct Hm as [js ->]. exact H2.
  - intros b sp sr b' [H1 H2] Hm. split.
    + rewrite <- H1, <- (map_length excl), (rewind_excl _ _ _ _ Hm), map_length. auto.
    + apply rewind_inv in Hm. destruct Hm as [js ->]. exact H2.
  - intros b b' [H1 H2] Hc. split.
    + rewrite <- H1, <- (map_length forget), (find_contacts_frame _ _ _ _ Hf Hc), map_length. auto.
    + pose proof (find_contacts_pairs _ _ _ _ Hr Hc) as Hp. eapply Forall_impl; [|exact Hp].
      intros c Hin. apply Ho in Hin. rewrite map_length, H1 in Hin. exact Hin.
Qed.

(** ** add_no_contact *)
Lemma no_contact_ops_app bs l1 l2 :
  no_contact_ops bs (l1 ++ l2) = no_contact_ops (no_contact_ops bs l1) l2.
Proof. unfold no_contact_ops. apply fold_left_app. Qed.

Definition nc_step (bs : list (body T)) (ij : nat * nat) : list (body T) :=
  let '(i, j) := ij in
  match nth_error bs i, nth_error bs j with
  | Some bi, Some bj => let '(bi', bj') := add_no_contact bi bj in upd (upd bs i bi') j bj'
  | _, _ => bs
  end.

Lemma no_contact_ops_cons bs ij l : no_contact_ops bs (ij :: l) = no_contact_ops (nc_step bs ij) l.
Proof. destruct ij. reflexivity. Qed.

Lemma upd_upd_nth {A} (l : list A) i j a b k :
  nth_error (upd (upd l i a) j b) k =
  if Nat.eqb j k then (if Nat.ltb j (length l) then Some b else None)
  else if Nat.eqb i k then (if Nat.ltb i (length l) then Some a else None) else nth_error l k.
Proof. rewrite !nth_error_upd, upd_length. reflexivity. Qed.

(** ids never change; the sets only grow, and get exactly the requested entries *)
Lemma nc_step_ids bs ij : map b_id (nc_step bs ij) = map b_id bs.
Proof.
  destruct ij as [i j]. unfold nc_step. destruct (nth_error bs i) eqn:Ei; [|auto].
  destruct (nth_error bs j) eqn:Ej; [|auto]. simpl.
  rewrite !upd_map. simpl.
  rewrite (upd_same (map b_id bs) i) by (rewrite nth_error_map, Ei; reflexivity).
  apply upd_same. rewrite nth_error_map, Ej; reflexivity.
Qed.

Lemma nth_error_lt {A} (l : list A) i a : nth_error l i = Some a -> i < length l.
Proof. intros H. apply nth_error_Some. congruence. Qed.

Lemma nc_step_mono bs ij k b :
  nth_error bs k = Some b ->
  exists b', nth_error (nc_step bs ij) k = Some b' /\ b_id b' = b_id b /\
             (forall x, In x (g_no_contact (b_geom b)) -> In x (g_no_contact (b_geom b'))).
Proof.
  intros Hk. destruct ij as [i j]. unfold nc_step.
  destruct (nth_error bs i) as [bi|] eqn:Ei; [|eauto].
  destruct (nth_error bs j) as [bj|] eqn:Ej; [|eauto]. simpl. rewrite upd_upd_nth.
  pose proof (nth_error_lt _ _ _ Ei) as Li. pose proof (nth_error_lt _ _ _ Ej) as Lj.
  apply Nat.ltb_lt in Li, Lj. rewrite Li, Lj.
  destruct (Nat.eqb_spec j k) as [->|Hjk].
  { rewrite Ej in Hk. inversion Hk; subst. eexists; split; [reflexivity|]. simpl. auto. }
  destruct (Nat.eqb_spec i k) as [->|Hik].
  { rewrite Ei in Hk. inversion Hk; subst. eexists; split; [reflexivity|]. simpl. auto. }
  eauto.
Qed.

Lemma nc_ops_mono bs l k b :
  nth_error bs k = Some b ->
  exists b', nth_error (no_contact_ops bs l) k = Some b' /\ b_id b' = b_id b /\
             (forall x, In x (g_no_contact (b_geom b)) -> In x (g_no_contact (b_geom b'))).
Proof.
  revert bs b; induction l as [|ij l IH]; intros bs b Hk; [simpl; eauto|].
  rewrite no_contact_ops_cons. destruct (nc_step_mono bs ij k b Hk) as (b1 & H1 & I1 & M1).
  destruct (IH _ _ H1) as (b2 & H2 & I2 & M2). exists b2. repeat split; auto; congruence.
Qed.

Lemma nc_ops_length bs l : length (no_contact_ops bs l) = length bs.
Proof.
  revert bs; induction l as [|ij l IH]; intros bs; [reflexivity|].
  rewrite no_contact_ops_cons, IH, <- (map_length b_id), nc_step_ids, map_length. reflexivity.
Qed.

Lemma nc_ops_excluded bs l i j :
  In (i, j) l -> i < length bs -> j < length bs -> i <> j ->
  forall bi bj, nth_error (no_contact_ops bs l) i = Some bi ->
                nth_error (no_contact_ops bs l) j = Some bj ->
                In (b_id bi) (g_no_contact (b_geom bj)) /\ In (b_id bj) (g_no_contact (b_geom bi)).
Proof.
  revert bs; induction l as [|ij l IH]; intros bs Hin Li Lj Hne bi bj Hi Hj; [destruct Hin|].
  rewrite no_contact_ops_cons in Hi, Hj. destruct Hin as [->|Hin].
  - destruct (nth_error bs i) as [ci|] eqn:Ei; [|apply nth_error_None in Ei; lia].
    destruct (nth_error bs j) as [cj|] eqn:Ej; [|apply nth_error_None in Ej; lia].
    set (bs1 := nc_step bs (i, j)) in *.
    assert (H1 : exists di, nth_error bs1 i = Some di /\ b_id di = b_id ci /\ In (b_id cj) (g_no_contact (b_geom di))).
    { unfold bs1, nc_step. rewrite Ei, Ej. simpl. rewrite upd_upd_nth.
      destruct (Nat.eqb_spec j i); [congruence|]. rewrite Nat.eqb_refl.
      apply Nat.ltb_lt in Li. rewrite Li. eexists; split; [reflexivity|]. simpl. auto. }
    assert (H2 : exists dj, nth_error bs1 j = Some dj /\ b_id dj = b_id cj /\ In (b_id ci) (g_no_contact (b_geom dj))).
    { unfold bs1, nc_step. rewrite Ei, Ej. simpl. rewrite upd_upd_nth, Nat.eqb_refl.
      apply Nat.ltb_lt in Lj. rewrite Lj. eexists; split; [reflexivity|]. simpl. auto. }
    destruct H1 as (di & N1 & I1 & G1). destruct H2 as (dj & N2 & I2 & G2).
    destruct (nc_ops_mono bs1 l i di N1) as (di' & M1 & J1 & K1).
    destruct (nc_ops_mono bs1 l j dj N2) as (dj' & M2 & J2 & K2).
    rewrite Hi in M1. rewrite Hj in M2. inversion M1; inversion M2; subst.
    split; [apply K2; congruence | apply K1; congruence].
  - assert (L : length (nc_step bs ij) = length bs)
      by (rewrite <- (map_length b_id), nc_step_ids, map_length; reflexivity).
    apply (IH (nc_step bs ij) Hin); auto; rewrite L; assumption.
Qed.

(** the sets contain nothing but what the calls put there *)
Lemma nc_ops_only bs l k b x :
  nth_error (no_contact_ops bs l) k = Some b -> In x (g_no_contact (b_geom b)) ->
  (exists b0, nth_error bs k = Some b0 /\ In x (g_no_contact (b_geom b0))) \/
  (exists m bm, (In (k, m) l \/ In (m, k) l) /\ nth_error bs m = Some bm /\ b_id bm = x).
Proof.
  revert bs; induction l as [|[i j] l IH]; intros bs Hk Hx; [left; eauto|].
  rewrite no_contact_ops_cons in Hk.
  destruct (IH _ Hk Hx) as [(b0 & N0 & I0)|(m & bm & Hm & Nm & Im)].
  - unfold nc_step in N0. destruct (nth_error bs i) as [bi|] eqn:Ei; [|left; eauto].
    destruct (nth_error bs j) as [bj|] eqn:Ej; [|left; eauto]. simpl in N0.
    rewrite upd_upd_nth in N0.
    pose proof (nth_error_lt _ _ _ Ei) as Li. pose proof (nth_error_lt _ _ _ Ej) as Lj.
    apply Nat.ltb_lt in Li, Lj. rewrite Li, Lj in N0.
    destruct (Nat.eqb_spec j k) as [Hjk|Hjk].
    + inversion N0; subst b0 k. simpl in I0. destruct I0 as [I0|I0].
      * right. exists i, bi. split; [right; now left|]. auto.
      * left. exists bj. auto.
    + destruct (Nat.eqb_spec i k) as [Hik|Hik].
      * inversion N0; subst b0 k. simpl in I0. destruct I0 as [I0|I0].
        -- right. exists j, bj. split; [left; now left|]. auto.
        -- left. exists bi. auto.
      * left; eauto.
  - right. assert (Q : nth_error (map b_id (nc_step bs (i, j))) m = Some x)
      by (rewrite nth_error_map, Nm; simpl; congruence).
    rewrite nc_step_ids, nth_error_map in Q. destruct (nth_error bs m) as [b'|] eqn:E; [|discriminate].
    inversion Q. exists m, b'. split; [destruct Hm; [left; now right|right; now right]|]. auto.
Qed.

Lemma nc_ops_id bs l k b :
  nth_error (no_contact_ops bs l) k = Some b ->
  exists b0, nth_error bs k = Some b0 /\ b_id b = b_id b0.
Proof.
  intros H. assert (L : k < length bs) by (rewrite <- (nc_ops_length bs l); eapply nth_error_lt; eauto).
  destruct (nth_error bs k) as [b0|] eqn:E; [|apply nth_error_None in E; lia].
  destruct (nc_ops_mono bs l k b0 E) as (b' & H' & I & _). exists b0. split; auto. congruence.
Qed.

Lemma nc_ops_exact bs l i j bi bj :
  NoDup (map b_id bs) ->
  Forall (fun b => g_no_contact (b_geom b) = []) bs ->
  Forall (fun '(a, b) => a <> b /\ a < length bs /\ b < length bs) l ->
  nth_error (no_contact_ops bs l) i = Some bi ->
  nth_error (no_contact_ops bs l) j = Some bj ->
  (In (b_id bi) (g_no_contact (b_geom bj)) <-> In (i, j) l \/ In (j, i) l).
Proof.
  intros Hnd He Hl Hi Hj. rewrite Forall_forall in He, Hl. split.
  - intros Hin. destruct (nc_ops_only _ _ _ _ _ Hj Hin) as [(b0 & N0 & I0)|(m & bm & Hm & Nm & Im)].
    + rewrite (He b0) in I0 by (eapply nth_error_In; eauto). destruct I0.
    + destruct (nc_ops_id _ _ _ _ Hi) as (b0 & N0 & Q).
      assert (m = i).
      { apply (NoDup_nth_error (map b_id bs)); auto.
        - rewrite map_length. eapply nth_error_lt; eauto.
        - rewrite !nth_error_map, Nm, N0. simpl. congruence. }
      subst m. tauto.
  - intros [H|H]; pose proof (Hl _ H) as (Hne & L1 & L2).
    + exact (proj1 (nc_ops_excluded bs l i j H L1 L2 Hne bi bj Hi Hj)).
    + exact (proj2 (nc_ops_excluded bs l j i H L1 L2 Hne bj bi Hj Hi)).
Qed.

Lemma no_contact_respected fuel o hd e heap bodies calls cons dt eps tol fd ps st ops w0 w i j c :
  handler_frame hd -> handler_respects hd ->
  world_init o hd heap (no_contact_ops bodies calls) cons dt eps tol fd ps st = Ok w0 ->
  exec fuel o hd e ops w0 = Ok w ->
  In (i, j) calls -> i <> j ->
  In c (w_contacts w) -> ~ (c_i1 c = i /\ c_i2 c = j) /\ ~ (c_i1 c = j /\ c_i2 c = i).
Proof.
  intros Hf Hr H0 Hx Hin Hne Hc.
  set (bs := no_contact_ops bodies calls) in *.
  assert (Hi : excl_inv (map excl bs) w0).
  { unfold world_init in H0. destruct bs as [|b0 bs0] eqn:Eb; [discriminate|].
    bind_inv H0 as js Ej. bind_inv H0 as w1 E1. bind_inv H0 as w2 E2.
    destruct (st && _); [discriminate|]. inversion H0; subst w2; clear H0.
    pose proof (set_v_excl _ _ _ E1) as Q1. simpl w_bodies in Q1.
    destruct (find_contacts_allowed _ _ _ _ Hf Hr E2) as [Q2 Q3].
    split; congruence. }
  pose proof (excl_inv_exec _ _ _ _ _ _ _ _ Hf Hr Hi Hx) as [_ Ha].
  unfold contacts_allowed in Ha. rewrite Forall_forall in Ha.
  destruct (Ha c Hc) as (e1 & e2 & N1 & N2 & Hni).
  rewrite nth_error_map in N1, N2.
  destruct (nth_error bs (c_i1 c)) as [b1|] eqn:B1; [|discriminate].
  destruct (nth_error bs (c_i2 c)) as [b2|] eqn:B2; [|discriminate].
  simpl in N1, N2. inversion N1; inversion N2; subst e1 e2. simpl in Hni.
  assert (L1 : c_i1 c < length bodies) by (rewrite <- (nc_ops_length bodies calls); eapply nth_error_lt; eauto).
  assert (L2 : c_i2 c < length bodies) by (rewrite <- (nc_ops_length bodies calls); eapply nth_error_lt; eauto).
  split; intros [Q1 Q2]; subst i j; apply Hni.
  - exact (proj1 (nc_ops_excluded bodies calls _ _ Hin L1 L2 Hne _ _ B1 B2)).
  - exact (proj2 (nc_ops_excluded bodies calls _ _ Hin L2 L1 Hne _ _ B2 B1)).
Qed.

Lemma contacts_name_bodies fuel o hd e heap bodies cons dt eps tol fd ps st ops w0 w :
  handler_frame hd -> handler_respects hd -> broadphase_sane o ->
  world_init o hd heap bodies cons dt eps tol fd ps st = Ok w0 ->
  exec fuel o hd e ops w0 = Ok w ->
  Forall (fun c => c_i1 c <> c_i2 c /\ c_i1 c < length bodies /\ c_i2 c < length bodies)
         (w_contacts w).
Proof.
  intros Hf Hr Ho H0 Hx.
  assert (Hi : pairs_inv (length bodies) w0).
  { unfold world_init in H0. destruct bodies as [|b0 bs0] eqn:Eb; [discriminate|].
    bind_inv H0 as js Ej. bind_inv H0 as w1 E1. bind_inv H0 as w2 E2.
    destruct (st && _); [discriminate|]. inversion H0; subst w2; clear H0.
    pose proof (set_v_excl _ _ _ E1) as Q1. simpl w_bodies in Q1.
    assert (Q2 : length (w_bodies w1) = length (b0 :: bs0))
      by (rewrite <- (map_length excl), Q1, map_length; reflexivity).
    split.
    - rewrite <- (map_length forget), (find_contacts_frame _ _ _ _ Hf E2), map_length. auto.
    - pose proof (find_contacts_pairs _ _ _ _ Hr E2) as Hp. eapply Forall_impl; [|exact Hp].
      intros c Hin. apply Ho in Hin. rewrite map_length, Q2 in Hin. exact Hin. }
  pose proof (pairs_inv_exec _ _ _ _ _ _ _ _ Hf Hr Ho Hi Hx) as [_ Ha]. exact Ha.
Qed.

End HandlerFacts.
