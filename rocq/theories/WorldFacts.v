(** Lemmas about the stepping loop, for every arithmetic *)
From Coq Require Import List Arith ZArith Lia Bool.
From Verif Require Import Num Tensor Utils Bodies Forces Constraints Contacts World ResFacts Spec.
Import ListNotations.
Open Scope nat_scope.

Section WorldFacts.
Context {T : Type} {N : Num T}.
Implicit Types (w : world T) (o : oracle T) (hd : handler T) (e : engine T).

(** the part of a world no step changes *)
Definition cfg (w : world T) :=
  (w_heap w, w_dt w, w_eps w, w_tol w, w_fric_dirs w, w_post_stab w, w_strict w,
   (w_static_inverse w, w_num_constraints w, w_M w)).

Lemma with_state_cfg w bs js t v cs c k : cfg (with_state w bs js t v cs c k) = cfg w.
Proof. reflexivity. Qed.

Lemma set_v_inv w v w' :
  set_v w v = Ok w' ->
  length v = 3 * length (w_bodies w) /\
  w' = with_state w (mapi (fun i b => with_v b (v3_at v i)) (w_bodies w)) (w_joints w)
                  (w_t w) v (w_contacts w) (w_cache w) (w_clk w).
Proof.
  unfold set_v. destruct (Nat.eqb_spec (length v) (3 * length (w_bodies w))); intros H;
    [inversion H; auto|discriminate].
Qed.

Lemma set_v_cfg w v w' : set_v w v = Ok w' -> cfg w' = cfg w.
Proof. intros H. apply set_v_inv in H. destruct H as [_ ->]. reflexivity. Qed.
Lemma set_v_contacts w v w' : set_v w v = Ok w' -> w_contacts w' = w_contacts w.
Proof. intros H. apply set_v_inv in H. destruct H as [_ ->]. reflexivity. Qed.
Lemma set_v_t w v w' : set_v w v = Ok w' -> w_t w' = w_t w.
Proof. intros H. apply set_v_inv in H. destruct H as [_ ->]. reflexivity. Qed.

Lemma find_contacts_inv o hd w w' :
  find_contacts o hd w = Ok w' ->
  exists bs cs clk, w' = with_state w bs (w_joints w) (w_t w) (w_v w) cs (w_cache w) clk.
Proof.
  unfold find_contacts. intros H. binv H. destruct a as [[cs bs] clk].
  inversion H. eauto.
Qed.
Lemma find_contacts_cfg o hd w w' : find_contacts o hd w = Ok w' -> cfg w' = cfg w.
Proof. intros H. apply find_contacts_inv in H. destruct H as (?&?&?& ->). reflexivity. Qed.
Lemma find_contacts_t o hd w w' : find_contacts o hd w = Ok w' -> w_t w' = w_t w.
Proof. intros H. apply find_contacts_inv in H. destruct H as (?&?&?& ->). reflexivity. Qed.

Lemma move_all_inv w dt w' :
  move_all w dt = Ok w' ->
  exists js, w' = with_state w (map (fun b => move b dt) (w_bodies w)) js (w_t w) (w_v w)
                             (w_contacts w) (w_cache w) (w_clk w).
Proof. unfold move_all. intros H. binv H. inversion H. eexists; reflexivity. Qed.
Lemma rewind_inv w sp sr w' :
  rewind w sp sr = Ok w' ->
  exists js, w' = with_state w (mapi (fun i b => set_p b (v3_at sp i)) (w_bodies w)) js
                             (w_t w) (w_v w) (w_contacts w) (w_cache w) (w_clk w).
Proof. unfold rewind. intros H. binv H. inversion H. eexists; reflexivity. Qed.
Lemma move_all_cfg w dt w' : move_all w dt = Ok w' -> cfg w' = cfg w.
Proof. intros H. apply move_all_inv in H. destruct H as [? ->]. reflexivity. Qed.
Lemma move_all_t w dt w' : move_all w dt = Ok w' -> w_t w' = w_t w.
Proof. intros H. apply move_all_inv in H. destruct H as [? ->]. reflexivity. Qed.
Lemma rewind_cfg w sp sr w' : rewind w sp sr = Ok w' -> cfg w' = cfg w.
Proof. intros H. apply rewind_inv in H. destruct H as [? ->]. reflexivity. Qed.
Lemma rewind_t w sp sr w' : rewind w sp sr = Ok w' -> w_t w' = w_t w.
Proof. intros H. apply rewind_inv in H. destruct H as [? ->]. reflexivity. Qed.

(** the loop and the relation [tries] agree *)
Lemma step_loop_tries fuel o hd sp sr w dt w' dt' :
  step_loop fuel o hd w sp sr dt = Ok (w', dt') ->
  exists k, (k < fuel)%nat /\ tries o hd sp sr w dt k w' dt'.
Proof.
  revert w dt; induction fuel as [|fuel IH]; intros w dt H; simpl in H; [discriminate|].
  bind_inv H as w1 E1. bind_inv H as w2 E2.
  destruct (no_penetration w2) eqn:En.
  - inversion H; subst. exists 0%nat. split; [lia|]. econstructor; eauto.
  - destruct (negb (w_strict w2) && nltb dt (ndiv (w_dt w2) (nofZ 4))) eqn:Eb.
    + inversion H; subst. apply andb_true_iff in Eb. destruct Eb as [Es El].
      apply negb_true_iff in Es.
      exists 0%nat. split; [lia|]. econstructor; eauto.
    + bind_inv H as w3 E3. apply IH in H. destruct H as (k & Hk & Ht).
      exists (S k). split; [lia|]. eapply tries_reject; eauto.
      apply andb_false_iff in Eb. destruct Eb as [Es|El]; [left|right]; auto.
      now apply negb_false_iff in Es.
Qed.

Lemma tries_step_loop fuel o hd sp sr w dt k w' dt' :
  tries o hd sp sr w dt k w' dt' -> (k < fuel)%nat ->
  step_loop fuel o hd w sp sr dt = Ok (w', dt').
Proof.
  intros H; revert fuel; induction H as [w dt w1 w2 E1 E2 Ha | w dt w1 w2 w3 k w' dt' E1 E2 En Eb E3 Ht IH];
    intros fuel Hf; (destruct fuel as [|fuel]; [lia|]); simpl; rewrite E1; simpl; rewrite E2; simpl.
  - destruct Ha as [Ha | [Hs Hl]]; [now rewrite Ha|].
    destruct (no_penetration w2); [reflexivity|]. rewrite Hs, Hl. reflexivity.
  - rewrite En.
    replace (negb (w_strict w2) && nltb dt (ndiv (w_dt w2) (nofZ 4))) with false.
    + rewrite E3. simpl. apply IH. lia.
    + symmetry. apply andb_false_iff. destruct Eb as [Eb | Eb]; rewrite Eb; auto.
Qed.

Lemma tries_cfg o hd sp sr w dt k w' dt' :
  tries o hd sp sr w dt k w' dt' -> cfg w' = cfg w /\ w_t w' = w_t w.
Proof.
  induction 1 as [w dt w1 w2 E1 E2 Ha | w dt w1 w2 w3 k w' dt' E1 E2 En Eb E3 Ht [IH1 IH2]].
  - split.
    + rewrite (find_contacts_cfg _ _ _ _ E2). eapply move_all_cfg; eauto.
    + rewrite (find_contacts_t _ _ _ _ E2). eapply move_all_t; eauto.
  - split.
    + rewrite IH1, (rewind_cfg _ _ _ _ E3), (find_contacts_cfg _ _ _ _ E2).
      eapply move_all_cfg; eauto.
    + rewrite IH2, (rewind_t _ _ _ _ E3), (find_contacts_t _ _ _ _ E2).
      eapply move_all_t; eauto.
Qed.

Lemma tries_accepted o hd sp sr w dt k w' dt' :
  tries o hd sp sr w dt k w' dt' ->
  no_penetration w' = true \/ (w_strict w' = false /\ nltb dt' (ndiv (w_dt w') (nofZ 4)) = true).
Proof. induction 1; auto. Qed.

Lemma cfg_fields w w' :
  cfg w' = cfg w ->
  w_heap w' = w_heap w /\ w_dt w' = w_dt w /\ w_eps w' = w_eps w /\ w_tol w' = w_tol w /\
  w_fric_dirs w' = w_fric_dirs w /\ w_post_stab w' = w_post_stab w /\ w_strict w' = w_strict w /\
  w_static_inverse w' = w_static_inverse w /\ w_num_constraints w' = w_num_constraints w /\
  w_M w' = w_M w.
Proof. unfold cfg. intros H; inversion H; repeat split; congruence. Qed.

Ltac cfg_fields H :=
  let Hh := fresh "Hheap" in let Hd := fresh "Hdt" in let He := fresh "Heps" in
  let Ht := fresh "Htol" in let Hf := fresh "Hfd" in let Hp := fresh "Hps" in
  let Hs := fresh "Hstrict" in let Hi := fresh "Hsi" in let Hn := fresh "Hnc" in
  let Hm := fresh "HM" in
  destruct (cfg_fields _ _ H) as (Hh & Hd & He & Ht & Hf & Hp & Hs & Hi & Hn & Hm).

(** shape of one [step_dt] *)
Lemma step_dt_inv fuel o hd e w dt w' :
  step_dt fuel o hd e w dt = Ok w' ->
  exists new_v cache w1 k w2 dt' w3,
    e_solve e w dt = Ok (new_v, cache) /\
    set_v (with_cache w cache) new_v = Ok w1 /\
    (k < fuel)%nat /\
    tries o hd (cat3 (map b_p (w_bodies w))) (map (fun '(j, _, _) => (j_rot1 j, j_rot2 j)) (w_joints w))
          w1 dt k w2 dt' /\
    (w_post_stab w = false -> w3 = w2) /\
    cfg w3 = cfg w /\ w_t w3 = w_t w /\
    w' = with_t w3 (nadd (w_t w) dt').
Proof.
  unfold step_dt. intros H. bind_inv H as sol Es. destruct sol as [new_v cache].
  bind_inv H as w1 E1. bind_inv H as r Er. destruct r as [w2 dt'].
  apply step_loop_tries in Er. destruct Er as (k & Hk & Ht).
  bind_inv H as w3 E3.
  pose proof (tries_cfg _ _ _ _ _ _ _ _ _ Ht) as [Hc Htt].
  pose proof (set_v_cfg _ _ _ E1) as Hc1. pose proof (set_v_t _ _ _ E1) as Ht1.
  assert (Hcw : cfg w2 = cfg w) by (rewrite Hc, Hc1; reflexivity).
  assert (Htw : w_t w2 = w_t w) by (rewrite Htt, Ht1; reflexivity).
  exists new_v, cache, w1, k, w2, dt', w3.
  assert (H3 : cfg w3 = cfg w /\ w_t w3 = w_t w).
  { destruct (w_post_stab w2).
    - bind_inv E3 as dp Edp. bind_inv E3 as wa Ea. bind_inv E3 as wb Eb. bind_inv E3 as wc Ec.
      split.
      + rewrite (find_contacts_cfg _ _ _ _ E3), (set_v_cfg _ _ _ Ec), (move_all_cfg _ _ _ Eb),
          (set_v_cfg _ _ _ Ea). auto.
      + rewrite (find_contacts_t _ _ _ _ E3), (set_v_t _ _ _ Ec), (move_all_t _ _ _ Eb),
          (set_v_t _ _ _ Ea). auto.
    - inversion E3; subst; auto. }
  destruct H3 as [H3c H3t].
  repeat split; auto.
  - intros Hp. cfg_fields Hcw. rewrite Hps, Hp in E3. now inversion E3.
  - inversion H. rewrite H3t. reflexivity.
Qed.

Lemma step_dt_cfg fuel o hd e w dt w' : step_dt fuel o hd e w dt = Ok w' -> cfg w' = cfg w.
Proof.
  intros H. apply step_dt_inv in H.
  destruct H as (?&?&?&?&?&?&w3&_&_&_&_&_&H3&_& ->). exact H3.
Qed.

Lemma fixed_loop_inv fuel lfuel o hd e end_t w w' (P : world T -> Prop) :
  (forall a a', P a -> nltb (w_t a) end_t = true ->
                step_dt lfuel o hd e a (nsub end_t (w_t a)) = Ok a' -> P a') ->
  P w -> fixed_loop fuel lfuel o hd e end_t w = Ok w' ->
  P w' /\ nltb (w_t w') end_t = false.
Proof.
  intros Hstep. revert w; induction fuel as [|fuel IH]; simpl; intros w Hw H; [discriminate|].
  destruct (nltb (w_t w) end_t) eqn:El.
  - bind_inv H as w1 E1. apply IH in H; auto. eapply Hstep; eauto.
  - inversion H; subst; auto.
Qed.

(** an invariant of every [step_dt] is an invariant of every history *)
Lemma exec_invariant fuel o hd e (P : world T -> Prop) :
  (forall w dt w', P w -> step_dt fuel o hd e w dt = Ok w' -> P w') ->
  (forall w v w', P w -> set_v w v = Ok w' -> P w') ->
  forall ops w w', P w -> exec fuel o hd e ops w = Ok w' -> P w'.
Proof.
  intros Hs Hv. induction ops as [|[fx|dt|v] ops IH]; simpl; intros w w' Hw H.
  - inversion H; subst; auto.
  - bind_inv H as w1 E1. apply IH in H; auto.
    unfold step in E1. destruct fx.
    + apply (fixed_loop_inv _ _ _ _ _ _ _ _ P) in E1; [tauto| |auto]. eauto.
    + eauto.
  - bind_inv H as w1 E1. apply IH in H; auto. eauto.
  - bind_inv H as w1 E1. apply IH in H; auto. eauto.
Qed.

Lemma exec_cfg fuel o hd e ops w w' : exec fuel o hd e ops w = Ok w' -> cfg w' = cfg w.
Proof.
  intros H. eapply (exec_invariant fuel o hd e (fun a => cfg a = cfg w)); eauto.
  - intros a dt a' Ha Hs. rewrite (step_dt_cfg _ _ _ _ _ _ _ Hs); auto.
  - intros a v a' Ha Hs. rewrite (set_v_cfg _ _ _ Hs); auto.
Qed.

Lemma step_cfg fuel o hd e fx w w' : step fuel o hd e fx w = Ok w' -> cfg w' = cfg w.
Proof.
  intros H. apply (exec_cfg fuel o hd e [OStep fx]). simpl. rewrite H. reflexivity.
Qed.

Lemma world_init_inv o hd heap bodies cons dt eps tol fd ps st w :
  world_init o hd heap bodies cons dt eps tol fd ps st = Ok w ->
  w_dt w = dt /\ w_eps w = eps /\ w_tol w = tol /\ w_fric_dirs w = fd /\
  w_post_stab w = ps /\ w_strict w = st /\ w_t w = nofZ 0 /\ w_heap w = heap /\
  w_M w = world_M bodies /\
  w_static_inverse w = forallb j_static cons /\
  w_num_constraints w = fold_left (fun n j => n + j_num j) cons 0 /\
  w_cache w = None /\
  (st = true -> no_penetration w = true).
Proof.
  unfold world_init. destruct bodies as [|b0 bs0]; [discriminate|]. intros H.
  bind_inv H as js Ej. bind_inv H as w1 E1. bind_inv H as w2 E2.
  apply set_v_inv in E1. destruct E1 as [_ E1].
  apply find_contacts_inv in E2. destruct E2 as (bs & cs & clk & E2).
  destruct (st && negb (no_penetration w2)) eqn:Ea; [discriminate|].
  inversion H; subst w2 w1 w; clear H. simpl.
  repeat split. intros ->. simpl in Ea. now apply negb_false_iff in Ea.
Qed.

Lemma no_penetration_spec w :
  no_penetration w = true <-> Forall (fun c => nleb (c_pen c) (w_tol w) = true) (w_contacts w).
Proof. unfold no_penetration. rewrite forallb_forall, Forall_forall. reflexivity. Qed.

Definition strict_inv (tol : T) (w : world T) : Prop :=
  w_strict w = true /\ w_post_stab w = false /\ w_tol w = tol /\ no_penetration w = true.

Lemma strict_no_penetration fuel o hd e heap bodies cons dt eps tol fd ops w0 w :
  world_init o hd heap bodies cons dt eps tol fd false true = Ok w0 ->
  exec fuel o hd e ops w0 = Ok w ->
  Forall (fun c => nleb (c_pen c) tol = true) (w_contacts w).
Proof.
  intros H0 H.
  assert (Hi : strict_inv tol w0).
  { apply world_init_inv in H0. unfold strict_inv. intuition. }
  assert (Hw : strict_inv tol w).
  { eapply (exec_invariant fuel o hd e (strict_inv tol)); eauto.
    - intros a d a' (Hs & Hp & Ht & Hn) Hd.
      pose proof (step_dt_cfg _ _ _ _ _ _ _ Hd) as Hc. cfg_fields Hc.
      apply step_dt_inv in Hd.
      destruct Hd as (nv & c & w1 & k & w2 & dt' & w3 & E1 & E2 & _ & Htr & H3 & Hc3 & Ht3 & ->).
      specialize (H3 Hp). subst w3.
      repeat split; try congruence.
      destruct (tries_accepted _ _ _ _ _ _ _ _ _ Htr) as [Hok|[Hns _]]; [exact Hok|].
      cfg_fields Hc3. congruence.
    - intros a v a' (Hs & Hp & Ht & Hn) Hd.
      pose proof (set_v_cfg _ _ _ Hd) as Hc. cfg_fields Hc.
      repeat split; try congruence.
      apply no_penetration_spec in Hn. apply no_penetration_spec.
      rewrite (set_v_contacts _ _ _ Hd), Htol. exact Hn. }
  destruct Hw as (_ & _ & Ht & Hn). apply no_penetration_spec in Hn. now rewrite Ht in Hn.
Qed.

End WorldFacts.
Ltac cfg_fields H :=
  let Hh := fresh "Hheap" in let Hd := fresh "Hdt" in let He := fresh "Heps" in
  let Ht := fresh "Htol" in let Hf := fresh "Hfd" in let Hp := fresh "Hps" in
  let Hs := fresh "Hstrict" in let Hi := fresh "Hsi" in let Hn := fresh "Hnc" in
  let Hm := fresh "HM" in
  destruct (cfg_fields _ _ H) as (Hh & Hd & He & Ht & Hf & Hp & Hs & Hi & Hn & Hm).
