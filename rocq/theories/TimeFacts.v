(** Time accounting of the stepping loop over the reals *)
From Coq Require Import List Arith ZArith Bool Reals Lra Lia.
From Verif Require Import Num Tensor Utils Bodies Forces Constraints Contacts World
     ResFacts Spec WorldFacts RBase.
Import ListNotations.
Open Scope R_scope.

Section TimeFacts.
Implicit Types (w : world R) (o : oracle R) (hd : handler R) (e : engine R).

Lemma pow2_pos k : 0 < 2 ^ k.
Proof. apply pow_lt. lra. Qed.
Lemma pow2_ge1 k : 1 <= 2 ^ k.
Proof. apply pow_R1_Rle. lra. Qed.

Lemma tries_dt o hd sp sr w dt k w' dt' :
  tries o hd sp sr w dt k w' dt' -> dt' = dt / 2 ^ k.
Proof.
  induction 1; simpl.
  - field.
  - rewrite IHtries. rnum. field. pose proof (pow2_pos k). lra.
Qed.

Lemma step_dt_time fuel o hd e w dt w' :
  step_dt fuel o hd e w dt = Ok w' -> exists k, w_t w' = w_t w + dt / 2 ^ k.
Proof.
  intros H. apply step_dt_inv in H.
  destruct H as (nv & c & w1 & k & w2 & dt' & w3 & E1 & E2 & _ & Htr & H3 & Hc3 & Ht3 & ->).
  exists k. simpl. rewrite (tries_dt _ _ _ _ _ _ _ _ _ Htr). reflexivity.
Qed.

Lemma div_pow2_bounds dt k : 0 < dt -> 0 < dt / 2 ^ k <= dt.
Proof.
  intros H. pose proof (pow2_ge1 k). split.
  - apply Rdiv_lt_0_compat; lra.
  - apply Rmult_le_reg_r with (2 ^ k); [lra|]. unfold Rdiv. rewrite Rmult_assoc, Rinv_l by lra. nra.
Qed.

Lemma fixed_step_time fuel lfuel o hd e end_t w w' :
  w_t w <= end_t -> fixed_loop fuel lfuel o hd e end_t w = Ok w' -> w_t w' = end_t.
Proof.
  intros Hle H.
  apply (fixed_loop_inv _ _ _ _ _ _ _ _ (fun a => w_t a <= end_t)) in H; auto.
  - destruct H as [H1 H2]. rnum. rbool. lra.
  - intros a a' Ha Hl Hs. rnum. rbool. apply step_dt_time in Hs. destruct Hs as [k ->].
    pose proof (div_pow2_bounds (end_t - w_t a) k). lra.
Qed.

Lemma step_time fuel o hd e fx w w' :
  0 <= w_dt w -> step fuel o hd e fx w = Ok w' -> w_t w <= w_t w'.
Proof.
  intros Hdt H. unfold step in H. destruct fx.
  - apply fixed_step_time in H; rnum; lra.
  - apply step_dt_time in H. destruct H as [k ->].
    destruct (Req_dec (w_dt w) 0) as [E|E].
    + rewrite E. unfold Rdiv. lra.
    + pose proof (div_pow2_bounds (w_dt w) k). lra.
Qed.

(** no call asks for a negative step *)
Definition forward_op (x : op R) : Prop := match x with OStepDt dt => 0 <= dt | _ => True end.
Lemma exec_time_monotone fuel o hd e ops w w' :
  0 <= w_dt w -> Forall forward_op ops -> exec fuel o hd e ops w = Ok w' -> w_t w <= w_t w'.
Proof.
  revert w; induction ops as [|[fx|dt|v] ops IH]; intros w Hdt Hf H; simpl in H; [|inversion Hf as [|? ? Hd Hf']; subst ..].
  - inversion H; subst; lra.
  - bind_inv H as w1 E1. pose proof (step_time _ _ _ _ _ _ _ Hdt E1).
    pose proof (step_cfg _ _ _ _ _ _ _ E1) as C. cfg_fields C.
    assert (w_t w1 <= w_t w') by (apply IH; [rewrite Hdt0; auto|auto|exact H]). lra.
  - bind_inv H as w1 E1. pose proof (step_dt_cfg _ _ _ _ _ _ _ E1) as C. cfg_fields C. cbn in Hd.
    assert (w_t w1 <= w_t w') by (apply IH; [rewrite Hdt0; auto|auto|exact H]).
    apply step_dt_time in E1. destruct E1 as [k E]. destruct (Req_dec dt 0) as [Z|Z]; [rewrite Z in E; unfold Rdiv in E; lra|].
    pose proof (div_pow2_bounds dt k). lra.
  - bind_inv H as w1 E1. pose proof (set_v_t _ _ _ E1).
    pose proof (set_v_cfg _ _ _ E1) as C. cfg_fields C.
    rewrite <- H0. apply IH; [rewrite Hdt0; auto|auto|exact H].
Qed.

Lemma fixed_history_time fuel o hd e n w w' :
  0 <= w_dt w -> exec fuel o hd e (repeat (OStep true) n) w = Ok w' ->
  w_t w' = w_t w + INR n * w_dt w.
Proof.
  revert w; induction n as [|n IH]; intros w Hdt H; cbn [repeat exec] in H.
  - inversion H; subst. simpl. ring.
  - bind_inv H as w1 E1. pose proof (step_cfg _ _ _ _ _ _ _ E1) as C. cfg_fields C.
    rewrite (IH w1) by (rewrite ?Hdt0; auto). rewrite Hdt0, S_INR.
    unfold step in E1. apply fixed_step_time in E1; rnum; [rewrite E1; ring|lra].
Qed.

(** ** non-strict worlds *)
Definition joints_ok w : Prop :=
  Forall (fun '(_, i1, i2) =>
            (i1 < length (w_bodies w))%nat /\
            match i2 with Some i => (i < length (w_bodies w))%nat | None => True end) (w_joints w).

Lemma joint_bodies_total (bs : list (body R)) i1 i2 :
  (i1 < length bs)%nat -> match i2 with Some i => (i < length bs)%nat | None => True end ->
  exists b1 b2, joint_bodies bs i1 i2 = Ok (b1, b2).
Proof.
  intros H1 H2. unfold joint_bodies, get_body.
  destruct (nth_error bs i1) eqn:E1; [|apply nth_error_None in E1; lia]. simpl.
  destruct i2 as [i2|]; [|eauto].
  destruct (nth_error bs i2) eqn:E2; [|apply nth_error_None in E2; lia]. simpl. eauto.
Qed.

Lemma Forall2_joints (A : Type) (f : A -> res (joint R * nat * option nat)) l js
      (idx : A -> nat * option nat) :
  (forall a j i1 i2, f a = Ok (j, i1, i2) -> idx a = (i1, i2)) ->
  mapM f l = Ok js -> map (fun '(_, i1, i2) => (i1, i2)) js = map idx l.
Proof.
  intros Hf H. apply mapM_Forall2 in H. induction H as [|a [[j i1] i2] l js Ha HF IH]; simpl; auto.
  rewrite IH. f_equal. symmetry. eauto.
Qed.

Lemma joints_ok_idx w w' :
  joints_ok w -> length (w_bodies w') = length (w_bodies w) ->
  map (fun '(_, i1, i2) => (i1, i2)) (w_joints w') = map (fun '(_, i1, i2) => (i1, i2)) (w_joints w) ->
  joints_ok w'.
Proof.
  unfold joints_ok. intros H L E. rewrite L.
  rewrite Forall_forall in *. intros [[j i1] i2] Hin.
  assert (Hi : In (i1, i2) (map (fun '(_, i1, i2) => (i1, i2)) (w_joints w'))).
  { apply in_map_iff. exists (j, i1, i2). auto. }
  rewrite E in Hi. apply in_map_iff in Hi. destruct Hi as ([[j' a] b] & Heq & Hin').
  inversion Heq; subst. apply (H _ Hin').
Qed.

Lemma move_all_total w dt :
  joints_ok w ->
  exists w', move_all w dt = Ok w' /\ joints_ok w' /\
             length (w_bodies w') = length (w_bodies w) /\
             length (w_joints w') = length (w_joints w).
Proof.
  intros Hj. unfold move_all.
  destruct (mapM_exists
              (fun '(j, i1, i2) =>
                 do jb <- joint_bodies (map (fun b => move b dt) (w_bodies w)) i1 i2;
                 Ok (j_move j (fst jb) (snd jb) dt, i1, i2)) (w_joints w)) as [js E].
  { intros [[j i1] i2] Hin. unfold joints_ok in Hj. rewrite Forall_forall in Hj.
    specialize (Hj _ Hin). cbn in Hj.
    destruct (joint_bodies_total (map (fun b => move b dt) (w_bodies w)) i1 i2) as (b1 & b2 & Eb).
    - rewrite map_length. tauto.
    - rewrite map_length. tauto.
    - rewrite Eb. simpl. eauto. }
  rewrite E. simpl. eexists; split; [reflexivity|].
  assert (Hlen : length (map (fun b => move b dt) (w_bodies w)) = length (w_bodies w))
    by apply map_length.
  split; [|split]; auto.
  - apply (joints_ok_idx w); simpl; auto.
    eapply (Forall2_joints _ _ _ _ (fun '(_, i1, i2) => (i1, i2))); [|exact E].
    intros [[j i1] i2] j' a b Ha. simpl in Ha. binv Ha. inversion Ha; subst. reflexivity.
  - simpl. apply (mapM_Ok_length _ _ _ E).
Qed.

Lemma mapi_from_length {A B} (f : nat -> A -> B) l i : length (mapi_from i f l) = length l.
Proof. revert i; induction l; simpl; auto. Qed.
Lemma mapi_length {A B} (f : nat -> A -> B) l : length (mapi f l) = length l.
Proof. apply mapi_from_length. Qed.

Lemma mapi_from_Forall {A B} (f : nat -> A -> B) (P : B -> Prop) l :
  Forall (fun a => forall i, P (f i a)) l -> forall i, Forall P (mapi_from i f l).
Proof. induction 1; intros i; simpl; constructor; auto. Qed.

Lemma combine_map_fst {A B C} (g : A -> C) (l : list A) (l' : list B) :
  length l' = length l -> map (fun x => g (fst x)) (combine l l') = map g l.
Proof.
  revert l'; induction l; destruct l'; simpl; intros H; try discriminate; auto.
  f_equal; auto.
Qed.

Lemma rewind_total w sp sr :
  joints_ok w -> length sr = length (w_joints w) ->
  exists w', rewind w sp sr = Ok w' /\ joints_ok w' /\
             length (w_bodies w') = length (w_bodies w) /\
             length (w_joints w') = length (w_joints w).
Proof.
  intros Hj Hsr. unfold rewind. cbv zeta.
  set (bs := w_bodies (world_set_p w sp)).
  assert (Hbs : length bs = length (w_bodies w)) by (unfold bs; simpl; apply mapi_length).
  destruct (mapM_exists
              (fun '((j, i1, i2), c) =>
                 do jb <- joint_bodies bs i1 i2;
                 Ok (j_update_pos (j_with_rots j (fst c) (j_rot2 j)) (fst jb) (snd jb), i1, i2))
              (combine (w_joints (world_set_p w sp)) sr)) as [js E].
  { intros [[[j i1] i2] c] Hin. apply in_combine_l in Hin. unfold joints_ok in Hj.
    rewrite Forall_forall in Hj. specialize (Hj _ Hin). cbn in Hj.
    destruct (joint_bodies_total bs i1 i2) as (b1 & b2 & Eb); try (rewrite Hbs; tauto).
    rewrite Eb. simpl. eauto. }
  rewrite E. simpl. eexists; split; [reflexivity|].
  split; [|split]; auto.
  - apply (joints_ok_idx w); simpl; [auto|apply mapi_length|].
    transitivity (map (fun x => (fun '(_, i1, i2) => (i1, i2)) (fst x))
                      (combine (w_joints (world_set_p w sp)) sr)).
    { eapply (Forall2_joints _ _ _ _ (fun x => (fun '(_, i1, i2) => (i1, i2)) (fst x))); [|exact E].
      intros [[[j i1] i2] c] j' a b Ha. simpl in Ha. binv Ha. inversion Ha; subst. reflexivity. }
    change (w_joints (world_set_p w sp)) with (w_joints w).
    apply (combine_map_fst (fun '(_, i1, i2) => (i1, i2))). exact Hsr.
  - simpl. apply mapM_Ok_length in E. rewrite E, combine_length. simpl. lia.
Qed.

(** [returns_on P o hd e]: on the worlds in [P] the engine and the contact callback return (no
    exception), and the pieces of a step stay inside [P]. *)
Record returns_on (P : world R -> Prop) o hd e : Prop := {
  ro_joints : forall w, P w -> joints_ok w /\ length (w_v w) = (3 * length (w_bodies w))%nat;
  ro_solve : forall w dt, P w ->
    exists v c, e_solve e w dt = Ok (v, c) /\ length v = (3 * length (w_bodies w))%nat;
  ro_post : forall w, P w -> w_post_stab w = true ->
    exists dp, e_post e w = Ok dp /\ length dp = (3 * length (w_bodies w))%nat;
  ro_find : forall w, P w -> exists w', find_contacts o hd w = Ok w' /\ P w';
  ro_move : forall w dt w', P w -> move_all w dt = Ok w' -> P w';
  ro_rewind : forall w0 w w', P w0 -> P w ->
    rewind w (cat3 (map b_p (w_bodies w0))) (map (fun '(j, _, _) => (j_rot1 j, j_rot2 j)) (w_joints w0)) = Ok w' -> P w';
  ro_set_v : forall w v w', P w -> set_v w v = Ok w' -> P w';
  ro_cache : forall w dt v c, P w -> e_solve e w dt = Ok (v, c) -> P (with_cache w c);
  ro_t : forall w t, P w -> P (with_t w t) }.

Lemma set_v_total w v :
  length v = (3 * length (w_bodies w))%nat -> exists w', set_v w v = Ok w'.
Proof. intros H. unfold set_v. rewrite H, Nat.eqb_refl. eauto. Qed.

Lemma set_v_shape w v w' :
  set_v w v = Ok w' -> length (w_bodies w') = length (w_bodies w) /\ w_v w' = v /\
                       w_joints w' = w_joints w.
Proof.
  intros H. apply set_v_inv in H. destruct H as [_ ->]. simpl. rewrite mapi_length. auto.
Qed.

Lemma nonstrict_try P o hd e w0 w dt :
  let sp := cat3 (map b_p (w_bodies w0)) in let sr := map (fun '(j, _, _) => (j_rot1 j, j_rot2 j)) (w_joints w0) in
  returns_on P o hd e -> P w0 -> P w -> length sr = length (w_joints w) ->
  w_strict w = false -> 0 < w_dt w ->
  forall fuel, (dt / 2 ^ fuel < w_dt w / 4)%R ->
  exists k w' dt', (k <= fuel)%nat /\ tries o hd sp sr w dt k w' dt' /\ P w'.
Proof.
  intros sp sr Hr H0 Hw Hsr Hs Hdt fuel. revert w dt Hw Hsr Hs Hdt.
  induction fuel as [|fuel IH]; intros w dt Hw Hsr Hs Hdt Hsmall;
    destruct (ro_joints _ _ _ _ Hr w Hw) as [Hj _];
    destruct (move_all_total w dt Hj) as (w1 & E1 & J1 & L1 & K1);
    pose proof (ro_move _ _ _ _ Hr _ _ _ Hw E1) as P1;
    destruct (ro_find _ _ _ _ Hr w1 P1) as (w2 & E2 & P2);
    pose proof (move_all_cfg _ _ _ E1) as C1; pose proof (find_contacts_cfg _ _ _ _ E2) as C2;
    assert (C : cfg w2 = cfg w) by congruence; cfg_fields C;
    pose proof (find_contacts_inv _ _ _ _ E2) as (bs & cs & clk & E2');
    assert (K2 : length (w_joints w2) = length (w_joints w)) by (subst w2; simpl; auto).
  - exists 0%nat, w2, dt. split; [lia|]. split; [|exact P2].
    eapply tries_accept; [exact E1|exact E2|]. right. split; [congruence|]. rnum. apply Rltb_true.
    simpl in Hsmall. rewrite Hdt0. lra.
  - destruct (no_penetration w2) eqn:En.
    { exists 0%nat, w2, dt. split; [lia|]. split; [|exact P2].
      eapply tries_accept; [exact E1|exact E2|]. now left. }
    destruct (Rltb dt (w_dt w2 / 4)) eqn:El.
    { exists 0%nat, w2, dt. split; [lia|]. split; [|exact P2].
      eapply tries_accept; [exact E1|exact E2|]. right. split; [congruence|exact El]. }
    destruct (ro_joints _ _ _ _ Hr w2 P2) as [J2 _].
    destruct (rewind_total w2 sp sr J2) as (w3 & E3 & J3 & L3 & K3); [congruence|].
    pose proof (ro_rewind _ _ _ _ Hr _ _ _ H0 P2 E3) as P3.
    pose proof (rewind_cfg _ _ _ _ E3) as C3.
    assert (C' : cfg w3 = cfg w) by congruence. cfg_fields C'.
    destruct (IH w3 (dt / 2)) as (k & w' & dt' & Hk & Ht & Pt); auto; try congruence.
    + simpl in Hsmall. rewrite Hdt1. pose proof (pow2_pos fuel).
      replace (dt / 2 / 2 ^ fuel) with (dt / (2 * 2 ^ fuel)) by (field; lra). auto.
    + exists (S k), w', dt'. split; [lia|]. split; [|exact Pt].
      eapply tries_reject; eauto.
Qed.

Lemma tries_lower o hd sp sr w dt k w' dt' :
  tries o hd sp sr w dt k w' dt' -> w_strict w = false -> k = 0%nat \/ w_dt w / 8 <= dt'.
Proof.
  induction 1 as [w dt w1 w2 M F _ | w dt w1 w2 w3 k w' dt' M F _ S R H IH]; intros Hs; [now left|right].
  pose proof (move_all_cfg _ _ _ M) as C1. pose proof (find_contacts_cfg _ _ _ _ F) as C2. pose proof (rewind_cfg _ _ _ _ R) as C3.
  assert (C : cfg w2 = cfg w) by congruence. assert (C' : cfg w3 = cfg w) by congruence. cfg_fields C. cfg_fields C'.
  assert (L : w_dt w / 4 <= dt).
  { destruct S as [S|S]; [congruence|]. change (Rltb dt (w_dt w2 / 4) = false) in S. destruct (Rltb_spec dt (w_dt w2 / 4)) as [Q|Q]; [discriminate|]. rewrite Hdt in Q. lra. }
  destruct IH as [->|IH]; [congruence| |].
  - inversion H; subst. simpl. lra.
  - rewrite Hdt0 in IH. exact IH.
Qed.

Lemma nonstrict_step_dt P fuel o hd e w dt :
  returns_on P o hd e -> P w -> w_strict w = false -> 0 < w_dt w -> 0 < dt <= w_dt w -> (4 <= fuel)%nat ->
  exists w' k, step_dt fuel o hd e w dt = Ok w' /\ P w' /\ cfg w' = cfg w /\
             (k <= 3)%nat /\ w_t w' = w_t w + dt / 2 ^ k /\ (k = 0%nat \/ w_dt w / 8 <= dt / 2 ^ k).
Proof.
  intros Hr Hw Hs Hdt Hd Hf. unfold step_dt.
  destruct (ro_solve _ _ _ _ Hr w dt Hw) as (v & c & Ev & Lv). rewrite Ev. cbn [bind].
  destruct (set_v_total (with_cache w c) v Lv) as [w1 E1]. rewrite E1. cbn [bind].
  pose proof (ro_cache _ _ _ _ Hr _ _ _ _ Hw Ev) as P0.
  pose proof (ro_set_v _ _ _ _ Hr _ _ _ P0 E1) as P1.
  pose proof (set_v_cfg _ _ _ E1) as C1. pose proof (set_v_t _ _ _ E1) as T1.
  change (cfg (with_cache w c)) with (cfg w) in C1. change (w_t (with_cache w c)) with (w_t w) in T1.
  destruct (set_v_shape _ _ _ E1) as (S1 & _ & S3). change (w_joints (with_cache w c)) with (w_joints w) in S3.
  set (sr := map _ (w_joints w)).
  set (sp := cat3 (map b_p (w_bodies w))).
  cfg_fields C1.
  destruct (nonstrict_try P o hd e w w1 dt Hr Hw P1) with (fuel := 3%nat)
    as (k & w2 & dt' & Hk & Ht & P2); try congruence.
  - unfold sr. rewrite map_length. congruence.
  - simpl. rewrite Hdt0. lra.
  - cbv zeta in Ht. change (tries o hd sp sr w1 dt k w2 dt') in Ht. rewrite (tries_step_loop fuel _ _ _ _ _ _ _ _ _ Ht) by lia. cbn [bind].
    pose proof (tries_cfg _ _ _ _ _ _ _ _ _ Ht) as [Hc Htm].
    pose proof (tries_dt _ _ _ _ _ _ _ _ _ Ht) as Hdt'.
    assert (Hlow : k = 0%nat \/ w_dt w / 8 <= dt / 2 ^ k).
    { rewrite <- Hdt', <- Hdt0. apply (tries_lower _ _ _ _ _ _ _ _ _ Ht). congruence. }
    destruct (ro_joints _ _ _ _ Hr w2 P2) as [J2 V2].
    destruct (w_post_stab w2) eqn:Hp.
    + destruct (ro_post _ _ _ _ Hr w2 P2 Hp) as (dp & Ed & Ld). rewrite Ed. cbn [bind].
      destruct (set_v_total w2 (map (fun a => ndiv a (nofZ 2)) dp)) as [wa Ea];
        [now rewrite map_length|]. rewrite Ea. cbn [bind].
      pose proof (ro_set_v _ _ _ _ Hr _ _ _ P2 Ea) as Pa.
      destruct (ro_joints _ _ _ _ Hr wa Pa) as [Ja _].
      destruct (move_all_total wa dt' Ja) as (wb & Eb & _ & Lb & _). rewrite Eb. cbn [bind].
      pose proof (ro_move _ _ _ _ Hr _ _ _ Pa Eb) as Pb.
      destruct (set_v_total wb (w_v w2)) as [wc Ec].
      { rewrite V2, Lb. destruct (set_v_shape _ _ _ Ea) as (-> & _). reflexivity. }
      rewrite Ec. cbn [bind].
      pose proof (ro_set_v _ _ _ _ Hr _ _ _ Pb Ec) as Pc.
      destruct (ro_find _ _ _ _ Hr wc Pc) as (wd & Ed' & Pd). rewrite Ed'. cbn [bind].
      exists (with_t wd (w_t wd + dt')%num), k. split; [reflexivity|].
      assert (Cd : cfg wd = cfg w).
      { rewrite (find_contacts_cfg _ _ _ _ Ed'), (set_v_cfg _ _ _ Ec), (move_all_cfg _ _ _ Eb),
          (set_v_cfg _ _ _ Ea), Hc. exact C1. }
      assert (Td : w_t wd = w_t w).
      { rewrite (find_contacts_t _ _ _ _ Ed'), (set_v_t _ _ _ Ec), (move_all_t _ _ _ Eb),
          (set_v_t _ _ _ Ea), Htm. exact T1. }
      split; [now apply (ro_t _ _ _ _ Hr)|]. split; [exact Cd|]. split; [lia|].
      split; [|exact Hlow]. simpl. rewrite Td, Hdt'. reflexivity.
    + cbn [bind]. exists (with_t w2 (w_t w2 + dt')%num), k. split; [reflexivity|].
      split; [now apply (ro_t _ _ _ _ Hr)|]. split; [simpl; now rewrite <- C1, <- Hc|].
      split; [lia|]. split; [|exact Hlow]. simpl. rewrite Htm, T1, Hdt'. reflexivity.
Qed.

Lemma nonstrict_step P fuel o hd e w :
  returns_on P o hd e -> P w -> w_strict w = false -> 0 < w_dt w -> (4 <= fuel)%nat ->
  exists w' k, step fuel o hd e false w = Ok w' /\ P w' /\ cfg w' = cfg w /\
             (k <= 3)%nat /\ w_t w' = w_t w + w_dt w / 2 ^ k.
Proof.
  intros Hr Hw Hs Hdt Hf. destruct (nonstrict_step_dt P fuel o hd e w (w_dt w)) as (w' & k & E & Pw & C & K & Tm & _); auto; [lra|].
  exists w', k. auto.
Qed.

(** step(fixed_dt=True): at most nine rounds *)
Lemma nonstrict_fixed P o hd e lfuel end_t :
  returns_on P o hd e -> (4 <= lfuel)%nat ->
  forall n w, P w -> w_strict w = false -> 0 < w_dt w -> w_t w <= end_t <= w_t w + w_dt w -> end_t <= w_t w + INR n * (w_dt w / 8) ->
  exists w', fixed_loop (S n) lfuel o hd e end_t w = Ok w' /\ P w' /\ cfg w' = cfg w /\ w_t w' = end_t.
Proof.
  intros Hr Hl. induction n as [|n IH]; intros w Hw Hs Hdt He Hn; cbn [fixed_loop]; change (nltb (w_t w) end_t) with (Rltb (w_t w) end_t);
    destruct (Rltb_spec (w_t w) end_t) as [L|L].
  - simpl in Hn. lra.
  - exists w. repeat (split; [auto; fail|]). lra.
  - change (nsub end_t (w_t w)) with (end_t - w_t w).
    destruct (nonstrict_step_dt P lfuel o hd e w (end_t - w_t w)) as (w1 & k & E1 & P1 & C1 & Hk & T1 & B1); auto; [lra|].
    rewrite E1. cbn [bind]. cfg_fields C1. pose proof (div_pow2_bounds (end_t - w_t w) k ltac:(lra)) as Q.
    destruct (IH w1) as (w' & E' & P' & C' & T'); [exact P1|congruence| | | |].
    + rewrite Hdt0; auto.
    + rewrite Hdt0. lra.
    + rewrite Hdt0. rewrite S_INR in Hn. destruct B1 as [->|B1]; [|lra]. simpl in T1. rewrite T1. pose proof (pos_INR n). nra.
    + exists w'. split; [exact E'|]. split; [exact P'|]. split; [congruence|exact T'].
  - exists w. repeat (split; [auto; fail|]). lra.
Qed.

Lemma nonstrict_any P fuel o hd e fx w :
  returns_on P o hd e -> P w -> w_strict w = false -> 0 < w_dt w -> (9 <= fuel)%nat ->
  exists w', step fuel o hd e fx w = Ok w' /\ P w' /\ cfg w' = cfg w /\ w_t w < w_t w' <= w_t w + w_dt w.
Proof.
  intros Hr Hw Hs Hdt Hf. destruct fx.
  - destruct fuel as [|n]; [lia|]. unfold step.
    destruct (nonstrict_fixed P o hd e (S n) (w_t w + w_dt w) Hr ltac:(lia) n w) as (w' & E & P' & C & Tm); auto; [lra| |].
    + assert (8 <= INR n). { replace 8 with (INR 8) by (simpl; lra). apply le_INR. lia. } nra.
    + exists w'. split; [exact E|]. split; [exact P'|]. split; [exact C|]. lra.
  - destruct (nonstrict_step P fuel o hd e w) as (w' & k & E & P' & C & K & Tm); auto; [lia|]. exists w'. split; [exact E|]. split; [exact P'|]. split; [exact C|].
    pose proof (div_pow2_bounds (w_dt w) k Hdt). lra.
Qed.
Lemma nonstrict_exec P fuel o hd e fixed : returns_on P o hd e -> (9 <= fuel)%nat ->
  forall w, P w -> w_strict w = false -> 0 < w_dt w -> exists w', exec fuel o hd e (map OStep fixed) w = Ok w' /\ P w' /\ cfg w' = cfg w.
Proof.
  intros Hr Hf. induction fixed as [|fx l IH]; intros w Hw Hs Hdt; [exists w; repeat split; auto|].
  destruct (nonstrict_any P fuel o hd e fx w) as (w1 & E1 & P1 & C1 & _); auto. cbn [map exec]. rewrite E1. cbn [bind]. cfg_fields C1.
  destruct (IH w1) as (w' & E' & P' & C'); auto; [congruence|now rewrite Hdt0|]. exists w'. split; [exact E'|]. split; [exact P'|congruence].
Qed.

Lemma nonstrict_run P o hd e run_time :
  returns_on P o hd e ->
  forall fuel lfuel w, P w -> w_strict w = false -> 0 < w_dt w -> (4 <= lfuel)%nat ->
  run_time <= w_t w + INR fuel * (w_dt w / 8) -> w_t w < run_time + w_dt w ->
  exists w', run_world (S fuel) lfuel o hd e run_time w = Ok w' /\ P w' /\
             run_time <= w_t w' < run_time + w_dt w.
Proof.
  intros Hr. induction fuel as [|fuel IH]; intros lfuel w Hw Hs Hdt Hl Ht Hlt;
    cbn [run_world]; change (nltb (w_t w) run_time) with (Rltb (w_t w) run_time);
    destruct (Rltb_spec (w_t w) run_time).
  - simpl in Ht. lra.
  - eexists; split; [reflexivity|]. split; [exact Hw|]. lra.
  - destruct (nonstrict_step P lfuel o hd e w) as (w1 & k & E1 & P1 & C1 & Hk & T1); auto.
    rewrite E1. cbn [bind]. cfg_fields C1.
    assert (Q : 2 ^ k <= 8).
    { replace 8 with (2 ^ 3) by (simpl; lra). apply Rle_pow; [lra|lia]. }
    pose proof (pow2_ge1 k).
    assert (w_dt w / 8 <= w_dt w / 2 ^ k).
    { unfold Rdiv. apply Rmult_le_compat_l; [lra|]. apply Rinv_le_contravar; lra. }
    pose proof (div_pow2_bounds (w_dt w) k Hdt).
    destruct (IH lfuel w1) as (w' & E' & Pw' & Hw'); [exact P1|congruence| |exact Hl| | |].
    + rewrite Hdt0; auto.
    + rewrite Hdt0. rewrite S_INR in Ht. lra.
    + rewrite Hdt0. lra.
    + exists w'. split; [exact E'|]. split; [exact Pw'|]. rewrite Hdt0 in Hw'. lra.
  - eexists; split; [reflexivity|]. split; [exact Hw|]. lra.
Qed.

(** ** worlds of circles with the default callback *)
Definition circles w : Prop :=
  Forall (fun b => is_circle b = true) (w_bodies w) /\
  joints_ok w /\ length (w_v w) = (3 * length (w_bodies w))%nat.

Lemma circle_set_p (b : body R) p : is_circle b = true -> is_circle (set_p b p) = true.
Proof. unfold is_circle, set_p. destruct (b_kind b) eqn:E; try discriminate. simpl. now rewrite E. Qed.

Lemma circles_find fuel o w :
  broadphase_sane o -> circles w ->
  exists w', find_contacts o (diff_handler fuel o) w = Ok w' /\ circles w'.
Proof.
  intros Ho (Hc & Hj & Hv). unfold find_contacts.
  assert (G : forall pairs, (forall i j, In (i, j) pairs ->
                (i < length (w_bodies w))%nat /\ (j < length (w_bodies w))%nat) ->
    forall cs clk, exists cs' clk',
      fold_left (fun (acc : res (list (contact R) * list (body R) * nat)) '(i1, i2) =>
                do s <- acc;
                let '(cs, bs, clk) := s in
                do r <- diff_handler fuel o (w_eps w) clk bs i1 i2;
                let '(new, bs', clk') := r in
                Ok (cs ++ new, bs', clk'))
             pairs (Ok (cs, w_bodies w, clk)) = Ok (cs', w_bodies w, clk')).
  { induction pairs as [|[i j] pairs IH]; intros Hp cs clk; [simpl; eauto|].
    cbn [fold_left bind].
    destruct (Hp i j) as [Li Lj]; [now left|].
    destruct (nth_error (w_bodies w) i) as [bi|] eqn:Ei; [|apply nth_error_None in Ei; lia].
    destruct (nth_error (w_bodies w) j) as [bj|] eqn:Ej; [|apply nth_error_None in Ej; lia].
    assert (Ci : is_circle bi = true) by (rewrite Forall_forall in Hc; apply Hc; eapply nth_error_In; eauto).
    assert (Cj : is_circle bj = true) by (rewrite Forall_forall in Hc; apply Hc; eapply nth_error_In; eauto).
    unfold diff_handler at 2. unfold get_body. rewrite Ei, Ej. cbn [bind].
    destruct (existsb _ _).
    - cbn [bind]. apply IH. intros; apply Hp; now right.
    - rewrite Ci, Cj. cbn [andb bind]. apply IH. intros; apply Hp; now right. }
  destruct (G (o_collide o (w_clk w) (map b_geom (w_bodies w)))) with (cs := @nil (contact R)) (clk := S (w_clk w))
    as (cs & clk & E).
  { intros i j Hin. apply Ho in Hin. rewrite map_length in Hin. tauto. }
  rewrite E. cbn [bind]. eexists; split; [reflexivity|]. split; [exact Hc|]. split; [exact Hj|exact Hv].
Qed.

Lemma joints_ok_mono w w' :
  joints_ok w -> length (w_bodies w') = length (w_bodies w) -> w_joints w' = w_joints w -> joints_ok w'.
Proof. unfold joints_ok. now intros H -> ->. Qed.

Lemma circles_return fuel o e :
  broadphase_sane o ->
  (forall w dt, circles w ->
     exists v c, e_solve e w dt = Ok (v, c) /\ length v = (3 * length (w_bodies w))%nat) ->
  (forall w, circles w -> exists dp, e_post e w = Ok dp /\ length dp = (3 * length (w_bodies w))%nat) ->
  returns_on circles o (diff_handler fuel o) e.
Proof.
  intros Ho He Hp. constructor; auto.
  - intros w (H1 & H2 & H3). auto.
  - intros w Hw. now apply circles_find.
  - intros w dt w' (H1 & H2 & H3) Hm. destruct (move_all_total w dt H2) as (w1 & E & J & L & K).
    assert (w1 = w') by congruence. subst w1. split; [|split; auto].
    + apply move_all_inv in Hm. destruct Hm as [js ->]. simpl.
      rewrite Forall_map. eapply Forall_impl; [|exact H1]. intros b Hb. now apply circle_set_p.
    + rewrite L, <- H3. apply move_all_inv in Hm. destruct Hm as [js ->]. reflexivity.
  - intros w0 w w' _ (H1 & H2 & H3). set (sp := cat3 _). set (sr := map _ (w_joints w0)). intros Hm.
    assert (Hc : Forall (fun b => is_circle b = true) (w_bodies w')).
    { apply rewind_inv in Hm. destruct Hm as [js ->]. simpl. apply mapi_from_Forall.
      eapply Forall_impl; [|exact H1]. intros b Hb i. now apply circle_set_p. }
    assert (Hl : length (w_bodies w') = length (w_bodies w)).
    { apply rewind_inv in Hm. destruct Hm as [js ->]. simpl. apply mapi_length. }
    split; [exact Hc|]. split.
    + unfold rewind in Hm. bind_inv Hm as js Ej. inversion Hm; subst w'. simpl in *.
      unfold joints_ok. simpl. rewrite Hl. clear - Ej H2.
      apply mapM_Forall2 in Ej. unfold joints_ok in H2.
      assert (Q : Forall (fun x : joint R * nat * option nat * (R * option R) => let '((_, i1, i2), _) := x in
                 (i1 < length (w_bodies w))%nat /\
                 match i2 with Some i => (i < length (w_bodies w))%nat | None => True end)
               (combine (w_joints w) sr)).
      { rewrite Forall_forall in *. intros [[[j i1] i2] c] Hin. apply in_combine_l in Hin. apply (H2 _ Hin). }
      change (w_joints (world_set_p w sp)) with (w_joints w) in Ej.
      induction Ej as [|[[[j i1] i2] c] y l l' Hxy Hf IH]; constructor.
      * inversion Q; subst. bind_inv Hxy as jb Ejb. inversion Hxy; subst. auto.
      * apply IH. now inversion Q.
    + rewrite Hl, <- H3. apply rewind_inv in Hm. destruct Hm as [js ->]. reflexivity.
  - intros w v w' (H1 & H2 & H3) Hm. destruct (set_v_shape _ _ _ Hm) as (L & V & J).
    split; [|split].
    + apply set_v_inv in Hm. destruct Hm as [_ ->]. simpl. apply mapi_from_Forall.
      eapply Forall_impl; [|exact H1]. intros b Hb i. exact Hb.
    + eapply joints_ok_mono; eauto.
    + rewrite V, L. apply set_v_inv in Hm. tauto.
Qed.

End TimeFacts.
