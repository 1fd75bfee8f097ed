(** Lemmas about forces, and an example world with joints *)
From Coq Require Import List Arith ZArith Bool Reals Lra Lia.
From Verif Require Import Num Tensor Utils Bodies Forces Constraints Contacts World Spec ResFacts RBase GeoSpec BodySpec JointSpec
     HandlerFacts JointFacts RewindFacts FloatEx RealEx RewindEx BodyFacts.
Import ListNotations.
Open Scope R_scope.

Lemma nth_error_upd_same {A} (l : list A) i a : (i < length l)%nat -> nth_error (upd l i a) i = Some a.
Proof. intros H. rewrite nth_error_upd, Nat.eqb_refl. destruct (Nat.ltb_spec i (length l)); [reflexivity|lia]. Qed.
Lemma gravity_value b id (h : fheap R) g old h' b' : nth_error h id = Some (FGrav g old) -> add_force h b id = Ok (h', b') ->
  nth_error h' id = Some (FGrav g (Some (0, (0, b_mass b * g)))) /\ b' = with_forces b (b_forces b ++ [id]).
Proof.
  intros Hn H. unfold add_force in H. rewrite Hn in H. inversion H. split; [|reflexivity].
  rewrite nth_error_upd_same by (apply nth_error_Some; congruence). cbn. unfold v3mulr, DOWN. cbn.
  do 2 f_equal. f_equal. apply f_equal2; [ring|]. apply f_equal2; ring.
Qed.
Lemma one_force (h : fheap R) b id t : b_forces b = [id] -> forall v, (exists f, nth_error h id = Some f /\ force_value f t = Ok v) ->
  body_apply_forces h b t = Ok v.
Proof.
  intros Hb v (f & Hf & Hv). unfold body_apply_forces. rewrite Hb. cbn. rewrite Hf, Hv. cbn.
  destruct v as [a [c d]]. unfold v3add, v2add. cbn. do 2 f_equal; [ring|]. apply f_equal2; ring.
Qed.
Lemma gravity_force (h : fheap R) b id g old h' b' :
    b_forces b = [] -> nth_error h id = Some (FGrav g old) -> add_force h b id = Ok (h', b') ->
    forall t, body_apply_forces h' b' t = Ok (0, (0, b_mass b * g)).
Proof.
  intros Hb Hn H t. destruct (gravity_value _ _ _ _ _ _ _ Hn H) as [H1 ->].
  eapply one_force; [cbn; rewrite Hb; reflexivity|]. eexists. split; [exact H1|reflexivity].
Qed.
Lemma shared_gravity (h : fheap R) b1 b2 id g old h1 b1' h2 b2' :
    b_forces b1 = [] -> nth_error h id = Some (FGrav g old) ->
    add_force h b1 id = Ok (h1, b1') -> add_force h1 b2 id = Ok (h2, b2') ->
    forall t, body_apply_forces h2 b1' t = Ok (0, (0, b_mass b2 * g)).
Proof.
  intros Hb Hn H1 H2 t. destruct (gravity_value _ _ _ _ _ _ _ Hn H1) as [A1 ->]. destruct (gravity_value _ _ _ _ _ _ _ A1 H2) as [A2 _].
  eapply one_force; [cbn; rewrite Hb; reflexivity|]. eexists. split; [exact A2|reflexivity].
Qed.
Lemma forces_sum (h : fheap R) b t f :
    body_apply_forces h b t = Ok f ->
    exists fs, Forall2 (fun id x => exists obj, nth_error h id = Some obj /\ force_value obj t = Ok x) (b_forces b) fs /\
      fst f = Rsum (map fst fs) /\
      fst (snd f) = Rsum (map (fun x => fst (snd x)) fs) /\
      snd (snd f) = Rsum (map (fun x => snd (snd x)) fs).
Proof.
  intros H. unfold body_apply_forces in H. bind_inv H as fs Ef. inversion H; subst f; clear H. exists fs. split.
  - apply mapM_Forall2 in Ef. clear - Ef. induction Ef as [|id x ids fs E Ef IH]; constructor; auto.
    destruct (nth_error h id) as [obj|]; [eauto|discriminate].
  - assert (G : forall l a, fold_left v3add l a = (fst a + Rsum (map fst l), (fst (snd a) + Rsum (map (fun x => fst (snd x)) l), snd (snd a) + Rsum (map (fun x => snd (snd x)) l)))).
    { induction l as [|[x1 [x2 x3]] l IH]; intros [a [c d]]; cbn [fold_left map].
      - unfold Rsum; cbn. apply f_equal2; [ring|apply f_equal2; ring].
      - rewrite IH, !Rsum_cons. unfold v3add, v2add. cbn [fst snd]. rnum. apply f_equal2; [ring|apply f_equal2; ring]. }
    rewrite G. cbn. repeat split; ring.
Qed.
Lemma impulse_values mult t :
    force_value (FExt down_force mult) t = Ok (0, (0, mult)) /\
    (t < 1 / 10 ->
       force_value (FExt vert_impulse mult) t = Ok (0, (0, mult)) /\
       force_value (FExt hor_impulse mult) t = Ok (0, (mult, 0)) /\
       force_value (FExt rot_impulse mult) t = Ok (mult, (0, 0))) /\
    (1 / 10 <= t ->
       force_value (FExt vert_impulse mult) t = Ok (0, (0, 0)) /\
       force_value (FExt hor_impulse mult) t = Ok (0, (0, 0)) /\
       force_value (FExt rot_impulse mult) t = Ok (0, (0, 0))).
Proof.
  assert (E : forall a b c : R, Ok (v3mulr (a, (b, c)) mult) = Ok (a * mult, (b * mult, c * mult))) by reflexivity.
  assert (Z : forall a b c a' b' c' : R, a = a' -> b = b' -> c = c' -> Ok (a, (b, c)) = Ok (a', (b', c'))) by (intros; subst; reflexivity).
  unfold force_value, vert_impulse, hor_impulse, rot_impulse, down_force, DOWN, RIGHT, ROT, ZEROS. rnum. change (Rcst C_0_1) with (1 / 10).
  split; [rewrite E; apply Z; ring|]. split; intros H.
  - replace (Rltb t (1 / 10)) with true by (symmetry; apply Rltb_true; lra).
    repeat split; rewrite E; apply Z; ring.
  - replace (Rltb t (1 / 10)) with false by (symmetry; apply Rltb_false; lra).
    repeat split; rewrite E; apply Z; ring.
Qed.
Lemma add_force_other (h : fheap R) b1 b2 id h' b2' t f :
    add_force h b2 id = Ok (h', b2') ->
    (~ In id (b_forces b1) \/ (exists func mult, nth_error h id = Some (FExt func mult))) ->
    body_apply_forces h b1 t = Ok f -> body_apply_forces h' b1 t = Ok f.
Proof.
  intros H Hc Hf. rewrite <- Hf. unfold body_apply_forces. f_equal. apply mapM_ext. intros k Hk.
  unfold add_force in H. destruct (nth_error h id) as [o|] eqn:Eo; [|discriminate]. inversion H; subst h'; clear H.
  rewrite nth_error_upd. destruct (Nat.eqb_spec id k) as [<-|Hne]; [|reflexivity].
  destruct Hc as [Hc|(func & mult & Hc)]; [tauto|]. inversion Hc; subst o. rewrite Eo.
  assert (L : (id < length h)%nat) by (apply nth_error_Some; congruence). apply Nat.ltb_lt in L. rewrite L. reflexivity.
Qed.
(** *** order of the joints *)
Lemma joints_in_order bs js w : world_of bs js w ->
    Forall2 (fun j0 '(j, i1, i2) =>
               j_kind j = j_kind j0 /\
               (exists b1 c1, nth_error bs i1 = Some b1 /\ b_id b1 = j_b1 j0 /\ nth_error (w_bodies w) i1 = Some c1) /\
               match j_b2 j0, i2 with
               | None, None => True
               | Some id, Some i => exists b2 c2, nth_error bs i = Some b2 /\ b_id b2 = id /\ nth_error (w_bodies w) i = Some c2
               | _, _ => False
               end) js (w_joints w).
Proof.
  intros Hw. apply world_of_joints in Hw. destruct Hw as (J0 & _ & _ & He & [_ Hj] & _).
  revert js He. induction Hj as [|[[j0 i1] i2] [[j k1] k2] J0 J1 Hj HJ IH]; intros js He; inversion He as [|j' ? js' ? E He']; subst; constructor; auto.
  destruct E as (-> & (b1 & Hb1 & E1) & E2). destruct Hj as (-> & -> & a1 & c1 & c2 & Ha & Hb & K & _).
  apply joint_bodies_Ok in Hb. destruct Hb as [Hc1 Hc2]. split; [exact K|]. split; [eauto|].
  destruct (j_b2 j') as [id|], i2 as [i|]; try tauto. destruct E2 as (b2 & Hb2 & E2). destruct Hc2 as (y & _ & Hy). eauto.
Qed.
Definition no_pairs : oracle R :=
  {| o_collide := fun _ _ => []; o_narrow := fun _ _ _ => []; o_choice := fun _ _ => 0%nat |}.
Definition exC : body R := get dummy_body (circle_init 2 [9; 9] 1 [1; 0; 0] 1 (1/2) (1/2) (1/10)).
Definition joint_bodies3 : list (body R) := [exA; exB; exC].
Definition joint_cons3 : list (joint R) := [joint_init exA (Some exB) (1, 1); fixed_init exB exC; x_init exC].
Lemma joint_world3 : exists w, world_of joint_bodies3 joint_cons3 w /\ w_num_constraints w = 6%nat.
Proof.
  assert (C : match (do w0 <- world_init no_pairs ex_hd [] joint_bodies3 joint_cons3 (1/2) (1/10) 0 2 false true;
                     exec 3 no_pairs ex_hd free_engine [OStep false; OStep false] w0) with
              | Ok w => (w_num_constraints w =? 6)%nat | Err _ => false end = true).
  { lazy -[Rplus Rmult Rinv Rdiv Rminus Ropp IZR sqrt sin cos Rltb polar_to_cart]. reflexivity. }
  assert (H : exists w0 w, world_init no_pairs ex_hd [] joint_bodies3 joint_cons3 (1/2) (1/10) 0 2 false true = Ok w0 /\
     exec 3 no_pairs ex_hd free_engine [OStep false; OStep false] w0 = Ok w /\ w_num_constraints w = 6%nat).
  { destruct (world_init no_pairs ex_hd [] joint_bodies3 joint_cons3 (1/2) (1/10) 0 2 false true) as [w0|]; [|discriminate C].
    cbn [bind] in C. destruct (exec 3 no_pairs ex_hd free_engine [OStep false; OStep false] w0) as [w|] eqn:E; [|discriminate C].
    exists w0, w. split; [reflexivity|]. split; [exact E|]. now apply Nat.eqb_eq. }
  destruct H as (w0 & w & H0 & H1 & H2). exists w. split; [|exact H2].
  eapply world_of_history; [apply (diff_handler_frame 10 pair_oracle)| | |exact H0|exact H1].
  - cbn. repeat constructor; cbn; intuition congruence.
  - constructor; [|constructor; [|constructor; [|constructor]]].
    + apply built_joint2; [left; reflexivity|right; left; reflexivity|discriminate].
    + apply built_fixed; [right; left; reflexivity|right; right; left; reflexivity|discriminate].
    + apply built_x. right; right; left; reflexivity.
Qed.
