(** C18, C19, C20, C21: forces, constraint Jacobians and anchors *)
From Coq Require Import List Arith ZArith Lia Bool Reals Lra.
From Verif Require Import Num Tensor Utils Bodies Forces Constraints Contacts World
     Spec GeoSpec JointSpec RBase ForceFacts JointFacts JeFacts RealEx RewindEx.
Import ListNotations.
Open Scope R_scope.

(** C18.  One Gravity(g) on a body of mass m is the force (torque 0, 0, m g) at every time. *)
Theorem C18_gravity :
  forall (h : fheap R) b id g old h' b',
    b_forces b = [] -> nth_error h id = Some (FGrav g old) -> add_force h b id = Ok (h', b') ->
    forall t, body_apply_forces h' b' t = Ok (0, (0, b_mass b * g)).
Proof. exact gravity_force. Qed.
Print Assumptions C18_gravity.

(** apply_forces is the sum of the values of the attached forces. *)
Theorem C18_sum :
  forall (h : fheap R) b t f,
    body_apply_forces h b t = Ok f ->
    exists fs, Forall2 (fun id x => exists obj, nth_error h id = Some obj /\ force_value obj t = Ok x) (b_forces b) fs /\
      fst f = Rsum (map fst fs) /\
      fst (snd f) = Rsum (map (fun x => fst (snd x)) fs) /\
      snd (snd f) = Rsum (map (fun x => snd (snd x)) fs).
Proof. exact forces_sum. Qed.
Print Assumptions C18_sum.
Theorem C18_no_force : forall (h : fheap R) b t, b_forces b = [] -> body_apply_forces h b t = Ok (0, (0, 0)).
Proof. intros h b t H. unfold body_apply_forces. rewrite H. reflexivity. Qed.
Print Assumptions C18_no_force.

(** The impulse functions, scaled by the multiplier, act exactly while t < 1/10. *)
Theorem C18_impulses :
  forall mult t,
    force_value (FExt down_force mult) t = Ok (0, (0, mult)) /\
    (t < 1 / 10 ->
       force_value (FExt vert_impulse mult) t = Ok (0, (0, mult)) /\
       force_value (FExt hor_impulse mult) t = Ok (0, (mult, 0)) /\
       force_value (FExt rot_impulse mult) t = Ok (mult, (0, 0))) /\
    (1 / 10 <= t ->
       force_value (FExt vert_impulse mult) t = Ok (0, (0, 0)) /\
       force_value (FExt hor_impulse mult) t = Ok (0, (0, 0)) /\
       force_value (FExt rot_impulse mult) t = Ok (0, (0, 0))).
Proof. exact impulse_values. Qed.
Print Assumptions C18_impulses.
(** a body of mass 3 with gravity and a horizontal push of 7 until t = 1/10 *)
Example C18_case :
  exists b h1 b1 h2 b2,
    circle_init 0 [0; 0] 1 [0; 0; 0] 3 (1/2) (1/2) (1/10) = Ok b /\
    add_force [FGrav 10 None; FExt hor_impulse 7] b 0 = Ok (h1, b1) /\ add_force h1 b1 1 = Ok (h2, b2) /\
    body_apply_forces h1 b1 5 = Ok (0, (0, 3 * 10)) /\
    exists f, body_apply_forces h2 b2 0 = Ok f /\ f = (0, (7, 30)).
Proof.
  destruct (circle_init 0 [0; 0] 1 [0; 0; 0] 3 (1/2) (1/2) (1/10)) as [b|] eqn:E; [|discriminate].
  assert (Hb : b_forces b = [] /\ b_mass b = 3) by (inversion E; split; reflexivity). destruct Hb as [Hb Hm].
  exists b. do 4 eexists. split; [reflexivity|]. split; [reflexivity|]. split; [reflexivity|]. split.
  - rewrite <- Hm. eapply (C18_gravity [FGrav 10 None; FExt hor_impulse 7] b 0 10 None); [exact Hb|reflexivity|reflexivity].
  - eexists. split; [unfold body_apply_forces; cbn -[hor_impulse]; rewrite Hb; cbn -[hor_impulse]; reflexivity|].
    destruct (C18_impulses 7 0) as (_ & H & _). destruct H as (_ & H & _); [lra|]. cbn -[hor_impulse] in H.
    injection H as H1 H2 H3. rewrite Hm. unfold v3add, v2add. cbn -[hor_impulse]. rewrite H1, H2, H3. apply f_equal2; [lra|apply f_equal2; lra].
Qed.

(** C19.  Adding a force object to another body leaves a body's force unchanged if that object is
    not attached to it, or is an ExternalForce ... *)
Theorem C19_other_bodies :
  forall (h : fheap R) b1 b2 id h' b2' t f,
    add_force h b2 id = Ok (h', b2') ->
    (~ In id (b_forces b1) \/ (exists func mult, nth_error h id = Some (FExt func mult))) ->
    body_apply_forces h b1 t = Ok f -> body_apply_forces h' b1 t = Ok f.
Proof. exact add_force_other. Qed.
Print Assumptions C19_other_bodies.
(** ... but a Gravity object shared by two bodies pulls both with the weight of the second. *)
Theorem C19_shared_gravity :
  forall (h : fheap R) b1 b2 id g old h1 b1' h2 b2',
    b_forces b1 = [] -> nth_error h id = Some (FGrav g old) ->
    add_force h b1 id = Ok (h1, b1') -> add_force h1 b2 id = Ok (h2, b2') ->
    forall t, body_apply_forces h2 b1' t = Ok (0, (0, b_mass b2 * g)).
Proof. exact shared_gravity. Qed.
Print Assumptions C19_shared_gravity.
Theorem C19_shared_gravity_refuted :
  exists (h : fheap R) b1 b2 h1 b1' h2 b2' t f,
    add_force h b1 0 = Ok (h1, b1') /\ body_apply_forces h1 b1' t = Ok (0, (0, 1 * 10)) /\
    add_force h1 b2 0 = Ok (h2, b2') /\ body_apply_forces h2 b1' t = Ok f /\ f <> (0, (0, 1 * 10)).
Proof.
  destruct (circle_init 0 [0; 0] 1 [0; 0; 0] 1 (1/2) (1/2) (1/10)) as [b1|] eqn:E1; [|discriminate].
  destruct (circle_init 1 [5; 0] 1 [0; 0; 0] 3 (1/2) (1/2) (1/10)) as [b2|] eqn:E2; [|discriminate].
  assert (H1 : b_forces b1 = [] /\ b_mass b1 = 1) by (inversion E1; split; reflexivity). destruct H1 as [F1 M1].
  assert (M2 : b_mass b2 = 3) by (inversion E2; reflexivity).
  exists [FGrav 10 None], b1, b2. do 4 eexists. exists 0. eexists. split; [reflexivity|]. split.
  - rewrite <- M1. eapply (C18_gravity [FGrav 10 None] b1 0 10 None); [exact F1|reflexivity|reflexivity].
  - split; [reflexivity|]. split.
    + eapply (C19_shared_gravity [FGrav 10 None] b1 b2 0 10 None); [exact F1|reflexivity|reflexivity|reflexivity].
    + rewrite M2. intros H. injection H as H. lra.
Qed.
Print Assumptions C19_shared_gravity_refuted.

(** C20.  In every world and every state of it, world.Je() times any velocity vector x lists, in
    the order of the constraints, what each constraint measures (JointSpec.measured): the relative
    velocity of the two material points at the joint's position, etc. *)
Theorem C20_Je_measures :
  forall bs js w, world_of bs js w ->
  forall x, length x = (3 * length (w_bodies w))%nat ->
    mv (Je w) x =
    flat_map (fun '(j, i1, i2) =>
                match nth_error (w_bodies w) i1 with
                | None => []
                | Some b1 => measured (j_kind j) (j_pos j) (b_pos b1) (v3_at x i1)
                    (match i2 with
                     | None => None
                     | Some i => match nth_error (w_bodies w) i with
                                 | None => None
                                 | Some b2 => Some (b_pos b2, v3_at x i)
                                 end
                     end)
                end) (w_joints w).
Proof. intros. eapply Je_measures; eauto. Qed.
Print Assumptions C20_Je_measures.
(** The joint list is the given constraints, in order, each with the indices of its bodies. *)
Theorem C20_order :
  forall bs js w, world_of bs js w ->
    Forall2 (fun j0 '(j, i1, i2) =>
               j_kind j = j_kind j0 /\
               (exists b1 c1, nth_error bs i1 = Some b1 /\ b_id b1 = j_b1 j0 /\ nth_error (w_bodies w) i1 = Some c1) /\
               match j_b2 j0, i2 with
               | None, None => True
               | Some id, Some i => exists b2 c2, nth_error bs i = Some b2 /\ b_id b2 = id /\ nth_error (w_bodies w) i = Some c2
               | _, _ => False
               end) js (w_joints w).
Proof. exact joints_in_order. Qed.
Print Assumptions C20_order.

(** C21.  A Joint built at [pos] on c1 (and c2) stays attached: after every history of calls,
    including steps with rejected moves and post-stabilisation, its anchor is the point of body 1
    it was built at, carried by the motion of body 1, and its second offset leads from body 2
    to that same point. *)
Theorem C21_anchor :
  forall bs js w, world_of bs js w ->
  forall n c1 c2 pos, nth_error js n = Some (joint_init c1 c2 pos) -> In c1 bs -> (forall b, c2 = Some b -> In b bs) ->
  exists j i1 i2 b1,
    nth_error (w_joints w) n = Some (j, i1, i2) /\
    nth_error bs i1 = Some c1 /\ nth_error (w_bodies w) i1 = Some b1 /\
    j_pos1 j = rotate (b_rot b1 - b_rot c1) (v2sub pos (b_pos c1)) /\
    j_pos j = v2add (b_pos b1) (j_pos1 j) /\
    match c2, i2 with
    | None, None => True
    | Some d2, Some i => exists b2, nth_error bs i = Some d2 /\ nth_error (w_bodies w) i = Some b2 /\
        j_pos2 j = v2sub (j_pos j) (b_pos b2)
    | _, _ => False
    end.
Proof. exact joint_anchor. Qed.
Print Assumptions C21_anchor.

(** a world with a two-body joint, a fixed joint and an axis constraint, after two steps *)
Example C20_case : exists w, world_of joint_bodies3 (joint_cons3) w /\ w_num_constraints w = 6%nat /\
  nth_error joint_cons3 0 = Some (joint_init exA (Some exB) (1, 1)) /\ In exA joint_bodies3 /\ In exB joint_bodies3.
Proof.
  destruct joint_world3 as (w & H1 & H2). exists w. split; [exact H1|]. split; [exact H2|]. split; [reflexivity|].
  split; [left; reflexivity|right; left; reflexivity].
Qed.
