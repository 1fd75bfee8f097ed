(** Reachable bodies keep the constructors' invariants *)
From Coq Require Import List Arith ZArith Bool Reals Lra Lia.
From Verif Require Import Num Tensor Utils Bodies Forces Constraints Contacts World Spec ResFacts RBase GeoSpec BodySpec
     BodyFacts RigidFacts GeomFacts WorldFacts HandlerFacts LayoutFacts HistFacts LinAlg SysFacts.
Import ListNotations.
Open Scope R_scope.

Lemma Forall2_In_r {A B} (P : A -> B -> Prop) l l' b : Forall2 P l l' -> In b l' -> exists a, In a l /\ P a b.
Proof.
  intros H; induction H; intros Hin; [destruct Hin|]. destruct Hin as [E|Hin].
  - subst. exists x. split; auto. left; auto.
  - destruct (IHForall2 Hin) as (a & Ha & Pa). exists a. split; auto. right; auto.
Qed.
Lemma world_steps RB (H : body_steps RB) fuel o hd e heap bodies cons dt eps tol fd ps st w0 ops w :
  handler_frame hd -> world_init o hd heap bodies cons dt eps tol fd ps st = Ok w0 ->
  exec fuel o hd e ops w0 = Ok w -> Forall2 RB bodies (w_bodies w).
Proof.
  intros Hf H0 Hx. eapply Forall2_trans'; [exact H| |].
  - eapply world_init_bodies; eauto.
  - eapply exec_bodies; eauto.
Qed.
Lemma reachable_shape b : reachable_body b -> shape_ok b.
Proof.
  intros [Ha|fuel o hd e heap bodies cons dt eps tol fd ps st w0 ops w Hf Hb H0 Hx Hin].
  - now apply available_shape.
  - pose proof (world_steps _ shape_steps _ _ _ _ _ _ _ _ _ _ _ _ _ _ _ _ Hf H0 Hx) as F.
    destruct (Forall2_In_r _ _ _ _ F Hin) as (a & Ha & Hr & Hm). rewrite Forall_forall in Hb.
    apply (shape_ok_rigid a); auto; try apply Hm. apply available_shape; auto.
Qed.
Lemma reachable_geom b : reachable_body b -> geom_ok b.
Proof.
  intros [Ha|fuel o hd e heap bodies cons dt eps tol fd ps st w0 ops w Hf Hb H0 Hx Hin].
  - now apply available_geom.
  - pose proof (world_steps _ geom_steps _ _ _ _ _ _ _ _ _ _ _ _ _ _ _ _ Hf H0 Hx) as F.
    destruct (Forall2_In_r _ _ _ _ F Hin) as (a & Ha & Hr). rewrite Forall_forall in Hb.
    apply Hr. apply available_geom; auto.
Qed.
Lemma reachable_inertia_pos b : reachable_body b -> solid b -> 0 < b_mass b -> 0 < b_inertia b.
Proof.
  intros Hr Hs Hm. destruct (reachable_shape b Hr) as [Hi Hk]. rewrite Hi. unfold solid in Hs.
  destruct (b_kind b) as [r|vs l|d vs l]; cbn [kind_inertia].
  - unfold circle_inertia. rnum. assert (0 < b_mass b * r) by (apply Rmult_lt_0_compat; auto).
    assert (0 < b_mass b * r * r) by (apply Rmult_lt_0_compat; auto). lra.
  - apply hull_inertia_pos; auto. lra.
  - unfold rect_inertia. rnum. destruct Hs as [H1 H2].
    assert (0 < b_mass b * (fst d * fst d + snd d * snd d)) by (apply Rmult_lt_0_compat; nra). lra.
Qed.

(** second moment of a polygon star-shaped about its body origin *)
Lemma reachable_moment b J : reachable_body b -> (match b_kind b with KCircle _ => False | _ => True end) ->
  (forall p q, In (p, q) (edges (b_verts b)) -> 0 <= det2 p q) -> is_moment (b_verts b) J ->
  b_inertia b = b_mass b / area (b_verts b) * J.
Proof.
  intros Hr Hk Hs HJ. destruct (reachable_shape b Hr) as [Hi Hsh]. unfold b_verts in *.
  destruct (b_kind b) as [r|vs l|d vs l]; [tauto| |]; cbn [kind_inertia] in Hi.
  - rewrite Hi. apply hull_inertia_moment; auto. apply Hsh.
  - destruct Hsh as [Hd Hv]. rewrite Hi.
    assert (HA : area vs = fst d * snd d) by (rewrite Hv, area_rotate; apply corners_area).
    rewrite <- (hull_inertia_moment vs) by (auto; rewrite HA; auto).
    rewrite Hv, hull_inertia_rotate, corners_inertia by lra. unfold rect_inertia. reflexivity.
Qed.

Lemma reachable_centroid b : reachable_body b -> (match b_kind b with KCircle _ => False | _ => True end) ->
  (3 <= length (b_verts b))%nat /\ 0 < area (b_verts b) /\ is_centroid (b_verts b) (0, 0).
Proof.
  intros Hr Hk. destruct (reachable_shape b Hr) as [_ Hs]. unfold b_verts in *.
  destruct (b_kind b) as [r|vs l|d vs l]; [tauto|exact Hs|]. destruct Hs as [Hd ->]. split; [simpl; lia|].
  rewrite area_rotate, corners_area. split; auto.
  pose proof (is_centroid_rotate _ _ (b_rot b) (corners_centroid (fst d) (snd d))) as H.
  replace (rotate (b_rot b) (0, 0)) with (0, 0) in H by (unfold rotate; v2eq). exact H.
Qed.
Lemma Forall2_len {A B} (P : A -> B -> Prop) l l' : Forall2 P l l' -> length l = length l'.
Proof. intros H; induction H; simpl; congruence. Qed.
