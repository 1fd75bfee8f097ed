(** Joint drift, for simulations (C61) *)
From Coq Require Import List Arith ZArith Bool Reals Lra Lia Psatz.
From Verif Require Import Num Tensor Utils Bodies Forces Constraints Contacts World Lapack Pdipm Lcp Engines Spec GeoSpec JointSpec EngineSpec DriftSpec
     RBase ResFacts LinAlg LapackSpec WorldFacts HandlerFacts LayoutFacts HistFacts JointFacts JeFacts CacheFacts GeomFacts EngineFacts EngineProps DriftFacts.
Import ListNotations.
Open Scope R_scope.

Lemma material_trans c b b' p : material b b' (material c b p) = material c b' p.
Proof.
  unfold material. apply f_equal. unfold rotate. destruct (v2sub p (b_pos c)) as [x y]. unfold v2add, v2sub. cbn [fst snd]. rnum.
  replace (b_rot b' - b_rot c) with ((b_rot b' - b_rot b) + (b_rot b - b_rot c)) by ring. rewrite cos_plus, sin_plus. apply f_equal2; ring.
Qed.
Lemma material_radius c b p : dist (material c b p) (b_pos b) = dist p (b_pos c).
Proof.
  rewrite !dist_len. unfold material. rewrite <- (len_rotate (b_rot b - b_rot c) (v2sub p (b_pos c))). f_equal. unfold v2sub, v2add. cbn [fst snd]. destruct (rotate _ _). cbn. rnum. apply f_equal2; ring.
Qed.
Lemma v2_shift (a b d : v2 R) : a = v2add b d -> v2sub a b = d.
Proof. intros ->. destruct b, d. unfold v2sub, v2add. cbn. rnum. apply f_equal2; ring. Qed.
Lemma dist_sym a b : dist a b = dist b a.
Proof. unfold dist. f_equal. ring. Qed.
Lemma dist_tri a b c : dist a c <= dist a b + dist b c.
Proof. rewrite !dist_len. replace (v2sub a c) with (v2add (v2sub a b) (v2sub b c)); [apply len_triangle|]. unfold v2sub, v2add. cbn. rnum. apply f_equal2; ring. Qed.

Section Session.
Variables (la : lapack R) (mi : nat) (o : oracle R) (hd : handler R) (bs : list (body R)) (js : list (joint R)).
Hypothesis HL : lapack_ok la.
Notation eng := (pdipm_engine la mi).

Lemma session_pin fuel w dt w' c1 pos i b b' : session la mi o hd bs js w -> w_post_stab w = false -> In (joint_init c1 None pos) js -> nth_error bs i = Some c1 ->
  step_dt fuel o hd eng w dt = Ok w' -> nth_error (w_bodies w) i = Some b -> nth_error (w_bodies w') i = Some b' ->
  material c1 b' pos = v2add (material c1 b pos) (arc_error (turn b b') (v2sub (material c1 b pos) (b_pos b))) /\
  dist (material c1 b' pos) (material c1 b pos) <= dist pos (b_pos c1) * (turn b b' * turn b b' / 2).
Proof.
  intros Hs HP Hin Hc H Hb Hb'. destruct (session_facts _ _ _ _ _ _ _ Hs) as (Hf & Hr & Ho & Hg & J0 & S & V).
  pose proof (pin_step la mi fuel o hd bs js J0 HL Hf Hr Ho w dt w' c1 pos i b b' S V Hg HP H Hin Hc Hb Hb') as E. split; [exact E|].
  rewrite dist_len, (v2_shift _ _ _ E). rewrite <- (material_radius c1 b pos), (dist_len (material c1 b pos)). apply arc_error_len.
Qed.
Lemma session_hinge fuel w dt w' c1 c2 pos i1 i2 b1 b2 b1' b2' : session la mi o hd bs js w -> w_post_stab w = false -> In (joint_init c1 (Some c2) pos) js -> nth_error bs i1 = Some c1 -> nth_error bs i2 = Some c2 ->
  step_dt fuel o hd eng w dt = Ok w' -> nth_error (w_bodies w) i1 = Some b1 -> nth_error (w_bodies w') i1 = Some b1' -> nth_error (w_bodies w) i2 = Some b2 -> nth_error (w_bodies w') i2 = Some b2' ->
  let a := material c1 b1 pos in
  material b1 b1' a = v2add (material b2 b2' a) (v2sub (arc_error (turn b1 b1') (v2sub a (b_pos b1))) (arc_error (turn b2 b2') (v2sub a (b_pos b2)))) /\
  dist (material b1 b1' a) (material b2 b2' a) <= dist a (b_pos b1) * (turn b1 b1' * turn b1 b1' / 2) + dist a (b_pos b2) * (turn b2 b2' * turn b2 b2' / 2).
Proof.
  intros Hs HP Hin Hc1 Hc2 H Hb1 Hb1' Hb2 Hb2' a. destruct (session_facts _ _ _ _ _ _ _ Hs) as (Hf & Hr & Ho & Hg & J0 & S & V).
  pose proof (hinge_step la mi fuel o hd bs js J0 HL Hf Hr Ho w dt w' c1 c2 pos i1 i2 b1 b2 b1' b2' S V Hg HP H Hin Hc1 Hc2 Hb1 Hb1' Hb2 Hb2') as E. fold a in E.
  assert (Q : material b1 b1' a = v2add (material b2 b2' a) (v2sub (arc_error (turn b1 b1') (v2sub a (b_pos b1))) (arc_error (turn b2 b2') (v2sub a (b_pos b2))))).
  { unfold a at 1. rewrite material_trans. unfold turn in *. set (t1 := arc_error (b_rot b1' - b_rot b1) _) in *. unfold material at 2. unfold arc_error. set (t2 := along_tangent _ _) in *. set (r2 := rotate _ _).
    clearbody t1 t2 r2. destruct (material c1 b1' pos) as [m1 m2], t1 as [x1 y1], t2 as [x2 y2], r2 as [x3 y3], (b_pos b2') as [p q]. unfold v2add, v2sub in *. cbn [fst snd] in *. revert E. rnum. intros E. injection E as E1 E2. apply f_equal2; lra. }
  split; [exact Q|]. rewrite dist_len, (v2_shift _ _ _ Q).
  assert (Z : forall p q : v2 R, len (v2sub p q) <= len p + len q).
  { intros p q. replace (v2sub p q) with (v2add p (v2opp q)) by (unfold v2add, v2sub, v2opp; rnum; reflexivity). eapply Rle_trans; [apply len_triangle|].
    assert (O : len (v2opp q) = len q); [|rewrite O; lra]. unfold len, dist, v2opp. cbn [fst snd]. rnum. f_equal. ring. }
  eapply Rle_trans; [apply Z|]. rewrite !dist_len. apply Rplus_le_compat; apply arc_error_len.
Qed.
Lemma session_fixed fuel w dt w' c1 c2 i1 i2 b1 b2 b1' b2' : session la mi o hd bs js w -> w_post_stab w = false -> In (fixed_init c1 c2) js -> nth_error bs i1 = Some c1 -> nth_error bs i2 = Some c2 ->
  step_dt fuel o hd eng w dt = Ok w' -> nth_error (w_bodies w) i1 = Some b1 -> nth_error (w_bodies w') i1 = Some b1' -> nth_error (w_bodies w) i2 = Some b2 -> nth_error (w_bodies w') i2 = Some b2' ->
  turn b1 b1' = turn b2 b2' /\ v2sub (b_pos b1') (b_pos b2') = along_tangent (turn b2 b2') (v2sub (b_pos b1) (b_pos b2)) /\
  dist (b_pos b1') (b_pos b2') = sqrt (1 + turn b2 b2' * turn b2 b2') * dist (b_pos b1) (b_pos b2).
Proof.
  intros Hs HP Hin Hc1 Hc2 H Hb1 Hb1' Hb2 Hb2'. destruct (session_facts _ _ _ _ _ _ _ Hs) as (Hf & Hr & Ho & Hg & J0 & S & V).
  destruct (fixed_step la mi fuel o hd bs js J0 HL Hf Hr Ho w dt w' c1 c2 i1 i2 b1 b2 b1' b2' S V Hg HP H Hin Hc1 Hc2 Hb1 Hb1' Hb2 Hb2') as [E1 E2].
  split; [exact E1|]. split; [exact E2|]. rewrite !dist_len, E2. apply len_tangent.
Qed.
Lemma session_fixed_angle fuel ops w w' c1 c2 i1 i2 b1 b2 b1' b2' : session la mi o hd bs js w -> In (fixed_init c1 c2) js -> nth_error bs i1 = Some c1 -> nth_error bs i2 = Some c2 ->
  exec fuel o hd eng ops w = Ok w' -> nth_error (w_bodies w) i1 = Some b1 -> nth_error (w_bodies w') i1 = Some b1' -> nth_error (w_bodies w) i2 = Some b2 -> nth_error (w_bodies w') i2 = Some b2' ->
  b_rot b1' - b_rot b2' = b_rot b1 - b_rot b2.
Proof.
  intros Hs Hin Hc1 Hc2 H. destruct (session_facts _ _ _ _ _ _ _ Hs) as (Hf & Hr & Ho & Hg & J0 & S & V).
  apply (fixed_angle_history la mi fuel o hd bs js J0 HL Hf Hr Ho ops w w' c1 c2); auto. split; auto.
Qed.
Lemma session_fixed_distance fuel ops w w' c1 c2 i1 i2 b1 b2 b1' b2' : session la mi o hd bs js w -> w_post_stab w = false -> In (fixed_init c1 c2) js -> nth_error bs i1 = Some c1 -> nth_error bs i2 = Some c2 ->
  exec fuel o hd eng ops w = Ok w' -> nth_error (w_bodies w) i1 = Some b1 -> nth_error (w_bodies w') i1 = Some b1' -> nth_error (w_bodies w) i2 = Some b2 -> nth_error (w_bodies w') i2 = Some b2' ->
  dist (b_pos b1) (b_pos b2) <= dist (b_pos b1') (b_pos b2').
Proof.
  intros Hs HP Hin Hc1 Hc2 H. destruct (session_facts _ _ _ _ _ _ _ Hs) as (Hf & Hr & Ho & Hg & J0 & S & V).
  apply (fixed_distance_history la mi fuel o hd bs js J0 HL Hf Hr Ho ops w w' c1 c2); auto. split; auto.
Qed.
Lemma pin_trail fuel c1 pos i J0 w ths w' : swings fuel o hd eng i w ths w' -> handler_frame hd -> handler_respects hd -> broadphase_sane o ->
  In (joint_init c1 None pos) js -> nth_error bs i = Some c1 -> fine la bs js J0 w -> w_post_stab w = false -> forall b b',
  nth_error (w_bodies w) i = Some b -> nth_error (w_bodies w') i = Some b' ->
  dist (material c1 b' pos) (material c1 b pos) <= dist pos (b_pos c1) * (Rsum (map (fun th => th * th) ths) / 2).
Proof.
  intros HW Hf Hr Ho Hin Hc. induction HW as [w|w dt w1 d d1 ths w' H Hd Hd1 HW IH]; intros F HP b b' Hb Hb'.
  - rewrite Hb in Hb'. injection Hb' as <-. unfold dist, Rsum. cbn. replace (_ + _) with 0 by ring. rewrite sqrt_0. lra.
  - rewrite Hb in Hd. injection Hd as <-. pose proof (fine_step la mi fuel o hd bs js J0 Hf Hr Ho w dt w1 F H) as F1. pose proof (step_dt_cfg _ _ _ _ _ _ _ H) as C. apply cfg_fields in C. destruct C as (_ & _ & _ & _ & _ & C & _).
    destruct F as (S & V & Hg). pose proof (pin_step la mi fuel o hd bs js J0 HL Hf Hr Ho w dt w1 c1 pos i b d1 S V Hg HP H Hin Hc Hb Hd1) as E.
    specialize (IH F1 ltac:(congruence) d1 b' Hd1 Hb'). pose proof (dist_tri (material c1 b' pos) (material c1 d1 pos) (material c1 b pos)) as T.
    assert (B : dist (material c1 d1 pos) (material c1 b pos) <= dist pos (b_pos c1) * (turn b d1 * turn b d1 / 2)). { rewrite dist_len, (v2_shift _ _ _ E). rewrite <- (material_radius c1 b pos), (dist_len (material c1 b pos)). apply arc_error_len. }
    unfold Rsum in *. cbn [map fold_right]. lra.
Qed.
Lemma session_pin_history fuel c1 pos i w ths w' b b' : session la mi o hd bs js w -> w_post_stab w = false -> In (joint_init c1 None pos) js -> nth_error bs i = Some c1 ->
  swings fuel o hd eng i w ths w' -> nth_error (w_bodies w) i = Some b -> nth_error (w_bodies w') i = Some b' ->
  dist (material c1 b' pos) (material c1 b pos) <= dist pos (b_pos c1) * (Rsum (map (fun th => th * th) ths) / 2).
Proof.
  intros Hs HP Hin Hc HW. destruct (session_facts _ _ _ _ _ _ _ Hs) as (Hf & Hr & Ho & Hg & J0 & S & V).
  apply (pin_trail fuel c1 pos i J0 w ths w'); auto. split; auto.
Qed.
End Session.
