(** Recorder, breakout codec, polar coordinates *)
From Coq Require Import List Arith ZArith Lia Bool Reals Lra.
From Verif Require Import Num Tensor Utils Breakout ResFacts RBase.
Import ListNotations.

(** ** Recorder *)
Section RecorderAny.
Context {T : Type} {N : Num T}.

Lemma rec_record_files (r : recorder T) t :
  rec_files r = seq 0 (rec_frame r) ->
  rec_files (rec_record r t) = seq 0 (rec_frame (rec_record r t)).
Proof.
  unfold rec_record. intros H. destruct (nleb _ _); [|exact H]. cbn [rec_files rec_frame].
  rewrite H, seq_S. reflexivity.
Qed.

Lemma rec_run_files (ts : list T) (r : recorder T) :
  rec_files r = seq 0 (rec_frame r) ->
  rec_files (fold_left rec_record ts r) = seq 0 (rec_frame (fold_left rec_record ts r)).
Proof. revert r; induction ts; intros r H; simpl; auto. apply IHts, rec_record_files, H. Qed.

Lemma rec_record_grows (r : recorder T) t :
  (rec_frame r <= rec_frame (rec_record r t) <= S (rec_frame r))%nat.
Proof. unfold rec_record. destruct (nleb _ _); simpl; lia. Qed.
End RecorderAny.

Local Open Scope R_scope.

Lemma rec_record_R (r : recorder R) t :
  (rec_dt r <= t - rec_prev_t r /\
   rec_record r t = mkRec (rec_dt r) (rec_prev_t r + rec_dt r) (S (rec_frame r)) (rec_files r ++ [rec_frame r]))
  \/ (t - rec_prev_t r < rec_dt r /\ rec_record r t = r).
Proof.
  unfold rec_record. rnum. destruct (Rleb_spec (rec_dt r) (t - rec_prev_t r)); [left|right]; auto.
Qed.

Definition rec_inv (dt : R) (r : recorder R) : Prop :=
  rec_dt r = dt /\ rec_prev_t r = INR (rec_frame r) * dt.

Lemma rec_record_inv dt r t : rec_inv dt r -> rec_inv dt (rec_record r t).
Proof.
  intros [H1 H2]. destruct (rec_record_R r t) as [[_ E]|[_ E]]; rewrite E; split; auto.
  cbn [rec_prev_t rec_frame]. rewrite S_INR, H2, H1. ring.
Qed.
Lemma rec_run_inv dt ts r : rec_inv dt r -> rec_inv dt (fold_left rec_record ts r).
Proof. revert r; induction ts; intros r H; simpl; auto. apply IHts, rec_record_inv, H. Qed.
Lemma rec_init_inv dt : rec_inv dt (rec_init dt).
Proof. split; [reflexivity|]. unfold rec_init; cbn [rec_prev_t rec_frame]. rnum. simpl. ring. Qed.

(** never ahead of the clock *)
Lemma rec_run_bound dt ts r tmax :
  rec_inv dt r -> INR (rec_frame r) * dt <= tmax ->
  Forall (fun t => t <= tmax) ts ->
  INR (rec_frame (fold_left rec_record ts r)) * dt <= tmax.
Proof.
  revert r; induction ts as [|t ts IH]; intros r Hi Hb Hf; simpl; auto.
  inversion Hf; subst. apply IH; auto.
  - apply rec_record_inv; auto.
  - destruct Hi as [H3 H4]. destruct (rec_record_R r t) as [[Hc E]|[_ E]]; rewrite E; auto.
    cbn [rec_frame]. rewrite S_INR. rewrite H3, H4 in Hc. lra.
Qed.

(** consecutive times at most [dt] apart, starting from [prev] *)
Fixpoint gaps_le (dt prev : R) (ts : list R) : Prop :=
  match ts with
  | [] => True
  | t :: ts' => t - prev <= dt /\ gaps_le dt t ts'
  end.

Lemma rec_run_keeps_up dt ts r prev :
  rec_inv dt r -> prev - rec_prev_t r < dt -> gaps_le dt prev ts ->
  last ts prev - rec_prev_t (fold_left rec_record ts r) < dt.
Proof.
  revert r prev; induction ts as [|t ts IH]; intros r prev Hi Hp Hg; [simpl; auto|].
  destruct Hg as [Hg1 Hg2].
  assert (Hl : last (t :: ts) prev = last ts t).
  { clear. revert t prev; induction ts as [|u ts IH]; intros t prev; [reflexivity|].
    change (last (t :: u :: ts) prev) with (last (u :: ts) prev). now rewrite !IH. }
  rewrite Hl. simpl fold_left. apply IH; auto.
  - apply rec_record_inv; auto.
  - destruct Hi as [H3 H4]. destruct (rec_record_R r t) as [[Hc E]|[Hc E]]; rewrite E.
    + cbn [rec_prev_t]. rewrite H3. lra.
    + lra.
Qed.

(** ** breakout codec *)
Section Codec.
Context {T : Type} {N : Num T}.
Local Open Scope nat_scope.

Definition rect_ok (r : rect_params (T := T)) : Prop := length (fst r) = 2 /\ length (snd r) = 2.

Lemma slice_app_l {A} (a b : list A) n : length a = n -> slice (a ++ b) 0 n = a.
Proof. intros <-. unfold slice. rewrite Nat.sub_0_r. simpl. rewrite firstn_app, Nat.sub_diag, firstn_all; simpl; apply app_nil_r. Qed.
Lemma slice_skip {A} (a b : list A) n i j : length a = n -> n <= i -> slice (a ++ b) i j = slice b (i - n) (j - n).
Proof.
  intros <- Hi. unfold slice. rewrite skipn_app, skipn_all2 by lia. simpl. f_equal. lia.
Qed.

Definition block_vec (blocks : list (rect_params (T := T))) : vec T := flat_map (fun b => fst b ++ snd b) blocks.

Lemma block_vec_length blocks : Forall rect_ok blocks -> length (block_vec blocks) = 4 * length blocks.
Proof.
  induction 1 as [|[p d] l [H1 H2] Hl IH]; [reflexivity|]. simpl in *.
  rewrite !app_length, IH. lia.
Qed.

Lemma blocks_decode blocks (pre rest : vec T) m :
  Forall rect_ok blocks -> length pre = 4 + 4 * m ->
  map (fun i => (slice (pre ++ block_vec blocks ++ rest) i (i + 2),
                 slice (pre ++ block_vec blocks ++ rest) (i + 2) (i + 4)))
      (map (fun k => 4 + 4 * k) (seq m (length blocks))) = blocks.
Proof.
  intros Hf. revert pre m; induction Hf as [|[p d] l [H1 H2] Hl IH]; intros pre m Hp; [reflexivity|].
  simpl seq. cbn [map length]. f_equal.
  - simpl in H1, H2. cbn [block_vec flat_map fst snd].
    rewrite !(slice_skip pre _ _ _ _ Hp) by lia.
    replace (4 + 4 * m - (4 + 4 * m)) with 0 by lia.
    replace (4 + 4 * m + 2 - (4 + 4 * m)) with 2 by lia.
    replace (4 + 4 * m + 4 - (4 + 4 * m)) with 4 by lia.
    f_equal.
    + rewrite <- !app_assoc. apply slice_app_l; auto.
    + rewrite <- !app_assoc. rewrite (slice_skip p _ 2) by lia. apply slice_app_l; auto.
  - cbn [block_vec flat_map fst snd].
    specialize (IH (pre ++ p ++ d) (S m)).
    rewrite <- !app_assoc in IH. rewrite <- !app_assoc. apply IH.
    simpl in H1, H2. rewrite !app_length. lia.
Qed.

Lemma codec_round_trip paddle blocks (ball : ball_params (T := T)) :
  rect_ok paddle -> Forall rect_ok blocks -> blocks <> [] -> length (fst ball) = 2 ->
  from_vector (to_vector paddle blocks ball) = (paddle, blocks, ball).
Proof.
  intros [Hp1 Hp2] Hb Hne Hl.
  assert (E : to_vector paddle blocks ball
              = (fst paddle ++ snd paddle) ++ block_vec blocks ++ (fst ball ++ [snd ball])).
  { unfold to_vector. destruct blocks; [congruence|reflexivity]. }
  rewrite E. unfold from_vector. cbv zeta.
  assert (Hn : length ((fst paddle ++ snd paddle) ++ block_vec blocks ++ (fst ball ++ [snd ball]))
               = 7 + 4 * length blocks).
  { rewrite !app_length, block_vec_length by auto. simpl. lia. }
  rewrite Hn.
  replace ((7 + 4 * length blocks - 3 - 4 + 3) / 4) with (length blocks).
  2:{ replace (7 + 4 * length blocks - 3 - 4 + 3) with (3 + length blocks * 4) by lia.
      rewrite Nat.div_add by lia. reflexivity. }
  rewrite blocks_decode; auto.
  2:{ rewrite app_length; lia. }
  f_equal; [f_equal|].
  - rewrite <- !app_assoc. destruct paddle as [p d]; simpl fst in *; simpl snd in *. f_equal.
    + apply slice_app_l; auto.
    + rewrite (slice_skip p _ 2) by lia. apply slice_app_l; auto.
  - assert (Q : length ((fst paddle ++ snd paddle) ++ block_vec blocks) = 4 + 4 * length blocks)
      by (rewrite !app_length, block_vec_length by auto; lia).
    rewrite app_assoc. destruct ball as [bp br]; simpl fst in *; simpl snd in *. f_equal.
    + rewrite (slice_skip _ _ _ _ _ Q) by lia.
      replace (7 + 4 * length blocks - 3 - (4 + 4 * length blocks)) with 0 by lia.
      replace (7 + 4 * length blocks - 1 - (4 + 4 * length blocks)) with 2 by lia.
      apply slice_app_l; auto.
    + rewrite app_nth2 by lia. rewrite Q.
      replace (7 + 4 * length blocks - 1 - (4 + 4 * length blocks)) with 2 by lia.
      rewrite app_nth2 by lia. rewrite Hl. reflexivity.
Qed.

Lemma codec_no_blocks paddle (ball : ball_params (T := T)) :
  rect_ok paddle -> length (fst ball) = 2 ->
  from_vector (to_vector paddle [] ball)
  = (paddle, [([nofZ 1000; nofZ 60], [nofZ 1; nofZ 1])], ball).
Proof.
  intros Hp Hl.
  rewrite <- (codec_round_trip paddle [([nofZ 1000; nofZ 60], [nofZ 1; nofZ 1])] ball); auto.
  - constructor; [split; reflexivity|constructor].
  - discriminate.
Qed.
End Codec.

(** ** polar coordinates *)
Lemma Ratan2_pos_scale x y : 0 < x -> sqrt (x * x + y * y) = x * sqrt (1 + (y / x)²).
Proof.
  intros Hx. rewrite <- (sqrt_square x) at 3 by lra.
  rewrite <- sqrt_mult.
  - f_equal. unfold Rsqr. field. lra.
  - nra.
  - pose proof (Rle_0_sqr (y / x)). lra.
Qed.
Lemma sqrt_1_sq_pos u : 0 < sqrt (1 + u²).
Proof. apply sqrt_lt_R0. pose proof (Rle_0_sqr u). lra. Qed.

Lemma Ratan2_cos x y : cos (Ratan2 y x) * sqrt (x * x + y * y) = x.
Proof.
  unfold Ratan2. destruct (Rlt_dec 0 x) as [Hx|Hx]; [|destruct (Rlt_dec x 0) as [Hx'|Hx']].
  - rewrite Ratan2_pos_scale, cos_atan by auto. pose proof (sqrt_1_sq_pos (y / x)). field. lra.
  - assert (E : sqrt (x * x + y * y) = - x * sqrt (1 + (y / x)²)).
    { replace (x * x + y * y) with ((- x) * (- x) + (- y) * (- y)) by ring.
      rewrite Ratan2_pos_scale by lra. replace (- y / - x) with (y / x) by (field; lra). reflexivity. }
    rewrite E. pose proof (sqrt_1_sq_pos (y / x)).
    destruct (Rle_dec 0 y).
    + rewrite neg_cos, cos_atan. field. lra.
    + unfold Rminus. replace (atan (y / x) + - PI) with (- (PI - atan (y / x))) by ring.
      rewrite cos_neg. replace (PI - atan (y / x)) with (- atan (y / x) + PI) by ring.
      rewrite neg_cos, cos_neg, cos_atan. field. lra.
  - assert (x = 0) by lra. subst. destruct (Rlt_dec 0 y); [rewrite cos_PI2; ring|].
    destruct (Rlt_dec y 0); [rewrite cos_neg, cos_PI2; ring|].
    assert (y = 0) by lra. subst. replace (0 * 0 + 0 * 0) with 0 by ring. rewrite sqrt_0. ring.
Qed.

Lemma Ratan2_sin x y : sin (Ratan2 y x) * sqrt (x * x + y * y) = y.
Proof.
  unfold Ratan2. destruct (Rlt_dec 0 x) as [Hx|Hx]; [|destruct (Rlt_dec x 0) as [Hx'|Hx']].
  - rewrite Ratan2_pos_scale, sin_atan by auto. pose proof (sqrt_1_sq_pos (y / x)). field. lra.
  - assert (E : sqrt (x * x + y * y) = - x * sqrt (1 + (y / x)²)).
    { replace (x * x + y * y) with ((- x) * (- x) + (- y) * (- y)) by ring.
      rewrite Ratan2_pos_scale by lra. replace (- y / - x) with (y / x) by (field; lra). reflexivity. }
    rewrite E. pose proof (sqrt_1_sq_pos (y / x)).
    destruct (Rle_dec 0 y).
    + rewrite neg_sin, sin_atan. field. lra.
    + unfold Rminus. replace (atan (y / x) + - PI) with (- (PI - atan (y / x))) by ring.
      rewrite sin_neg. replace (PI - atan (y / x)) with (- atan (y / x) + PI) by ring.
      rewrite neg_sin, sin_neg, sin_atan. field. lra.
  - assert (x = 0) by lra. subst. destruct (Rlt_dec 0 y).
    { rewrite sin_PI2. replace (0 * 0 + y * y) with (y * y) by ring. rewrite sqrt_square by lra. ring. }
    destruct (Rlt_dec y 0).
    { rewrite sin_neg, sin_PI2. replace (0 * 0 + y * y) with ((- y) * (- y)) by ring.
      rewrite sqrt_square by lra. ring. }
    assert (y = 0) by lra. subst. rewrite sin_0. ring.
Qed.

Lemma Ratan2_bound x y : - PI < Ratan2 y x <= PI.
Proof.
  pose proof PI_RGT_0. unfold Ratan2.
  pose proof (atan_bound (y / x)) as [Ha Hb].
  destruct (Rlt_dec 0 x); [lra|]. destruct (Rlt_dec x 0) as [Hx|Hx].
  - destruct (Rle_dec 0 y).
    + split; [lra|]. assert (y / x <= 0).
      { unfold Rdiv. assert (/ x < 0) by now apply Rinv_lt_0_compat. nra. }
      assert (atan (y / x) <= 0); [|lra].
      destruct (Req_dec (y / x) 0) as [E|]; [rewrite E, atan_0; lra|].
      rewrite <- atan_0. left. apply atan_increasing. lra.
    + split; [|lra]. assert (0 < y / x).
      { unfold Rdiv. assert (/ x < 0) by now apply Rinv_lt_0_compat. nra. }
      assert (0 < atan (y / x)); [|lra]. rewrite <- atan_0. now apply atan_increasing.
  - destruct (Rlt_dec 0 y); [lra|]. destruct (Rlt_dec y 0); lra.
Qed.

Lemma polar_round_trip (c : v2 R) :
  let '(r, theta) := cart_to_polar c in
  polar_to_cart r theta = c /\ r = sqrt (fst c ^ 2 + snd c ^ 2) /\ 0 <= theta < 2 * PI.
Proof.
  destruct c as [x y]. unfold cart_to_polar, polar_to_cart, v2norm, v2dot. rnum. change (Rcst C_pi) with PI. simpl fst; simpl snd.
  pose proof (Ratan2_cos x y) as Hc. pose proof (Ratan2_sin x y) as Hs.
  pose proof (Ratan2_bound x y) as Hb. pose proof PI_RGT_0.
  assert (E : sqrt (x * x + y * y) = sqrt (x * (x * 1) + y * (y * 1))) by (f_equal; ring).
  destruct (Rltb_spec (Ratan2 y x) 0).
  - split; [|split; [exact E|lra]]. f_equal.
    + rewrite cos_plus, cos_2PI, sin_2PI, Rmult_1_r, Rmult_0_r, Rminus_0_r. exact Hc.
    + rewrite sin_plus, cos_2PI, sin_2PI, Rmult_1_r, Rmult_0_r, Rplus_0_r. exact Hs.
  - split; [|split; [exact E|lra]]. now rewrite Hc, Hs.
Qed.

(** the angle is the only one in its range that names the point *)
Lemma polar_unique (r th1 th2 : R) :
  0 < r -> 0 <= th1 < 2 * PI -> 0 <= th2 < 2 * PI ->
  polar_to_cart r th1 = polar_to_cart r th2 -> th1 = th2.
Proof.
  intros Hr H1 H2 E. unfold polar_to_cart in E. rnum. inversion E as [[Ec Es]].
  apply Rmult_eq_reg_r in Ec; [|lra]. apply Rmult_eq_reg_r in Es; [|lra].
  assert (S0 : sin (th1 - th2) = 0) by (rewrite sin_minus, Ec, Es; ring).
  assert (C1 : cos (th1 - th2) = 1).
  { rewrite cos_minus, Ec, Es. pose proof (sin2_cos2 th2) as Q. unfold Rsqr in Q. lra. }
  (* cos d = 1 with |d| < 2 pi *)
  set (d := th1 - th2) in *.
  assert (Hd : - (2 * PI) < d < 2 * PI) by (unfold d; lra).
  assert (Hh : sin (d / 2) = 0).
  { pose proof (cos_2a_sin (d / 2)) as Q. replace (2 * (d / 2)) with d in Q by field.
    rewrite C1 in Q. nra. }
  destruct (Rtotal_order d 0) as [L|[L|L]].
  - exfalso. assert (0 < sin (- (d / 2))) by (apply sin_gt_0; lra). rewrite sin_neg in H. lra.
  - unfold d in L. lra.
  - exfalso. assert (0 < sin (d / 2)) by (apply sin_gt_0; lra). lra.
Qed.

Lemma polar_inverse (r theta : R) :
  0 < r -> 0 <= theta < 2 * PI -> cart_to_polar (polar_to_cart r theta) = (r, theta).
Proof.
  intros Hr Ht. destruct (cart_to_polar (polar_to_cart r theta)) as [r' th'] eqn:E.
  pose proof (polar_round_trip (polar_to_cart r theta)) as P. rewrite E in P.
  destruct P as (P1 & P2 & P3).
  assert (r' = r).
  { rewrite P2. unfold polar_to_cart. rnum. cbn [fst snd].
    replace ((cos theta * r) ^ 2 + (sin theta * r) ^ 2) with (r * r * (sin theta ^ 2 + cos theta ^ 2)) by ring.
    pose proof (sin2_cos2 theta) as Q. unfold Rsqr in Q.
    replace (sin theta ^ 2 + cos theta ^ 2) with 1 by (rewrite <- Q; ring).
    rewrite Rmult_1_r. apply sqrt_square. lra. }
  clear P2. subst r'. f_equal. apply (polar_unique r); auto.
Qed.

Lemma rec_one_frame {T} {N : Num T} (dt : T) ts t :
  let r := fold_left rec_record ts (rec_init dt) in
  let r' := rec_record r t in
  rec_files r' = rec_files r \/ rec_files r' = rec_files r ++ [length (rec_files r)].
Proof.
  intros r r'. assert (E : rec_files r = seq 0 (rec_frame r)) by (apply rec_run_files; reflexivity).
  unfold r', rec_record. destruct (nleb _ _); [right|left; reflexivity].
  cbn [rec_files]. rewrite E at 3. now rewrite seq_length.
Qed.

Lemma rec_not_ahead (dt tmax : R) ts :
  0 <= tmax -> Forall (fun t => t <= tmax) ts ->
  INR (length (rec_files (fold_left rec_record ts (rec_init dt)))) * dt <= tmax.
Proof.
  intros H0 Hf. rewrite (rec_run_files ts (rec_init dt)) by reflexivity. rewrite seq_length.
  apply rec_run_bound; auto; [apply rec_init_inv|]. simpl. lra.
Qed.

Lemma rec_keeps_up (dt : R) ts :
  0 < dt -> gaps_le dt 0 ts ->
  last ts 0 < (INR (length (rec_files (fold_left rec_record ts (rec_init dt)))) + 1) * dt.
Proof.
  intros Hdt Hg. rewrite (rec_run_files ts (rec_init dt)) by reflexivity. rewrite seq_length.
  pose proof (rec_run_inv dt ts _ (rec_init_inv dt)) as [_ E].
  pose proof (rec_run_keeps_up dt ts (rec_init dt) 0 (rec_init_inv dt)) as K.
  rewrite E in K. apply Rlt_le_trans with (INR (rec_frame (fold_left rec_record ts (rec_init dt))) * dt + dt); [|lra].
  specialize (K ltac:(unfold rec_init; cbn [rec_prev_t]; rnum; lra) Hg). lra.
Qed.
