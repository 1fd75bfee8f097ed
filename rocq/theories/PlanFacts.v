(** The planner's cost matrices *)
From Coq Require Import List Arith ZArith Bool Reals Lra Lia.
From Verif Require Import Num Tensor Utils Bodies Contacts World Breakout Game Plan ScreenSpec GeoSpec GameSpec PlanSpec
     RBase ResFacts LinAlg GameState.
Import ListNotations.
Open Scope R_scope.

Lemma dot_upd (r x : vecR) j a : (j < length r)%nat -> (j < length x)%nat -> dot (upd r j a) x = dot r x + (a - vget r j) * vget x j.
Proof.
  revert x j. induction r as [|b r IH]; intros [|c x] [|j] H1 H2; cbn [length] in *; try lia; cbn [upd].
  - rewrite !dot_cons. unfold vget. cbn [nth]. ring.
  - rewrite !dot_cons, IH by lia. unfold vget. cbn [nth]. ring.
Qed.
Lemma Forall_upd {A} (P : A -> Prop) l i a : Forall P l -> P a -> Forall P (upd l i a).
Proof. intros H Ha. revert i. induction H as [|b l Hb H IH]; intros [|i]; cbn [upd]; constructor; auto. Qed.
Lemma map_upd {A B} (f : A -> B) l i a : map f (upd l i a) = upd (map f l) i (f a).
Proof. revert i. induction l as [|b l IH]; intros [|i]; cbn [upd map]; congruence. Qed.
Section Put.
Variables (n : nat) (Q : matR) (i j : nat) (a : R).
Hypothesis W : wf n n Q.
Hypothesis Hi : (i < n)%nat.
Hypothesis Hj : (j < n)%nat.
Lemma wf_put : wf n n (put Q i j a).
Proof.
  pose proof (wf_row _ _ _ i W Hi) as Hr. destruct W as [L F]. unfold put. split; [rewrite upd_length; exact L|]. apply Forall_upd; [exact F|]. rewrite upd_length. exact Hr.
Qed.
Lemma mget_put k l : mget (put Q i j a) k l = if (Nat.eqb k i && Nat.eqb l j)%bool then a else mget Q k l.
Proof.
  pose proof (wf_row _ _ _ i W Hi) as Hr. pose proof (wf_length _ _ _ W) as L. unfold mget, put, vget. rewrite nth_upd, L. destruct (Nat.eqb_spec i k) as [<-|H].
  - destruct (Nat.ltb_spec i n); [|lia]. rewrite Nat.eqb_refl. cbn [andb]. rewrite nth_upd, Hr. destruct (Nat.eqb_spec j l) as [<-|H1].
    + destruct (Nat.ltb_spec j n); [|lia]. now rewrite Nat.eqb_refl.
    + destruct (Nat.eqb_spec l j); [congruence|reflexivity].
  - destruct (Nat.eqb_spec k i); [congruence|reflexivity].
Qed.
Lemma quad_put (t : vecR) : length t = n -> quad (put Q i j a) t = quad Q t + vget t i * vget t j * (a - mget Q i j).
Proof.
  intros Lt. pose proof (wf_row _ _ _ i W Hi) as Hr. pose proof (wf_length _ _ _ W) as L. unfold quad, put, mv. rewrite map_upd. rewrite (dot_comm t), (dot_upd (map (fun r : vec R => dot r t) Q)); [|rewrite map_length; change (i < length Q)%nat; rewrite L; exact Hi|rewrite Lt; exact Hi].
  rewrite (dot_upd (nth i Q [])); [|rewrite Hr; exact Hj|rewrite Lt; exact Hj]. change (map (fun r : vec R => dot r t) Q) with (mv Q t). rewrite vget_mv by (rewrite L; exact Hi). rewrite (dot_comm (mv Q t)). unfold mget. ring.
Qed.
End Put.

Lemma vmul_cons (a b : R) (x y : vecR) : vmul (a :: x) (b :: y) = a * b :: vmul x y.
Proof. reflexivity. Qed.
Lemma quad_diag (d t : vecR) : length t = length d -> quad (mdiag d) t = dot d (vmul t t).
Proof.
  intros L. unfold quad. rewrite mv_mdiag by auto. revert t L. induction d as [|a d IH]; intros [|b t] L; try discriminate; [reflexivity|].
  rewrite !vmul_cons, !dot_cons. cbn [length] in L. rewrite IH by lia. ring.
Qed.
Lemma vmul_app (a b c d : vecR) : length a = length c -> vmul (a ++ b) (c ++ d) = vmul a c ++ vmul b d.
Proof. revert c. induction a as [|x a IH]; intros [|y c] L; try discriminate; [reflexivity|]. cbn in *. f_equal. apply IH. lia. Qed.
Lemma quad_control ns na lam (x u : vecR) : length x = ns -> length u = na -> quad (mdiag (vzeros ns ++ map (fun a => (a * lam)%num) (vones na))) (x ++ u) = lam * squares u.
Proof.
  intros Lx Lu. assert (E : map (fun a => (a * lam)%num) (vones na) = repeat lam na).
  { unfold vones. clear. induction na as [|na IH]; [reflexivity|]. cbn [repeat map]. rewrite IH. f_equal. rnum. ring. }
  rewrite E, quad_diag, vmul_app by (try rewrite !app_length, ?vzeros_length, ?repeat_length; congruence). rewrite dot_app by (rewrite vzeros_length; vlen).
  rewrite dot_zeros_l, Rplus_0_l. subst na. clear. unfold squares, Rsum. induction u as [|a u IH]; [cbn; rnum; ring|]. rewrite vmul_cons. cbn [length repeat map fold_right]. rewrite dot_cons, IH. ring.
Qed.

Section Tracking.
Variables (n ns : nat) (Q : matR).
Hypothesis W : wf n n Q.
Hypothesis Hns : (3 < ns <= n)%nat.
Hypothesis Z1 : mget Q (ns - 3) (ns - 3) = 0.
Hypothesis Z2 : mget Q (ns - 3) 0 = 0.
Hypothesis Z3 : mget Q 0 0 = 0.
Hypothesis Z4 : mget Q 0 (ns - 3) = 0.
Lemma quad_tracking (t : vecR) : length t = n -> quad (put_tracking ns Q) t = quad Q t + (vget t 0 - vget t (ns - 3)) ^ 2.
Proof.
  intros Lt. unfold put_tracking. assert (E : Nat.eqb (ns - 3) 0 = false) by (apply Nat.eqb_neq; lia). assert (E' : Nat.eqb 0 (ns - 3) = false) by (apply Nat.eqb_neq; lia).
  assert (I1 : (ns - 3 < n)%nat) by lia. assert (I2 : (0 < n)%nat) by lia.
  pose proof (wf_put n Q (ns - 3) (ns - 3) 1 W I1) as W1. pose proof (wf_put n _ (ns - 3) 0 (- (1)) W1 I1) as W2. pose proof (wf_put n _ 0 0 1 W2 I2) as W3.
  change (nopp n1) with (- (1)). change (n1 : R) with 1. rewrite (quad_put n _ 0 (ns - 3)), (quad_put n _ 0 0), (quad_put n _ (ns - 3) 0), (quad_put n _ (ns - 3) (ns - 3)); auto.
  rewrite !(mget_put n) by auto. rewrite E, E'. cbn [andb Nat.eqb]. rewrite ?Nat.eqb_refl, ?E, ?E', ?andb_false_r, ?andb_true_r. cbn [andb]. rewrite ?Z1, ?Z2, ?Z3, ?Z4. ring.
Qed.
End Tracking.

(** *** int *)
Lemma truncated_ex q : exists z, truncated q z.
Proof.
  destruct (archimed q) as [A1 A2]. destruct (archimed (- q)) as [B1 B2]. destruct (Rle_lt_dec 0 q) as [H|H].
  - exists (up q - 1)%Z. split; rewrite minus_IZR; intros; [lra|]. assert (q = 0) by lra. subst q. assert (up 0 = 1%Z) as -> ; [|lra].
    assert (0 < up 0 <= 1)%Z; [|lia]. split; [apply lt_IZR; lra|apply le_IZR; lra].
  - exists (- (up (- q) - 1))%Z. split; intros; [lra|]. rewrite opp_IZR, minus_IZR. lra.
Qed.
Lemma int_spec q k : int_geb q k = true <-> exists z, truncated q z /\ (k <= z)%Z.
Proof.
  unfold int_geb. destruct (Z.leb_spec 1 k) as [Hk|Hk]; rnum; rewrite ?minus_IZR; split.
  - intros H. apply Rleb_true in H. apply IZR_le in Hk. destruct (truncated_ex q) as (z & T1 & T2). exists z. split; [split; auto|]. specialize (T1 ltac:(lra)).
    assert (k < z + 1)%Z by (apply lt_IZR; rewrite plus_IZR; lra). lia.
  - intros (z & [T1 T2] & Hz). apply Rleb_true. apply IZR_le in Hz, Hk. destruct (Rle_lt_dec 0 q) as [H|H]; [specialize (T1 H)|specialize (T2 (Rlt_le _ _ H))]; lra.
  - intros H. apply Rltb_true in H. destruct (truncated_ex q) as (z & T1 & T2). exists z. split; [split; auto|]. destruct (Rle_lt_dec 0 q) as [H0|H0].
    + specialize (T1 H0). assert (-1 < z)%Z by (apply lt_IZR; lra). lia.
    + specialize (T2 (Rlt_le _ _ H0)). assert (k - 1 < z)%Z by (apply lt_IZR; rewrite minus_IZR; lra). lia.
  - intros (z & [T1 T2] & Hz). apply Rltb_true. apply IZR_le in Hz. assert (Hk' : IZR k <= 0) by (apply IZR_le; lia). destruct (Rle_lt_dec 0 q) as [H|H]; [specialize (T1 H)|specialize (T2 (Rlt_le _ _ H))]; lra.
Qed.

(** *** state vectors *)
Lemma state_entries paddle blocks ball : plain paddle -> Forall plain blocks -> plain_ball ball -> let s := to_vector paddle blocks ball in
  length s = (4 * length (seen blocks) + 7)%nat /\ vget s 0 = xpos paddle /\ vget s 1 = ypos paddle /\
  vget s (length s - 3) = xpos ball /\ vget s (length s - 2) = ypos ball.
Proof.
  intros (x & y & w & h & -> & _) Hb (bx & by_ & Eb) s.
  assert (Es : s = [x; y; w; h] ++ flat_map (fun b : rect_params (T := R) => fst b ++ snd b) (seen blocks) ++ [bx; by_; snd ball]).
  { unfold s, to_vector. rewrite Eb. destruct blocks; reflexivity. }
  assert (Lf : length (flat_map (fun b : rect_params (T := R) => fst b ++ snd b) (seen blocks)) = (4 * length (seen blocks))%nat).
  { apply seen_plain in Hb. clear - Hb. induction Hb as [|b l (x & y & w & h & -> & _) Hb IH]; [reflexivity|]. cbn [flat_map length fst snd app]. rewrite IH. lia. }
  set (F := flat_map (fun b : rect_params (T := R) => fst b ++ snd b) (seen blocks)) in *. clearbody F.
  assert (L : length s = (4 * length (seen blocks) + 7)%nat) by (rewrite Es, !app_length, Lf; cbn [length]; lia).
  assert (G : forall k, (k < 3)%nat -> vget s (length s - 3 + k) = nth k [bx; by_; snd ball] 0).
  { intros k Hk. rewrite L. unfold vget. rewrite Es, app_assoc, app_nth2; rewrite (app_length [x; y; w; h] F), Lf; cbn [length]; [|lia]. replace (4 * length (seen blocks) + 7 - 3 + k - (4 + 4 * length (seen blocks)))%nat with k by lia. reflexivity. }
  split; [exact L|]. split; [rewrite Es; reflexivity|]. split; [rewrite Es; reflexivity|]. split.
  - replace (length s - 3)%nat with (length s - 3 + 0)%nat by lia. rewrite G by lia. unfold xpos. rewrite Eb. reflexivity.
  - replace (length s - 2)%nat with (length s - 3 + 1)%nat by lia. rewrite G by lia. unfold ypos. rewrite Eb. reflexivity.
Qed.

Definition base_cost (ns na : nat) (lam : R) (vert : bool) : matR :=
  let Q := mdiag (vzeros ns ++ map (fun a => (a * lam)%num) (vones na)) in if vert then put Q (ns - 2) (ns - 2) 10 else Q.
Lemma vzeros_app_get ns (l : vecR) i : (i < ns)%nat -> vget (vzeros ns ++ l) i = 0.
Proof. intros H. rewrite vget_app_l by (rewrite vzeros_length; exact H). apply vget_zeros. Qed.
Section Base.
Variables (ns na : nat) (lam : R) (vert : bool).
Hypothesis Hns : (3 < ns)%nat.
Notation d := (vzeros ns ++ map (fun a => (a * lam)%num) (vones na)).
Lemma d_length : length d = (ns + na)%nat.
Proof. rewrite app_length, vzeros_length, map_length, vones_length. reflexivity. Qed.
Lemma base_wf : wf (ns + na) (ns + na) (base_cost ns na lam vert).
Proof.
  assert (W : wf (ns + na) (ns + na) (mdiag d)) by (rewrite <- d_length; apply wf_mdiag). unfold base_cost. destruct vert; [|exact W]. apply wf_put; [exact W|lia].
Qed.
Lemma base_zero i j : (i < ns)%nat -> (j < ns)%nat -> i <> (ns - 2)%nat -> mget (base_cost ns na lam vert) i j = 0.
Proof.
  intros Hi Hj H2. assert (W : wf (ns + na) (ns + na) (mdiag d)) by (rewrite <- d_length; apply wf_mdiag).
  assert (Z : mget (mdiag d) i j = 0). { rewrite mget_mdiag by (rewrite d_length; lia). destruct (Nat.eqb i j); [now apply vzeros_app_get|reflexivity]. }
  unfold base_cost. destruct vert; [|exact Z]. rewrite (mget_put (ns + na)) by (auto; lia). destruct (Nat.eqb_spec i (ns - 2)); [contradiction|exact Z].
Qed.
Lemma base_quad (x u : vecR) : length x = ns -> length u = na ->
  quad (base_cost ns na lam vert) (x ++ u) = lam * squares u + (if vert then 10 * vget x (ns - 2) ^ 2 else 0).
Proof.
  intros Lx Lu. assert (W : wf (ns + na) (ns + na) (mdiag d)) by (rewrite <- d_length; apply wf_mdiag).
  unfold base_cost. destruct vert; [|rewrite quad_control by auto; ring]. rewrite (quad_put (ns + na)) by (auto; try lia; rewrite app_length; lia). rewrite quad_control by auto.
  rewrite vget_app_l by lia. rewrite mget_mdiag by (rewrite d_length; lia). rewrite Nat.eqb_refl, vzeros_app_get by lia. ring.
Qed.
Lemma follow_quad (x u : vecR) : length x = ns -> length u = na ->
  quad (put_tracking ns (base_cost ns na lam vert)) (x ++ u) = (vget x 0 - vget x (ns - 3)) ^ 2 + lam * squares u + (if vert then 10 * vget x (ns - 2) ^ 2 else 0).
Proof.
  intros Lx Lu. rewrite (quad_tracking (ns + na)); try (apply base_zero; lia); [|apply base_wf|lia|rewrite app_length; lia]. rewrite base_quad by auto. rewrite !vget_app_l by lia. ring.
Qed.
End Base.

(** which matrix a frame gets *)
Lemma cost_nth s na hz vy lam cen vert t : (t < hz)%nat -> exists b : bool,
  nth_error (cost_matrices s na hz vy lam cen vert) t = Some (if b then put_tracking (length s) (base_cost (length s) na lam vert) else base_cost (length s) na lam vert) /\
  (b = true <-> follows (vget s 1) (vget s (length s - 2)) vy cen t).
Proof.
  intros Ht. unfold cost_matrices. cbv zeta. match goal with |- context [if vert then ?x else ?y] => change (if vert then x else y) with (base_cost (length s) na lam vert) end. set (B := base_cost (length s) na lam vert).
  unfold follows. destruct (nltb n0 vy) eqn:E.
  - apply Rltb_true in E. change (0 < vy) in E. eexists. split.
    + rewrite nth_error_map, (nth_error_nth' _ 0%nat) by (rewrite seq_length; exact Ht). rewrite seq_nth by exact Ht. cbn [option_map Nat.add]. reflexivity.
    + rewrite int_spec. unfold DT. rnum. replace ((vget s 1 - vget s (length s - 2)) / vy / 1) with ((vget s 1 - vget s (length s - 2)) / vy) by (field; lra). split.
      * intros (z & Hz & H). left. split; [exact E|]. exists z. split; [exact Hz|lia].
      * intros [[_ (z & Hz & H)]|[H _]]; [|lra]. exists z. split; [exact Hz|lia].
  - apply Rltb_false in E. change (vy <= 0) in E. exists (cen && nltb (nofZ 1000) (vget s (length s - 2)))%bool. split.
    + destruct (cen && _)%bool; [rewrite (nth_error_nth' _ (put_tracking (length s) B)) by (rewrite repeat_length; exact Ht)|rewrite (nth_error_nth' _ B) by (rewrite repeat_length; exact Ht)]; now rewrite nth_repeat.
    + rewrite andb_true_iff. rnum. rewrite Rltb_true. split; [tauto|]. intros [[H _]|H]; [lra|tauto].
Qed.
