(** get_support, SAT and clipping *)
From Coq Require Import List Arith ZArith Bool Reals Lra Lia Psatz.
From Verif Require Import Num Tensor Utils Bodies Forces Constraints Contacts World Spec ResFacts RBase GeoSpec BodySpec ContactSpec
     BodyFacts RigidFacts GeomFacts HandlerFacts BodyReach PlaneFacts.
Import ListNotations.
Open Scope R_scope.

(** *** get_support *)
Definition sup_step (pts : list pt) (dir : pt) : option (pt * nat) * R -> nat -> option (pt * nat) * R :=
  fun '(best, best_norm) i =>
  let p := vert pts i in
  let cur := v2dot p dir in
  if Rleb best_norm cur then (Some (p, i), cur) else (best, best_norm).
Definition sup_inv (pts : list pt) (dir : pt) (k : nat) (st : option (pt * nat) * R) : Prop :=
  match fst st with
  | None => snd st = -1 /\ forall j, (j < k)%nat -> v2dot (vert pts j) dir < -1
  | Some (p, i) => (i < k)%nat /\ p = vert pts i /\ snd st = v2dot p dir /\ -1 <= snd st /\
      (forall j, (j < k)%nat -> v2dot (vert pts j) dir <= snd st) /\
      (forall j, (i < j < k)%nat -> v2dot (vert pts j) dir < snd st)
  end.
Lemma sup_fold pts dir k : sup_inv pts dir k (fold_left (sup_step pts dir) (seq 0 k) (None, -1)).
Proof.
  induction k.
  - cbn. split; [reflexivity|]. intros; lia.
  - rewrite seq_S, fold_left_app. cbn [fold_left plus]. destruct (fold_left (sup_step pts dir) (seq 0 k) (None, -1)) as [best bn].
    unfold sup_inv, sup_step in *. cbn [fst snd] in *. destruct (Rleb_spec bn (v2dot (vert pts k) dir)) as [L|L]; cbn [fst snd].
    + split; [lia|]. split; [reflexivity|]. split; [reflexivity|].
      assert (B : -1 <= v2dot (vert pts k) dir /\ forall j, (j < k)%nat -> v2dot (vert pts j) dir <= v2dot (vert pts k) dir).
      { destruct best as [[p i]|].
        - destruct IHk as (H1 & H2 & H3 & H4 & H5 & H6). split; [lra|]. intros j Hj. pose proof (H5 j Hj). lra.
        - destruct IHk as [-> H]. split; [lra|]. intros j Hj. pose proof (H j Hj). lra. }
      destruct B as [B1 B2]. split; [exact B1|]. split.
      * intros j Hj. destruct (Nat.eq_dec j k) as [->|]; [lra|]. apply B2. lia.
      * intros j Hj. lia.
    + destruct best as [[p i]|].
      * destruct IHk as (H1 & H2 & H3 & H4 & H5 & H6). split; [lia|]. split; [exact H2|]. split; [exact H3|]. split; [exact H4|].
        split; intros j Hj; (destruct (Nat.eq_dec j k) as [->|]; [lra|]); [apply H5|apply H6]; lia.
      * destruct IHk as [-> H]. split; [reflexivity|]. intros j Hj. destruct (Nat.eq_dec j k) as [->|]; [lra|]. apply H. lia.
Qed.
Lemma get_support_eq pts dir : get_support pts dir =
  match fst (fold_left (sup_step pts dir) (seq 0 (length pts)) (None, -1)) with Some r => Ok r | None => Err EUnbound end.
Proof. reflexivity. Qed.
Lemma vert_In (vs : list pt) v : In v vs -> exists i, (i < length vs)%nat /\ v = vert vs i.
Proof. intros H. destruct (In_nth vs v v2zero H) as (i & Hi & E). exists i. split; auto. Qed.
Lemma In_vert (vs : list pt) i : (i < length vs)%nat -> In (vert vs i) vs.
Proof. intros. now apply nth_In. Qed.
Lemma get_support_ok pts dir p i : get_support pts dir = Ok (p, i) ->
  (i < length pts)%nat /\ p = vert pts i /\ -1 <= v2dot p dir /\
  (forall v, In v pts -> v2dot v dir <= v2dot p dir) /\
  (forall j, (i < j < length pts)%nat -> v2dot (vert pts j) dir < v2dot p dir).
Proof.
  rewrite get_support_eq. intros H. pose proof (sup_fold pts dir (length pts)) as S.
  destruct (fold_left (sup_step pts dir) (seq 0 (length pts)) (None, -1)) as [best bn]. unfold sup_inv in S. cbn [fst snd] in *.
  destruct best as [[q k]|]; [|discriminate]. inversion H; subst q k. destruct S as (H1 & H2 & H3 & H4 & H5 & H6). subst bn.
  split; [exact H1|]. split; [exact H2|]. split; [exact H4|]. split; [|exact H6].
  intros v Hv. apply vert_In in Hv. destruct Hv as (j & Hj & ->). apply H5. exact Hj.
Qed.
Lemma get_support_err pts dir e : get_support pts dir = Err e -> forall v, In v pts -> v2dot v dir < -1.
Proof.
  rewrite get_support_eq. intros H. pose proof (sup_fold pts dir (length pts)) as S.
  destruct (fold_left (sup_step pts dir) (seq 0 (length pts)) (None, -1)) as [best bn]. unfold sup_inv in S. cbn [fst snd] in *.
  destruct best as [[q k]|]; [discriminate|]. intros v Hv. apply vert_In in Hv. destruct Hv as (j & Hj & ->). now apply S.
Qed.
(** succeeds iff some dot product reaches -1 *)
Lemma get_support_total pts dir v : In v pts -> -1 <= v2dot v dir -> exists p i, get_support pts dir = Ok (p, i).
Proof.
  intros Hv Hd. destruct (get_support pts dir) as [[p i]|e] eqn:E; [eauto|].
  pose proof (get_support_err _ _ _ E v Hv). lra.
Qed.
Lemma some_or_all (f : pt -> R) vs : (exists v, In v vs /\ 0 <= f v) \/ (forall v, In v vs -> f v < 0).
Proof.
  induction vs as [|a vs IH]; [right; intros v []|]. destruct (Rle_lt_dec 0 (f a)) as [L|L]; [left; exists a; split; [left; reflexivity|exact L]|].
  destruct IH as [(v & Hv & H)|H]; [left; exists v; split; [right; exact Hv|exact H]|]. right. intros v [<-|Hv]; auto.
Qed.
(** a convex polygon around its centroid reaches every direction *)
Lemma centred_reaches vs d : 0 < area vs -> convex vs -> is_centroid vs (0, 0) -> exists v, In v vs /\ 0 <= v2dot v d.
Proof.
  intros Ha Hc Hz. destruct (some_or_all (fun v => v2dot v d) vs) as [H|N]; [exact H|exfalso].
  pose proof (convex_star0 vs Hc Ha Hz) as Star.
  destruct (Hz (0, 0)) as [HX HY]. cbn [fst snd] in HX, HY. rewrite Rmult_0_r in HX, HY.
  assert (E : esum (fun a b => tri2 (0, 0) a b / 2 * ((v2dot a d + v2dot b d) / 3)) vs = 0).
  { transitivity (fst d * esum (fun a b => tri2 (0, 0) a b / 2 * ((0 + fst a + fst b) / 3)) vs + snd d * esum (fun a b => tri2 (0, 0) a b / 2 * ((0 + snd a + snd b) / 3)) vs).
    - rewrite <- !esum_scale, <- esum_plus. apply esum_ext. intros a b _. unfold v2dot. rnum. field.
    - rewrite <- HX, <- HY. ring. }
  assert (area_edge' : exists e, In e (edges vs) /\ det2 (fst e) (snd e) <> 0) by (apply area_edge; lra).
  destruct area_edge' as ([a b] & He & Hd). cbn [fst snd] in Hd.
  assert (P : 0 < Rsum (map (fun e => - (tri2 (0, 0) (fst e) (snd e) / 2 * ((v2dot (fst e) d + v2dot (snd e) d) / 3))) (edges vs))).
  { apply Rsum_pos.
    - intros [x y] Hxy. cbn [fst snd]. pose proof (edges_In_l _ _ _ Hxy) as [I1 I2]. pose proof (Star x y Hxy). pose proof (N x I1). pose proof (N y I2).
      unfold tri2. cbn [fst snd]. rewrite !Rminus_0_r. replace (det2 (fst x, snd x) (fst y, snd y)) with (det2 x y) by reflexivity. nra.
    - exists (a, b). split; [exact He|]. cbn [fst snd]. pose proof (edges_In_l _ _ _ He) as [I1 I2]. pose proof (Star a b He). pose proof (N a I1). pose proof (N b I2).
      unfold tri2. cbn [fst snd]. rewrite !Rminus_0_r. replace (det2 (fst a, snd a) (fst b, snd b)) with (det2 a b) by reflexivity. nra. }
  pose proof (esum_opp (fun a b => tri2 (0, 0) a b / 2 * ((v2dot a d + v2dot b d) / 3)) vs) as O. unfold esum in O at 1. rewrite O, E in P. lra.
Qed.
