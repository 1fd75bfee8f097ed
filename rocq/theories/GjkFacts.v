(** get_closest and the GJK loop *)
From Coq Require Import List Arith ZArith Bool Reals Lra Lia Psatz.
From Verif Require Import Num Tensor Utils Bodies Forces Constraints Contacts World Spec ResFacts RBase GeoSpec BodySpec ContactSpec
     BodyFacts RigidFacts GeomFacts HandlerFacts BodyReach PlaneFacts SupportFacts SatFacts.
Import ListNotations.
Open Scope R_scope.

Definition DD (p x y : pt) : R := (fst p - fst x) * (fst y - fst x) + (snd p - snd x) * (snd y - snd x).
Definition SS (p x y z : pt) : R := tri2 x y p * tri2 x y z.

Lemma SS_swap p x y z : SS p x y z = SS p y x z.
Proof. unfold SS, tri2, det2. cbn [fst snd]. ring. Qed.
Lemma frame_dot a b p c : let L := DD b a b in let x := DD p a b in let X := DD c a b in let y := tri2 a b p in let Y := tri2 a b c in
  DD p a c * L = x * X + y * Y /\ DD p b c * L = (x - L) * (X - L) + y * Y /\ DD p c a * L = (x - X) * (- X) + (y - Y) * (- Y) /\ DD p b a = L - x.
Proof. unfold DD, tri2, det2. cbn [fst snd]. repeat split; ring. Qed.
Lemma DD_self a b : a <> b -> 0 < DD b a b.
Proof.
  intros H. apply dist_pos in H. pose proof (dist_sq a b) as E.
  assert (DD b a b = dist a b * dist a b) by (rewrite E; unfold DD; ring). nra.
Qed.
Lemma region1 a b c p : a <> b -> 0 < DD p a b -> 0 < DD p b a -> 0 < SS p a b c -> DD p a c <= 0 -> DD p b c <= 0 -> False.
Proof.
  intros Hne. apply DD_self in Hne. destruct (frame_dot a b p c) as (H1 & H2 & _ & H4). cbv zeta in *. unfold SS. rewrite H4.
  set (L := DD b a b) in *. set (x := DD p a b) in *. set (X := DD c a b) in *. set (y := tri2 a b p) in *. set (Y := tri2 a b c) in *.
  intros. assert (x * X < 0) by nra. assert (X < 0) by nra. assert ((x - L) * (X - L) < 0) by nra. nra.
Qed.
Lemma region2 a b c p : a <> b -> 0 < DD p a b -> 0 < DD p b a -> 0 < SS p a b c -> DD p b c <= 0 -> DD p c a <= 0 -> False.
Proof.
  intros Hne. apply DD_self in Hne. destruct (frame_dot a b p c) as (_ & H2 & H3 & H4). cbv zeta in *. unfold SS. rewrite H4.
  set (L := DD b a b) in *. set (x := DD p a b) in *. set (X := DD c a b) in *. set (y := tri2 a b p) in *. set (Y := tri2 a b c) in *.
  intros. assert (A : (x - L) * (X - L) + y * Y <= 0) by nra. assert (B : (x - X) * (- X) + (y - Y) * (- Y) <= 0) by nra.
  assert (0 < X - L) by nra. assert (0 < (X - x) * L) by (apply Rmult_lt_0_compat; lra). assert (0 < (X - L) * (X - L)) by (apply Rmult_lt_0_compat; lra).
  pose proof (sq0 Y). nra.
Qed.
Lemma region3 a b c p : 0 < DD p a b -> 0 < DD p b a -> 0 < SS p a b c -> SS p b c a <= 0 -> DD p b c <= 0 -> False.
Proof.
  (* b at the origin: T p = u a + w c *)
  set (ax := fst a - fst b). set (ay := snd a - snd b). set (cx := fst c - fst b). set (cy := snd c - snd b).
  set (px := fst p - fst b). set (py := snd p - snd b).
  assert (E1 : DD p b a = px * ax + py * ay) by (unfold DD; reflexivity).
  assert (E2 : DD p b c = px * cx + py * cy) by (unfold DD; reflexivity).
  assert (E3 : SS p a b c = (ax * py - ay * px) * (ax * cy - ay * cx)) by (unfold SS, tri2, det2, ax, ay, cx, cy, px, py; cbn [fst snd]; ring).
  assert (E4 : SS p b c a = (cx * py - cy * px) * (cx * ay - cy * ax)) by (unfold SS, tri2, det2, ax, ay, cx, cy, px, py; cbn [fst snd]; ring).
  rewrite E1, E2, E3, E4. intros _ H1 H3 H4 H2. clear E1 E2 E3 E4. clearbody ax ay cx cy px py.
  set (T := ax * cy - ay * cx) in *. set (w := ax * py - ay * px) in *. set (u := px * cy - py * cx).
  assert (U : u * T <= 0) by (unfold u, T; lra).
  assert (P1 : T * px = u * ax + w * cx) by (unfold u, T, w; ring). assert (P2 : T * py = u * ay + w * cy) by (unfold u, T, w; ring).
  assert (TT : 0 < T * T). { destruct (Req_dec T 0) as [E|E]; [rewrite E in H3; lra|]. destruct (Rtotal_order T 0) as [L|[L|L]]; nra. }
  set (aa := ax * ax + ay * ay). set (cc := cx * cx + cy * cy). set (ac := ax * cx + ay * cy).
  assert (G1 : T * T * (px * ax + py * ay) = (u * T) * aa + (w * T) * ac) by (unfold aa, ac; transitivity (T * (T * px) * ax + T * (T * py) * ay); [ring|rewrite P1, P2; ring]).
  assert (G2 : T * T * (px * cx + py * cy) = (u * T) * ac + (w * T) * cc) by (unfold cc, ac; transitivity (T * (T * px) * cx + T * (T * py) * cy); [ring|rewrite P1, P2; ring]).
  assert (CS : aa * cc - ac * ac = T * T) by (unfold aa, cc, ac, T; ring).
  assert (Q1 : 0 < (u * T) * aa + (w * T) * ac) by (rewrite <- G1; now apply Rmult_lt_0_compat).
  assert (Q2 : (u * T) * ac + (w * T) * cc <= 0) by (rewrite <- G2; nra).
  pose proof (sumsq ax ay) as A0. fold aa in A0. pose proof (sumsq cx cy) as C0. fold cc in C0.
  set (uu := u * T) in *. set (ww := w * T) in *. clearbody uu ww aa cc ac.
  assert (0 < aa) by (destruct A0; [auto|nra]). assert (0 < cc) by (destruct C0; [auto|nra]).
  assert (0 < ac) by nra.
  assert (0 < ac * (uu * aa + ww * ac) - aa * (uu * ac + ww * cc)) by nra. nra.
Qed.
Lemma region0 a b c p : a <> b -> DD p a b <= 0 -> DD p b c <= 0 -> DD p c a <= 0 -> False.
Proof.
  intros Hne. apply DD_self in Hne. unfold DD in *. intros.
  pose proof (sumsq (fst c - fst b) (snd c - snd b)). pose proof (sumsq (fst a - fst c) (snd a - snd c)). nra.
Qed.

Lemma bary2_spec p a b : a <> b -> exists u v, bary2 p a b = (u, v) /\ u + v = 1 /\ u * DD b a b = DD p b a /\ v * DD b a b = DD p a b.
Proof.
  intros Hne. unfold bary2. cbv zeta. rewrite v2norm_sub, dist_sym. apply dist_pos in Hne. pose proof (dist_sq a b) as E. set (D := dist a b) in *.
  eexists. eexists. split; [reflexivity|]. assert (L : DD b a b = D * D) by (rewrite E; unfold DD; ring). rewrite L.
  unfold v2dot, v2div, v2sub. rnum. cbn [fst snd]. split; [|split].
  - apply (Rmult_eq_reg_r (D * D)); [|nra]. transitivity (DD b a b); [unfold DD; field; lra|rewrite L; ring].
  - unfold DD. field. lra.
  - unfold DD. field. lra.
Qed.
Lemma sgn_le x d e : 0 < d -> x * d = e -> (x <= 0 <-> e <= 0).
Proof. intros Hd <-. split; intros; nra. Qed.
Lemma sgn_lt x d e : 0 < d -> x * d = e -> (0 < x <-> 0 < e).
Proof. intros Hd <-. split; intros; nra. Qed.
Lemma det3_tri a b c : det3 a b c = tri2 a b c.
Proof. unfold det3, tri2, det2. rnum. cbn [fst snd]. ring. Qed.
Lemma inner1 a : inner_mean [a] a.
Proof. exists [1]. cbn. split; [reflexivity|]. split; [repeat constructor; lra|]. unfold wsum. cbn. lra. Qed.
Lemma inner2 a b u v : 0 < u -> 0 < v -> u + v = 1 -> inner_mean [a; b] (v2add (v2scale u a) (v2scale v b)).
Proof.
  intros. exists [u; v]. split; [reflexivity|]. split; [repeat constructor; lra|]. unfold wsum, v2add, v2scale. rnum. cbn. lra.
Qed.
Lemma inner_in_hull vs q : inner_mean vs q -> in_hull vs q.
Proof.
  intros (ws & H1 & H2 & H3). exists ws. split; [exact H1|]. split; [|exact H3]. eapply Forall_impl; [|exact H2]. cbn. intros. lra.
Qed.
Lemma mix_along a b u v : u + v = 1 -> v2add (v2scale u a) (v2scale v b) = along a b v.
Proof. intros H. replace u with (1 - v) by lra. unfold v2add, v2scale, along. rnum. cbn [fst snd]. apply f_equal2; ring. Qed.
Lemma seg_hull vs a b u v : In a vs -> In b vs -> 0 <= u -> 0 <= v -> u + v = 1 -> in_hull vs (v2add (v2scale u a) (v2scale v b)).
Proof. intros. rewrite mix_along by auto. apply (on_segment_hull vs a b); auto. exists v. split; [lra|reflexivity]. Qed.

(** the foot of p on a line *)
Lemma foot_cond a b p u v x : a <> b -> u + v = 1 -> u * DD b a b = DD p b a -> v * DD b a b = DD p a b ->
  let q := v2add (v2scale u a) (v2scale v b) in
  ((fst p - fst q) * (fst x - fst q) + (snd p - snd q) * (snd x - snd q)) * DD b a b = SS p a b x.
Proof.
  intros Hne Huv Hu Hv q. assert (Eq : q = along a b v) by (now apply mix_along). rewrite Eq. unfold along. cbn [fst snd].
  pose proof (DD_self a b Hne) as HD.
  assert (Hd : v = DD p a b / DD b a b) by (apply (Rmult_eq_reg_r (DD b a b)); [|lra]; rewrite Hv; field; lra).
  rewrite Hd. unfold SS, tri2, det2, DD in *. cbn [fst snd] in *. field. lra.
Qed.

Definition used (simplex : list pt) (ids : list nat) : list pt := map (fun k => nth k simplex v2zero) ids.

Lemma closest1 p a : get_closest p [a] = Ok (a, [0]%nat) /\ nearest [a] p a.
Proof.
  split; [reflexivity|]. apply nearest_cond; [apply in_hull_vertex; now left|]. intros v [<-|[]]. lra.
Qed.
Lemma closest2 p a b : a <> b -> exists q ids, get_closest p [a; b] = Ok (q, ids) /\ nearest [a; b] p q /\ inner_mean (used [a; b] ids) q /\
  (length ids = 1 \/ length ids = 2)%nat /\ NoDup ids /\ Forall (fun k => (k < 2)%nat) ids.
Proof.
  intros Hne. destruct (bary2_spec p a b Hne) as (u & v & E & Huv & Hu & Hv). unfold get_closest. rewrite E. rnum.
  pose proof (DD_self a b Hne) as HD.
  destruct (Rleb_spec u 0) as [L|L]; [|destruct (Rleb_spec v 0) as [L'|L']].
  - exists b, [1]%nat. split; [reflexivity|]. split; [|split; [apply inner1|split; [auto|split; repeat constructor; cbn; auto]]].
    apply nearest_cond; [apply in_hull_vertex; cbn; auto|]. apply (sgn_le _ _ _ HD Hu) in L. unfold DD in L.
    intros x [<-|[<-|[]]]; lra.
  - exists a, [0]%nat. split; [reflexivity|]. split; [|split; [apply inner1|split; [auto|split; repeat constructor; cbn; auto]]].
    apply nearest_cond; [apply in_hull_vertex; cbn; auto|]. apply (sgn_le _ _ _ HD Hv) in L'. unfold DD in L'.
    intros x [<-|[<-|[]]]; lra.
  - exists (v2add (v2scale u a) (v2scale v b)), [0; 1]%nat. split; [reflexivity|]. split; [|split; [now apply inner2|split; [auto|split; repeat constructor; cbn; auto; intuition discriminate]]].
    apply nearest_cond; [apply seg_hull; cbn; auto; lra|]. intros x Hx.
    pose proof (foot_cond a b p u v x Hne Huv Hu Hv) as F. cbv zeta in F. assert (Z : SS p a b x = 0).
    { destruct Hx as [<-|[<-|[]]]; unfold SS, tri2, det2; cbn [fst snd]; ring. }
    rewrite Z in F. nra.
Qed.
Lemma tri_distinct a b c : tri2 a b c <> 0 -> a <> b /\ b <> c /\ c <> a.
Proof. unfold tri2, det2. cbn [fst snd]. intros H. repeat split; intros ->; apply H; ring. Qed.
Lemma bary3_spec p a b c : tri2 a b c <> 0 -> exists u v w, bary3 p a b c = Ok (u, v, w) /\ u + v + w = 1 /\
  p = v2add (v2add (v2scale u a) (v2scale v b)) (v2scale w c) /\
  u * (tri2 a b c * tri2 a b c) = SS p b c a /\ v * (tri2 a b c * tri2 a b c) = SS p c a b /\ w * (tri2 a b c * tri2 a b c) = SS p a b c.
Proof.
  intros H. unfold bary3. rewrite !det3_tri. rnum. rewrite (proj2 (Reqb_false _ _) H).
  eexists. eexists. eexists. split; [reflexivity|]. set (d := tri2 a b c) in *.
  assert (S1 : tri2 p b c + tri2 a p c + tri2 a b p = d) by (unfold d, tri2, det2; cbn [fst snd]; ring).
  split; [|split; [|split; [|split]]].
  - transitivity ((tri2 p b c + tri2 a p c + tri2 a b p) / d); [field; auto|rewrite S1; field; auto].
  - unfold v2add, v2scale. rnum. cbn [fst snd]. destruct p as [px py]. cbn [fst snd]. apply f_equal2.
    + transitivity ((tri2 (px, py) b c * fst a + tri2 a (px, py) c * fst b + tri2 a b (px, py) * fst c) / d); [|field; auto].
      apply (Rmult_eq_reg_r d); [|auto]. transitivity (tri2 (px, py) b c * fst a + tri2 a (px, py) c * fst b + tri2 a b (px, py) * fst c); [|field; auto].
      unfold d, tri2, det2; cbn [fst snd]; ring.
    + transitivity ((tri2 (px, py) b c * snd a + tri2 a (px, py) c * snd b + tri2 a b (px, py) * snd c) / d); [|field; auto].
      apply (Rmult_eq_reg_r d); [|auto]. transitivity (tri2 (px, py) b c * snd a + tri2 a (px, py) c * snd b + tri2 a b (px, py) * snd c); [|field; auto].
      unfold d, tri2, det2; cbn [fst snd]; ring.
  - transitivity (tri2 p b c * d); [field; auto|]. unfold SS, d, tri2, det2; cbn [fst snd]; ring.
  - transitivity (tri2 a p c * d); [field; auto|]. unfold SS, d, tri2, det2; cbn [fst snd]; ring.
  - transitivity (tri2 a b p * d); [field; auto|]. unfold SS, d, tri2, det2; cbn [fst snd]; ring.
Qed.
Lemma vertex_nearest p a b c q : In q [a; b; c] -> (forall x, In x [a; b; c] -> DD p q x <= 0) -> nearest [a; b; c] p q.
Proof. intros Hq H. apply nearest_cond; [now apply in_hull_vertex|]. intros v Hv. exact (H v Hv). Qed.
Lemma DD_refl p q : DD p q q = 0.
Proof. unfold DD. ring. Qed.
Lemma edge_near vs p x y u v : x <> y -> In x vs -> In y vs -> 0 < u -> 0 < v -> u + v = 1 -> u * DD y x y = DD p y x -> v * DD y x y = DD p x y ->
  (forall z, In z vs -> SS p x y z <= 0) -> nearest vs p (v2add (v2scale u x) (v2scale v y)).
Proof.
  intros Hne Hx Hy Pu Pv Huv Hu Hv H. apply nearest_cond; [apply seg_hull; auto; lra|]. intros z Hz.
  pose proof (foot_cond x y p u v z Hne Huv Hu Hv) as F. cbv zeta in F. pose proof (DD_self x y Hne). pose proof (H z Hz). nra.
Qed.
Lemma SS_end1 p x y : SS p x y x = 0.
Proof. unfold SS, tri2, det2; cbn [fst snd]; ring. Qed.
Lemma SS_end2 p x y : SS p x y y = 0.
Proof. unfold SS, tri2, det2; cbn [fst snd]; ring. Qed.
Ltac ndids := repeat constructor; cbn; auto; intuition discriminate.
Lemma exhaust a b c p : a <> b -> b <> c -> c <> a ->
  ~ (DD p a b <= 0 /\ DD p a c <= 0) -> ~ (DD p b c <= 0 /\ DD p b a <= 0) -> ~ (DD p c a <= 0 /\ DD p c b <= 0) ->
  ~ (0 < DD p b a /\ 0 < DD p a b /\ SS p a b c <= 0) -> ~ (0 < DD p c b /\ 0 < DD p b c /\ SS p b c a <= 0) ->
  ~ (0 < DD p a c /\ 0 < DD p c a /\ SS p c a b <= 0) -> ~ (0 < SS p b c a /\ 0 < SS p c a b /\ 0 < SS p a b c) -> False.
Proof.
  intros N1 N2 N3 H1 H2 H3 H4 H5 H6 H7.
  assert (N1' : b <> a) by auto. assert (N2' : c <> b) by auto. assert (N3' : a <> c) by auto.
  pose proof (region0 a b c p N1) as Z1. pose proof (region0 b a c p N1') as Z2.
  pose proof (region1 a b c p N1) as A1. pose proof (region1 b c a p N2) as A2. pose proof (region1 c a b p N3) as A3.
  pose proof (region2 a b c p N1) as B1. pose proof (region2 b c a p N2) as B2. pose proof (region2 c a b p N3) as B3.
  pose proof (region2 b a c p N1') as B4. pose proof (region2 c b a p N2') as B5. pose proof (region2 a c b p N3') as B6.
  pose proof (region3 a b c p) as C1. pose proof (region3 b c a p) as C2. pose proof (region3 c a b p) as C3.
  pose proof (region3 b a c p) as C4. pose proof (region3 c b a p) as C5. pose proof (region3 a c b p) as C6.
  rewrite (SS_swap p b a c) in *. rewrite (SS_swap p c b a) in *. rewrite (SS_swap p a c b) in *.
  clear N1 N2 N3 N1' N2' N3'.
  set (d1 := DD p a b) in *. set (d2 := DD p b a) in *. set (d3 := DD p b c) in *. set (d4 := DD p c b) in *. set (d5 := DD p c a) in *. set (d6 := DD p a c) in *.
  set (s1 := SS p a b c) in *. set (s2 := SS p b c a) in *. set (s3 := SS p c a b) in *.
  destruct (Rle_lt_dec d1 0) as [X1|X1], (Rle_lt_dec d2 0) as [X2|X2], (Rle_lt_dec d3 0) as [X3|X3]; try tauto;
  destruct (Rle_lt_dec d4 0) as [X4|X4]; try tauto; destruct (Rle_lt_dec d5 0) as [X5|X5]; try tauto; destruct (Rle_lt_dec d6 0) as [X6|X6]; try tauto;
  destruct (Rle_lt_dec s1 0) as [X7|X7]; try tauto; destruct (Rle_lt_dec s2 0) as [X8|X8]; try tauto; destruct (Rle_lt_dec s3 0) as [X9|X9]; tauto.
Qed.
Lemma if_and {A} (c : bool) (P : Prop) (x y : A) (Q : A -> Prop) : (c = true <-> P) -> (P -> Q x) -> (~ P -> Q y) -> Q (if c then x else y).
Proof. intros H H1 H2. destruct c; [apply H1, H; reflexivity|apply H2; intros HP; apply H in HP; discriminate]. Qed.
Definition closest_ok (vs : list pt) (p : pt) (r : res (pt * list nat)) : Prop :=
  exists q ids, r = Ok (q, ids) /\ nearest vs p q /\ inner_mean (used vs ids) q /\
  (length ids = 1 \/ length ids = 2 \/ length ids = 3 /\ q = p)%nat /\ NoDup ids /\ Forall (fun k => (k < length vs)%nat) ids.
Lemma closest3 p a b c : tri2 a b c <> 0 -> closest_ok [a; b; c] p (get_closest p [a; b; c]).
Proof.
  intros Ht. destruct (tri_distinct _ _ _ Ht) as (Nab & Nbc & Nca). unfold get_closest.
  destruct (bary2_spec p a b Nab) as (uAB & vAB & -> & S1 & U1 & V1). destruct (bary2_spec p b c Nbc) as (uBC & vBC & -> & S2 & U2 & V2).
  destruct (bary2_spec p c a Nca) as (uCA & vCA & -> & S3 & U3 & V3).
  destruct (bary3_spec p a b c Ht) as (u & v & w & -> & S & P & Hu & Hv & Hw). cbn [bind]. rnum.
  pose proof (DD_self a b Nab) as D1. pose proof (DD_self b c Nbc) as D2. pose proof (DD_self c a Nca) as D3.
  assert (TT : 0 < tri2 a b c * tri2 a b c) by nra.
  apply (if_and _ (DD p a b <= 0 /\ DD p a c <= 0)).
  { rewrite andb_true_iff, !Rleb_true, (sgn_le _ _ _ D1 V1), (sgn_le _ _ _ D3 U3). tauto. }
  { intros [L1 L2]. exists a, [0]%nat. split; [reflexivity|]. split; [|split; [apply inner1|split; [auto|split; ndids]]].
    apply vertex_nearest; [cbn; auto|]. intros x [<-|[<-|[<-|[]]]]; [rewrite DD_refl; lra|tauto|tauto]. }
  intros E1. apply (if_and _ (DD p b c <= 0 /\ DD p b a <= 0)).
  { rewrite andb_true_iff, !Rleb_true, (sgn_le _ _ _ D2 V2), (sgn_le _ _ _ D1 U1). tauto. }
  { intros [L1 L2]. exists b, [1]%nat. split; [reflexivity|]. split; [|split; [apply inner1|split; [auto|split; ndids]]].
    apply vertex_nearest; [cbn; auto|]. intros x [<-|[<-|[<-|[]]]]; [tauto|rewrite DD_refl; lra|tauto]. }
  intros E2. apply (if_and _ (DD p c a <= 0 /\ DD p c b <= 0)).
  { rewrite andb_true_iff, !Rleb_true, (sgn_le _ _ _ D3 V3), (sgn_le _ _ _ D2 U2). tauto. }
  { intros [L1 L2]. exists c, [2]%nat. split; [reflexivity|]. split; [|split; [apply inner1|split; [auto|split; ndids]]].
    apply vertex_nearest; [cbn; auto|]. intros x [<-|[<-|[<-|[]]]]; [tauto|tauto|rewrite DD_refl; lra]. }
  intros E3. apply (if_and _ (0 < DD p b a /\ 0 < DD p a b /\ SS p a b c <= 0)).
  { rewrite !andb_true_iff, !Rltb_true, Rleb_true, (sgn_lt _ _ _ D1 U1), (sgn_lt _ _ _ D1 V1), (sgn_le _ _ _ TT Hw). tauto. }
  { intros (L1 & L2 & L3). apply (sgn_lt _ _ _ D1 U1) in L1. apply (sgn_lt _ _ _ D1 V1) in L2.
    exists (v2add (v2scale uAB a) (v2scale vAB b)), [0; 1]%nat. split; [reflexivity|]. split; [|split; [now apply inner2|split; [auto|split; ndids]]].
    apply edge_near; auto; cbn; auto; intros z [<-|[<-|[<-|[]]]]; [rewrite SS_end1; lra|rewrite SS_end2; lra|tauto]. }
  intros E4. apply (if_and _ (0 < DD p c b /\ 0 < DD p b c /\ SS p b c a <= 0)).
  { rewrite !andb_true_iff, !Rltb_true, Rleb_true, (sgn_lt _ _ _ D2 U2), (sgn_lt _ _ _ D2 V2), (sgn_le _ _ _ TT Hu). tauto. }
  { intros (L1 & L2 & L3). apply (sgn_lt _ _ _ D2 U2) in L1. apply (sgn_lt _ _ _ D2 V2) in L2.
    exists (v2add (v2scale uBC b) (v2scale vBC c)), [1; 2]%nat. split; [reflexivity|]. split; [|split; [now apply inner2|split; [auto|split; ndids]]].
    apply edge_near; auto; cbn; auto; intros z [<-|[<-|[<-|[]]]]; [tauto|rewrite SS_end1; lra|rewrite SS_end2; lra]. }
  intros E5. apply (if_and _ (0 < DD p a c /\ 0 < DD p c a /\ SS p c a b <= 0)).
  { rewrite !andb_true_iff, !Rltb_true, Rleb_true, (sgn_lt _ _ _ D3 U3), (sgn_lt _ _ _ D3 V3), (sgn_le _ _ _ TT Hv). tauto. }
  { intros (L1 & L2 & L3). apply (sgn_lt _ _ _ D3 U3) in L1. apply (sgn_lt _ _ _ D3 V3) in L2.
    exists (v2add (v2scale uCA c) (v2scale vCA a)), [2; 0]%nat. split; [reflexivity|]. split; [|split; [now apply inner2|split; [auto|split; ndids]]].
    apply edge_near; auto; cbn; auto; intros z [<-|[<-|[<-|[]]]]; [rewrite SS_end2; lra|tauto|rewrite SS_end1; lra]. }
  intros E6. apply (if_and _ (0 < SS p b c a /\ 0 < SS p c a b /\ 0 < SS p a b c)).
  { rewrite !andb_true_iff, !Rltb_true, (sgn_lt _ _ _ TT Hu), (sgn_lt _ _ _ TT Hv), (sgn_lt _ _ _ TT Hw). tauto. }
  { intros (L1 & L2 & L3). apply (sgn_lt _ _ _ TT Hu) in L1. apply (sgn_lt _ _ _ TT Hv) in L2. apply (sgn_lt _ _ _ TT Hw) in L3.
    assert (I : inner_mean [a; b; c] p).
    { exists [u; v; w]. split; [reflexivity|]. split; [repeat constructor; lra|]. split; [cbn; lra|].
      rewrite P at 1 2. unfold wsum, v2add, v2scale. rnum. cbn. lra. }
    exists p, [0; 1; 2]%nat. split; [reflexivity|]. split; [apply nearest_cond; [now apply inner_in_hull|intros; lra]|split; [exact I|split; [auto|split; ndids]]]. }
  intros E7. exfalso. exact (exhaust a b c p Nab Nbc Nca E1 E2 E3 E4 E5 E6 E7).
Qed.
Lemma closest_independent p vs : independent vs -> closest_ok vs p (get_closest p vs).
Proof.
  destruct vs as [|a [|b [|c [|d vs]]]]; try (intros []; fail).
  - intros _. destruct (closest1 p a) as [E1 E2]. exists a, [0]%nat. split; [exact E1|]. split; [exact E2|]. split; [apply inner1|]. split; [auto|split; ndids].
  - intros H. destruct (closest2 p a b H) as (q & ids & E1 & E2 & E3 & E4 & E5 & E6). exists q, ids. do 3 (split; [assumption|]). split; [tauto|]. split; assumption.
  - apply closest3.
Qed.
