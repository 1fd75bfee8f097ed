(** Helly's theorem in the plane, and what follows for convex polygons: a polygon is the
    intersection of its edges' half planes, and two polygons that no edge separates meet. *)
From Coq Require Import List Arith ZArith Bool Reals Lra Lia Psatz FinFun.
From Verif Require Import Num Tensor Utils Bodies Forces Constraints Contacts World Spec ResFacts RBase GeoSpec BodySpec ContactSpec
     BodyFacts RigidFacts GeomFacts HandlerFacts BodyReach PlaneFacts SupportFacts SatFacts ClipFacts GjkFacts GjkLoop GjkTerm.
Import ListNotations.
Open Scope R_scope.

Definition convex_set (C : pt -> Prop) : Prop := forall a b t, C a -> C b -> 0 <= t <= 1 -> C (along a b t).
Definition mean3 (x y z : R) (a b c : pt) : pt := (x * fst a + y * fst b + z * fst c, x * snd a + y * snd b + z * snd c).
Lemma convex_mean3 C a b c x y z : convex_set C -> C a -> C b -> C c -> 0 <= x -> 0 <= y -> 0 <= z -> x + y + z = 1 -> C (mean3 x y z a b c).
Proof.
  intros HC Ha Hb Hc Hx Hy Hz S. destruct (Req_dec (y + z) 0) as [E|E].
  - assert (y = 0) by lra. assert (z = 0) by lra. assert (x = 1) by lra. subst.
    replace (mean3 1 0 0 a b c) with a; [exact Ha|]. destruct a. unfold mean3. cbn [fst snd]. apply f_equal2; ring.
  - set (t := z / (y + z)). assert (Ht : 0 <= t <= 1).
    { unfold t. split; [apply Rmult_le_pos; [lra|left; apply Rinv_0_lt_compat; lra]|]. apply (Rmult_le_reg_r (y + z)); [lra|]. unfold Rdiv. rewrite Rmult_assoc, Rinv_l by lra. lra. }
    pose proof (HC b c t Hb Hc Ht) as Hbc. pose proof (HC a _ (y + z) Ha Hbc ltac:(lra)) as H.
    replace (mean3 x y z a b c) with (along a (along b c t) (y + z)); [exact H|].
    replace x with (1 - (y + z)) by lra. unfold mean3, along, t. cbn [fst snd]. apply f_equal2; field; lra.
Qed.
(** Radon: four points have a nontrivial affine dependency *)
Lemma radon (a b c d : pt) : exists k l m n,
  (k <> 0 \/ l <> 0 \/ m <> 0 \/ n <> 0) /\ k + l + m + n = 0 /\
  k * fst a + l * fst b + m * fst c + n * fst d = 0 /\ k * snd a + l * snd b + m * snd c + n * snd d = 0.
Proof.
  destruct (v2_eq_dec a b) as [->|Hab].
  { exists 1, (-1), 0, 0. split; [lra|]. repeat split; ring. }
  destruct (Req_dec (tri2 a b c) 0) as [Z|Z].
  - (* c on the line a b *)
    assert (Hp : 0 < DD b a b) by (now apply DD_self). set (t := DD c a b / DD b a b).
    exists (1 - t), t, (-1), 0. split; [lra|]. split; [ring|].
    destruct a as [ax ay], b as [bx b_y], c as [cx cy]. unfold t, DD, tri2, det2 in *. cbn [fst snd] in *.
    set (ex := bx - ax) in *. set (ey := b_y - ay) in *. set (u := cx - ax) in *. set (v := cy - ay) in *.
    replace bx with (ax + ex) by (unfold ex; ring). replace b_y with (ay + ey) by (unfold ey; ring). replace cx with (ax + u) by (unfold u; ring). replace cy with (ay + v) by (unfold v; ring).
    assert (Z' : ex * v = ey * u) by lra.
    split.
    + apply (Rmult_eq_reg_r (ex * ex + ey * ey)); [|lra]. transitivity ((u * ex + v * ey) * ex - u * (ex * ex + ey * ey)); [field; lra|].
      rewrite Rmult_0_l. transitivity (ey * (ex * v - ey * u)); [ring|rewrite Z'; ring].
    + apply (Rmult_eq_reg_r (ex * ex + ey * ey)); [|lra]. transitivity ((u * ex + v * ey) * ey - v * (ex * ex + ey * ey)); [field; lra|].
      rewrite Rmult_0_l. transitivity (ex * (ey * u - ex * v)); [ring|rewrite Z'; ring].
  - exists (tri2 b c d), (- tri2 a c d), (tri2 a b d), (- tri2 a b c). split; [lra|].
    unfold tri2, det2. cbn [fst snd]. repeat split; ring.
Qed.
Definition pos (x : R) : R := Rmax x 0.
Lemma pos_nonneg x : 0 <= pos x.
Proof. apply Rmax_r. Qed.
Lemma pos_minus x : pos x - pos (- x) = x.
Proof. unfold pos, Rmax. destruct (Rle_dec x 0), (Rle_dec (- x) 0); lra. Qed.
Lemma pos_zero x : pos x = 0 \/ pos (- x) = 0.
Proof. unfold pos, Rmax. destruct (Rle_dec x 0), (Rle_dec (- x) 0); auto; lra. Qed.
Lemma helly4 (A B C D : pt -> Prop) : convex_set A -> convex_set B -> convex_set C -> convex_set D ->
  (exists x, B x /\ C x /\ D x) -> (exists x, A x /\ C x /\ D x) -> (exists x, A x /\ B x /\ D x) -> (exists x, A x /\ B x /\ C x) ->
  exists x, A x /\ B x /\ C x /\ D x.
Proof.
  intros HA HB HC HD (a & a1 & a2 & a3) (b & b1 & b2 & b3) (c & c1 & c2 & c3) (d & d1 & d2 & d3).
  destruct (radon a b c d) as (k & l & m & n & Hne & S0 & S1 & S2).
  set (s := pos k + pos l + pos m + pos n).
  pose proof (pos_minus k) as Mk. pose proof (pos_minus l) as Ml. pose proof (pos_minus m) as Mm. pose proof (pos_minus n) as Mn.
  pose proof (pos_nonneg k) as Pk. pose proof (pos_nonneg l) as Pl. pose proof (pos_nonneg m) as Pm. pose proof (pos_nonneg n) as Pn.
  pose proof (pos_nonneg (- k)) as Qk. pose proof (pos_nonneg (- l)) as Ql. pose proof (pos_nonneg (- m)) as Qm. pose proof (pos_nonneg (- n)) as Qn.
  assert (Es : s = pos (- k) + pos (- l) + pos (- m) + pos (- n)) by (unfold s; lra).
  assert (Hs : 0 < s) by (unfold s in *; lra).
  set (p := fun x => pos x / s). set (q := fun x => pos (- x) / s).
  assert (Pp : forall x, 0 <= p x) by (intros x; apply Rmult_le_pos; [apply pos_nonneg|left; now apply Rinv_0_lt_compat]).
  assert (Pq : forall x, 0 <= q x) by (intros x; apply Rmult_le_pos; [apply pos_nonneg|left; now apply Rinv_0_lt_compat]).
  assert (Sp : p k + p l + p m + p n = 1) by (unfold p; unfold s at 1 2 3 4; fold s; unfold s in *; field; lra).
  assert (Sq : q k + q l + q m + q n = 1) by (unfold q; rewrite Es; field; lra).
  set (r := (p k * fst a + p l * fst b + p m * fst c + p n * fst d, p k * snd a + p l * snd b + p m * snd c + p n * snd d)).
  assert (Er : r = (q k * fst a + q l * fst b + q m * fst c + q n * fst d, q k * snd a + q l * snd b + q m * snd c + q n * snd d)).
  { unfold r, p, q. apply f_equal2; apply (Rmult_eq_reg_r s); try lra.
    - transitivity (pos k * fst a + pos l * fst b + pos m * fst c + pos n * fst d); [field; lra|].
      transitivity (pos (- k) * fst a + pos (- l) * fst b + pos (- m) * fst c + pos (- n) * fst d); [|field; lra].
      replace (pos k) with (pos (- k) + k) by lra. replace (pos l) with (pos (- l) + l) by lra. replace (pos m) with (pos (- m) + m) by lra. replace (pos n) with (pos (- n) + n) by lra. lra.
    - transitivity (pos k * snd a + pos l * snd b + pos m * snd c + pos n * snd d); [field; lra|].
      transitivity (pos (- k) * snd a + pos (- l) * snd b + pos (- m) * snd c + pos (- n) * snd d); [|field; lra].
      replace (pos k) with (pos (- k) + k) by lra. replace (pos l) with (pos (- l) + l) by lra. replace (pos m) with (pos (- m) + m) by lra. replace (pos n) with (pos (- n) + n) by lra. lra. }
  assert (Z : forall x, p x = 0 \/ q x = 0).
  { intros x. unfold p, q. destruct (pos_zero x) as [E|E]; rewrite E; [left|right]; unfold Rdiv; ring. }
  exists r. split; [|split; [|split]].
  - destruct (Z k) as [E|E].
    + replace r with (mean3 (p l) (p m) (p n) b c d) by (unfold r, mean3; rewrite E; apply f_equal2; ring). apply convex_mean3; auto. lra.
    + replace r with (mean3 (q l) (q m) (q n) b c d) by (rewrite Er; unfold mean3; rewrite E; apply f_equal2; ring). apply convex_mean3; auto. lra.
  - destruct (Z l) as [E|E].
    + replace r with (mean3 (p k) (p m) (p n) a c d) by (unfold r, mean3; rewrite E; apply f_equal2; ring). apply convex_mean3; auto. lra.
    + replace r with (mean3 (q k) (q m) (q n) a c d) by (rewrite Er; unfold mean3; rewrite E; apply f_equal2; ring). apply convex_mean3; auto. lra.
  - destruct (Z m) as [E|E].
    + replace r with (mean3 (p k) (p l) (p n) a b d) by (unfold r, mean3; rewrite E; apply f_equal2; ring). apply convex_mean3; auto. lra.
    + replace r with (mean3 (q k) (q l) (q n) a b d) by (rewrite Er; unfold mean3; rewrite E; apply f_equal2; ring). apply convex_mean3; auto. lra.
  - destruct (Z n) as [E|E].
    + replace r with (mean3 (p k) (p l) (p m) a b c) by (unfold r, mean3; rewrite E; apply f_equal2; ring). apply convex_mean3; auto. lra.
    + replace r with (mean3 (q k) (q l) (q m) a b c) by (rewrite Er; unfold mean3; rewrite E; apply f_equal2; ring). apply convex_mean3; auto. lra.
Qed.
Lemma convex_and C D : convex_set C -> convex_set D -> convex_set (fun x => C x /\ D x).
Proof. intros HC HD a b t [] [] Ht. split; auto. Qed.
(** any three of the sets meet, so all do *)
Lemma helly n : forall F : list (pt -> Prop), length F = n -> (1 <= n)%nat ->
  (forall C, In C F -> convex_set C) ->
  (forall A B C, In A F -> In B F -> In C F -> exists x, A x /\ B x /\ C x) -> exists x, forall C, In C F -> C x.
Proof.
  induction n as [|n IH]; intros F Hl Hn Hc H3; [lia|]. destruct F as [|D F]; [discriminate|].
  destruct F as [|E F].
  - destruct (H3 D D D) as (x & Hx & _); try (left; reflexivity). exists x. intros C [<-|[]]. exact Hx.
  - assert (HD : In D (D :: E :: F)) by (left; reflexivity).
    destruct (IH (map (fun C x => C x /\ D x) (E :: F))) as (x & Hx).
    + rewrite map_length. cbn in *. lia.
    + cbn in Hl. lia.
    + intros C HC. apply in_map_iff in HC. destruct HC as (C' & <- & HC). apply convex_and; apply Hc; [right; exact HC|exact HD].
    + intros A B C HA HB HC. apply in_map_iff in HA, HB, HC. destruct HA as (A' & <- & HA), HB as (B' & <- & HB), HC as (C' & <- & HC).
      assert (HA' : In A' (D :: E :: F)) by (right; exact HA). assert (HB' : In B' (D :: E :: F)) by (right; exact HB). assert (HC' : In C' (D :: E :: F)) by (right; exact HC).
      destruct (helly4 A' B' C' D) as (x & X1 & X2 & X3 & X4); auto. exists x. tauto.
    + exists x. intros C [<-|HC].
      * apply (Hx (fun x => E x /\ D x)). left. reflexivity.
      * apply (Hx (fun x => C x /\ D x)). apply in_map_iff. exists C. auto.
Qed.

(** *** a strictly convex polygon is the intersection of the half planes of its edges *)
Definition inside (vs : list pt) (x : pt) : Prop := forall p q, In (p, q) (edges vs) -> 0 <= tri2 p q x.
Lemma strictly_proper vs : strictly_convex vs -> proper_edges vs.
Proof.
  intros (Hn & H3 & _) p q H E. apply edges_In in H. destruct H as (i & Hi & -> & ->).
  unfold next_vert in E. apply NoDup_vert in E; auto; [|apply Nat.mod_upper_bound; lia].
  destruct (Nat.eq_dec i (length vs - 1)) as [L|L].
  - subst i. replace (length vs - 1 + 1)%nat with (length vs) in E by lia. rewrite Nat.mod_same in E by lia. lia.
  - rewrite Nat.mod_small in E by lia. lia.
Qed.
Lemma strictly_convex_convex vs : strictly_convex vs -> convex vs.
Proof.
  intros (_ & _ & H) p q He v Hv. destruct (v2_eq_dec v p) as [->|N1]; [unfold tri2, det2; cbn [fst snd]; lra|].
  destruct (v2_eq_dec v q) as [->|N2]; [unfold tri2, det2; cbn [fst snd]; lra|]. left. now apply (H p q).
Qed.
(** the corner at a vertex: previous vertex, next vertex, positive turn *)
Lemma corner_prev vs k : strictly_convex vs -> (k < length vs)%nat -> let u := vert vs ((k + (length vs - 1)) mod length vs) in
  In u vs /\ In (u, vert vs k) (edges vs) /\ In (vert vs k, next_vert vs k) (edges vs) /\ In (next_vert vs k) vs /\ 0 < tri2 u (vert vs k) (next_vert vs k).
Proof.
  intros Hs Hk. pose proof Hs as (Hn & H3 & H). set (m := ((k + (length vs - 1)) mod length vs)%nat).
  assert (Hm : (m < length vs)%nat) by (apply Nat.mod_upper_bound; lia).
  pose proof (edge_at_In vs m Hm) as E1. pose proof (edge_at_In vs k Hk) as E2. unfold edge_at in E1, E2. rewrite (next_of_prev vs k Hk : next_vert vs m = _) in E1.
  assert (Hnx : ((k + 1) mod length vs < length vs)%nat) by (apply Nat.mod_upper_bound; lia).
  cbv zeta. fold m. split; [now apply In_vert|]. split; [exact E1|]. split; [exact E2|]. split; [now apply In_vert|].
  apply (H _ _ E1); [now apply In_vert| |].
  - intros E. unfold next_vert in E. apply NoDup_vert in E; auto. unfold m in E.
    destruct (Nat.eq_dec k 0) as [->|K0].
    + rewrite !Nat.add_0_l, !(Nat.mod_small) in E by lia. lia.
    + destruct (Nat.eq_dec k (length vs - 1)) as [K1|K1].
      * replace (k + 1)%nat with (length vs) in E by lia. rewrite Nat.mod_same in E by lia.
        replace (k + (length vs - 1))%nat with (length vs - 2 + 1 * length vs)%nat in E by lia. rewrite Nat.mod_add, Nat.mod_small in E by lia. lia.
      * rewrite (Nat.mod_small (k + 1)) in E by lia. replace (k + (length vs - 1))%nat with (k - 1 + 1 * length vs)%nat in E by lia. rewrite Nat.mod_add, Nat.mod_small in E by lia. lia.
  - intros E. apply (strictly_proper vs Hs _ _ E2). now symmetry.
Qed.
Lemma corner vs k : strictly_convex vs -> (k < length vs)%nat -> exists u,
  In u vs /\ In (u, vert vs k) (edges vs) /\ In (vert vs k, next_vert vs k) (edges vs) /\ In (next_vert vs k) vs /\ 0 < tri2 u (vert vs k) (next_vert vs k).
Proof. intros Hs Hk. eexists. apply (corner_prev vs k Hs Hk). Qed.
Lemma cone u v w x d : 0 < tri2 u v w -> 0 <= tri2 u v x -> 0 <= tri2 v w x -> v2dot d u <= v2dot d v -> v2dot d w <= v2dot d v -> v2dot d x <= v2dot d v.
Proof.
  intros H0 H1 H2 Hu Hw.
  assert (E : tri2 u v w * (v2dot d x - v2dot d v) = tri2 v w x * (v2dot d u - v2dot d v) + tri2 u v x * (v2dot d w - v2dot d v)).
  { unfold tri2, det2, v2dot. rnum. cbn [fst snd]. ring. }
  apply (Rmult_le_reg_l (tri2 u v w)); [exact H0|]. assert (tri2 v w x * (v2dot d u - v2dot d v) <= 0) by nra. assert (tri2 u v x * (v2dot d w - v2dot d v) <= 0) by nra. lra.
Qed.
(** a linear functional is largest at a vertex *)
Lemma inside_max vs d x m : strictly_convex vs -> inside vs x -> (forall v, In v vs -> v2dot d v <= m) -> v2dot d x <= m.
Proof.
  intros Hs Hx Hm.
  assert (G : forall l : list pt, l <> [] -> exists v, In v l /\ forall u, In u l -> v2dot d u <= v2dot d v).
  { induction l as [|a l IH]; [congruence|]. intros _. destruct l as [|b l]; [exists a; split; [now left|intros u [<-|[]]; lra]|].
    destruct IH as (v & Hv & Hmax); [discriminate|]. destruct (Rle_lt_dec (v2dot d a) (v2dot d v)) as [L|L].
    - exists v. split; [now right|]. intros u [<-|Hu]; auto.
    - exists a. split; [now left|]. intros u [<-|Hu]; [lra|]. pose proof (Hmax u Hu). lra. }
  destruct (G vs) as (v & Hv & Hmax). { destruct Hs as (_ & H3 & _). intros ->. cbn in H3. lia. }
  apply Rle_trans with (v2dot d v); [|auto]. destruct (vert_In _ _ Hv) as (k & Hk & ->). destruct (corner vs k Hs Hk) as (u & U1 & U2 & U3 & U4 & U5).
  apply (cone u (vert vs k) (next_vert vs k)); auto.
Qed.
Lemma nearest_exists vs p : strictly_convex vs -> (forall d, exists r, get_support vs d = Ok r) -> exists q, nearest vs p q.
Proof.
  intros Hs Hd. destruct (gjk_total p vs (proj1 Hs) (strictly_no_collinear vs Hs) Hd 0%nat (length vs * length vs + 2)%nat) as ([q ids] & E).
  - destruct Hs as (_ & H3 & _). lia.
  - lia.
  - exists q. assert (Hl : (0 < length vs)%nat) by (destruct Hs as (_ & H3 & _); lia).
    apply (gjk_ok _ _ _ [0%nat] q ids (proj1 Hs)) in E; [apply E|]. split; [repeat constructor; intros []|]. split; [cbn; lia|repeat constructor; exact Hl].
Qed.
Definition shift (d : pt) (vs : list pt) : list pt := map (fun v => v2add v d) vs.
Lemma tri2_shift p q x d : tri2 (v2add p d) (v2add q d) (v2add x d) = tri2 p q x.
Proof. unfold tri2, det2, v2add. rnum. cbn [fst snd]. ring. Qed.
Lemma v2add_inj (p q d : pt) : v2add p d = v2add q d -> p = q.
Proof. destruct p, q, d. unfold v2add. rnum. cbn. intros H. inversion H. apply f_equal2; lra. Qed.
Lemma v2sub_add (x d : pt) : v2add (v2sub x d) d = x.
Proof. destruct x, d. unfold v2add, v2sub. rnum. cbn. apply f_equal2; ring. Qed.
Lemma v2add_sub (x d : pt) : v2sub (v2add x d) d = x.
Proof. destruct x, d. unfold v2add, v2sub. rnum. cbn. apply f_equal2; ring. Qed.
Lemma strictly_convex_shift d vs : strictly_convex vs -> strictly_convex (shift d vs).
Proof.
  intros (H1 & H2 & H3). unfold shift. split; [apply FinFun.Injective_map_NoDup; [intros p q; apply v2add_inj|exact H1]|]. split; [now rewrite map_length|].
  intros p q He v Hv N1 N2. rewrite edges_map in He. apply in_map_iff in He. destruct He as ([p' q'] & E & He). cbn [fst snd] in E. inversion E; subst p q; clear E.
  apply in_map_iff in Hv. destruct Hv as (v' & <- & Hv). rewrite tri2_shift. apply (H3 p' q' He v' Hv); congruence.
Qed.
Lemma inside_shift d vs x : inside (shift d vs) x <-> inside vs (v2sub x d).
Proof.
  unfold inside, shift. rewrite edges_map. split; intros H p q He.
  - rewrite <- (tri2_shift p q _ d), v2sub_add. apply H. apply in_map_iff. exists (p, q). auto.
  - apply in_map_iff in He. destruct He as ([p' q'] & E & He). cbn [fst snd] in E. inversion E; subst. rewrite <- (v2sub_add x d). rewrite tri2_shift. auto.
Qed.
Lemma wsum_shift ws vs d : length ws = length vs -> wsum ws fst (shift d vs) = wsum ws fst vs + Rsum ws * fst d /\ wsum ws snd (shift d vs) = wsum ws snd vs + Rsum ws * snd d.
Proof.
  revert vs. induction ws as [|w ws IH]; intros [|v vs] H; try discriminate; unfold wsum in *; cbn [shift map combine fst snd]; [cbn; lra|].
  fold (shift d vs). rewrite ?Rsum_cons. destruct (IH vs) as [E1 E2]; [cbn in H; lia|]. rewrite E1, E2. unfold v2add. rnum. cbn [fst snd]. lra.
Qed.
Lemma in_hull_shift d vs x : in_hull (shift d vs) x <-> in_hull vs (v2sub x d).
Proof.
  split; intros (ws & L & P & S & X & Y); exists ws.
  - unfold shift in L. rewrite map_length in L. destruct (wsum_shift ws vs d L) as [E1 E2]. rewrite S in *.
    repeat split; auto; unfold v2sub; rnum; cbn [fst snd]; lra.
  - destruct (wsum_shift ws vs d L) as [E1 E2]. rewrite S in *. unfold v2sub in X, Y. rnum. cbn [fst snd] in *.
    repeat split; auto; [unfold shift; now rewrite map_length|lra|lra].
Qed.
Lemma inside_hull vs x : strictly_convex vs -> inside vs x -> in_hull vs x.
Proof.
  intros Hs Hx. set (o := (0, 0) : pt). set (d := v2sub o x).
  assert (Hs' : strictly_convex (shift d vs)) by (now apply strictly_convex_shift).
  assert (E : v2sub o d = x) by (unfold d, o, v2sub; destruct x; rnum; cbn [fst snd]; apply f_equal2; ring).
  assert (Ho : inside (shift d vs) o) by (apply inside_shift; rewrite E; exact Hx).
  assert (Z : forall u : pt, v2dot u o = 0) by (intros u; unfold v2dot, o; rnum; cbn [fst snd]; ring).
  destruct (nearest_exists (shift d vs) o Hs') as (q & Hq).
  { intros u. destruct (some_or_all (fun v => v2dot v u + 1) (shift d vs)) as [(v & Hv & L)|A].
    - destruct (get_support_total (shift d vs) u v Hv) as (p & i & G); [lra|]. eauto.
    - exfalso. pose proof (inside_max (shift d vs) u o (-1) Hs' Ho) as M. rewrite Z in M. assert (0 <= -1); [|lra]. apply M. intros v Hv. pose proof (A v Hv).
      replace (v2dot u v) with (v2dot v u) by (unfold v2dot; rnum; ring). lra. }
  pose proof (nearest_cond_inv _ _ _ Hq) as C. pose proof (inside_max (shift d vs) (v2sub o q) o (v2dot (v2sub o q) q) Hs' Ho) as M.
  assert (Eq : q = o).
  { assert (v2dot (v2sub o q) o <= v2dot (v2sub o q) q).
    { apply M. intros v Hv. pose proof (C v Hv). unfold v2dot, v2sub. rnum. cbn [fst snd]. lra. }
    rewrite Z in H. unfold v2dot, v2sub, o in H. rnum. cbn [fst snd] in H. destruct q as [qx qy]. cbn [fst snd] in *.
    destruct (sumsq0 qx qy) as [-> ->]; [pose proof (sumsq qx qy); lra|reflexivity]. }
  subst q. destruct Hq as [Hq _]. apply in_hull_shift in Hq. now rewrite E in Hq.
Qed.
Lemma hull_inside vs x : convex vs -> in_hull vs x -> inside vs x.
Proof.
  intros Hc Hx p q He. assert (L : aff (tri2 p q (0,0) * -1) (snd q - snd p) (- (fst q - fst p)) x <= 0).
  { apply (in_hull_aff vs); [exact Hx|]. intros v Hv. pose proof (Hc p q He v Hv) as P. unfold aff, tri2, det2 in *. cbn [fst snd] in *. lra. }
  unfold aff, tri2, det2 in *. cbn [fst snd] in *. lra.
Qed.
Lemma hull_iff_inside vs x : strictly_convex vs -> (in_hull vs x <-> inside vs x).
Proof. intros H. split; [apply hull_inside; now apply strictly_convex_convex|now apply inside_hull]. Qed.

(** *** completeness of the separating-axis test *)
Lemma separation_exists vs d e : vs <> [] -> exists m, separation vs d e m.
Proof.
  unfold separation. generalize (fun v => edge_dist e (v2add v d)). intros f. induction vs as [|a vs IH]; [congruence|]. intros _.
  destruct vs as [|b vs]. { exists (f a). split; [exists a; split; [now left|reflexivity]|]. intros x [<-|[]]. lra. }
  destruct IH as (m & (v & Hv & E) & H); [discriminate|]. destruct (Rle_lt_dec (f a) m) as [L|L].
  - exists (f a). split; [exists a; split; [now left|reflexivity]|]. intros x [<-|Hx]; [lra|]. pose proof (H x Hx). lra.
  - exists m. split; [exists v; split; [now right|exact E]|]. intros x [<-|Hx]; [lra|auto].
Qed.
Lemma edge_dist_neg e x : fst e <> snd e -> (edge_dist e x <= 0 <-> 0 <= tri2 (fst e) (snd e) x).
Proof.
  intros H. apply dist_pos in H. unfold edge_dist. set (D := dist _ _) in *. split; intros L.
  - apply (Rmult_le_compat_r D) in L; [|lra]. unfold Rdiv in L. rewrite Rmult_assoc, Rinv_l in L by lra. lra.
  - apply (Rmult_le_reg_r D); [lra|]. unfold Rdiv. rewrite Rmult_assoc, Rinv_l by lra. lra.
Qed.
(** no edge of [P] has [Q] moved by [d] strictly outside *)
Definition not_outside (P Q : list pt) (d : pt) : Prop := forall e m, In e (edges P) -> separation Q d e m -> m <= 0.
Lemma not_outside_vertex P Q d e : proper_edges P -> Q <> [] -> not_outside P Q d -> In e (edges P) -> exists v, In v Q /\ 0 <= tri2 (fst e) (snd e) (v2add v d).
Proof.
  intros Hp Hq H He. destruct (separation_exists Q d e Hq) as (m & Hm). pose proof (H e m He Hm) as L. destruct Hm as ((v & Hv & E) & _).
  exists v. split; [exact Hv|]. apply edge_dist_neg; [destruct e; now apply Hp|]. lra.
Qed.
Lemma half_convex p q d : convex_set (fun x => 0 <= tri2 p q (v2add x d)).
Proof.
  intros a b t Ha Hb Ht.
  assert (E : tri2 p q (v2add (along a b t) d) = (1 - t) * tri2 p q (v2add a d) + t * tri2 p q (v2add b d)).
  { unfold tri2, det2, along, v2add. rnum. cbn [fst snd]. ring. }
  rewrite E. nra.
Qed.
Lemma sat_complete P Q d : strictly_convex P -> strictly_convex Q -> not_outside P Q d -> not_outside Q P (v2opp d) ->
  exists x, in_hull P x /\ in_hull Q (v2sub x d).
Proof.
  intros HP HQ H1 H2. pose proof (strictly_proper _ HP) as PP. pose proof (strictly_proper _ HQ) as PQ.
  assert (NP : P <> []) by (intros ->; destruct HP as (_ & H & _); cbn in H; lia). assert (NQ : Q <> []) by (intros ->; destruct HQ as (_ & H & _); cbn in H; lia).
  set (o := (0, 0) : pt).
  assert (A0 : forall x : pt, v2add x o = x) by (intros x; apply v2add_0).
  assert (AO : forall x : pt, v2add (v2add x d) (v2opp d) = x) by (intros [? ?]; unfold v2add, v2opp; rnum; cbn [fst snd]; apply f_equal2; ring).
  set (FP := map (fun e x => 0 <= tri2 (fst e) (snd e) (v2add x o)) (edges P)).
  set (FQ := map (fun e x => 0 <= tri2 (fst e) (snd e) (v2add x (v2opp d))) (edges Q)).
  pose proof (strictly_convex_convex _ HP) as CP. pose proof (strictly_convex_convex _ HQ) as CQ.
  assert (TP : forall C, In C FQ -> exists x, C x /\ forall D, In D FP -> D x).
  { intros C HC. apply in_map_iff in HC. destruct HC as (e & <- & He). destruct (not_outside_vertex Q P (v2opp d) e PQ NP H2 He) as (v & Hv & L).
    exists v. split; [exact L|]. intros D HD. apply in_map_iff in HD. destruct HD as ([p q] & <- & HD). cbn [fst snd]. rewrite A0. now apply CP. }
  assert (TQ : forall C, In C FP -> exists x, C x /\ forall D, In D FQ -> D x).
  { intros C HC. apply in_map_iff in HC. destruct HC as (e & <- & He). destruct (not_outside_vertex P Q d e PP NQ H1 He) as (v & Hv & L).
    exists (v2add v d). rewrite A0. split; [exact L|]. intros D HD. apply in_map_iff in HD. destruct HD as ([p q] & <- & HD). cbn [fst snd]. rewrite AO. now apply CQ. }
  assert (NE : forall l : list pt, l <> [] -> exists e, In e (edges l)).
  { intros [|a l] H; [congruence|]. exists (edge_at (a :: l) 0). apply edge_at_In. cbn. lia. }
  assert (XP : exists x, forall D, In D FP -> D x).
  { destruct (NE Q NQ) as (e & He). destruct (TP (fun x => 0 <= tri2 (fst e) (snd e) (v2add x (v2opp d)))) as (x & _ & Hx); [apply in_map_iff; eauto|]. eauto. }
  assert (XQ : exists x, forall D, In D FQ -> D x).
  { destruct (NE P NP) as (e & He). destruct (TQ (fun x => 0 <= tri2 (fst e) (snd e) (v2add x o))) as (x & _ & Hx); [apply in_map_iff; eauto|]. eauto. }
  destruct (helly (length (FP ++ FQ)) (FP ++ FQ) eq_refl) as (x & Hx).
  - destruct (NE P NP) as (e & He). unfold FP. rewrite app_length, map_length. destruct (edges P); [destruct He|cbn; lia].
  - intros C HC. apply in_app_or in HC. destruct HC as [HC|HC]; apply in_map_iff in HC; destruct HC as (e & <- & _); apply half_convex.
  - intros A B C HA HB HC. apply in_app_or in HA, HB, HC.
    destruct HA as [HA|HA], HB as [HB|HB], HC as [HC|HC].
    + destruct XP as (x & Hx). exists x. exact (conj (Hx A HA) (conj (Hx B HB) (Hx C HC))).
    + destruct (TP _ HC) as (x & X1 & X2). exists x. repeat split; first [exact X1|exact (X2 A HA)|exact (X2 B HB)|exact (X2 C HC)].
    + destruct (TP _ HB) as (x & X1 & X2). exists x. repeat split; first [exact X1|exact (X2 A HA)|exact (X2 B HB)|exact (X2 C HC)].
    + destruct (TQ _ HA) as (x & X1 & X2). exists x. repeat split; first [exact X1|exact (X2 A HA)|exact (X2 B HB)|exact (X2 C HC)].
    + destruct (TP _ HA) as (x & X1 & X2). exists x. repeat split; first [exact X1|exact (X2 A HA)|exact (X2 B HB)|exact (X2 C HC)].
    + destruct (TQ _ HB) as (x & X1 & X2). exists x. repeat split; first [exact X1|exact (X2 A HA)|exact (X2 B HB)|exact (X2 C HC)].
    + destruct (TQ _ HC) as (x & X1 & X2). exists x. repeat split; first [exact X1|exact (X2 A HA)|exact (X2 B HB)|exact (X2 C HC)].
    + destruct XQ as (x & Hx). exists x. exact (conj (Hx A HA) (conj (Hx B HB) (Hx C HC))).
  - exists x. split; apply inside_hull; auto; intros p q He.
    + rewrite <- (A0 x). apply (Hx (fun x => 0 <= tri2 (fst (p, q)) (snd (p, q)) (v2add x o))). apply in_or_app. left. apply in_map_iff. exists (p, q). auto.
    + replace (v2sub x d) with (v2add x (v2opp d)) by (unfold v2add, v2opp, v2sub; rnum; cbn [fst snd]; apply f_equal2; ring).
      apply (Hx (fun x => 0 <= tri2 (fst (p, q)) (snd (p, q)) (v2add x (v2opp d)))). apply in_or_app. right. apply in_map_iff. exists (p, q). auto.
Qed.
(** a point of the polygon on the line of an edge is on the edge *)
Lemma edge_segment vs p q x : strictly_convex vs -> In (p, q) (edges vs) -> inside vs x -> tri2 p q x = 0 -> on_segment p q x.
Proof.
  intros Hs He Hx Hz. pose proof (strictly_proper _ Hs _ _ He) as Hne. apply dist_pos in Hne. pose proof (dist_sq p q) as DS. set (D := dist p q) in *.
  assert (HD : 0 < D * D) by nra.
  set (t := ((fst q - fst p) * (fst x - fst p) + (snd q - snd p) * (snd x - snd p)) / (D * D)).
  assert (Ex : x = along p q t).
  { destruct x as [x1 x2], p as [p1 p2], q as [q1 q2]. unfold along, t, tri2, det2 in *. cbn [fst snd] in *.
    set (ex := q1 - p1) in *. set (ey := q2 - p2) in *. set (u := x1 - p1) in *. set (v := x2 - p2) in *.
    assert (Q : D * D = ex * ex + ey * ey) by (rewrite DS; unfold ex, ey; ring). assert (Z : ex * v = ey * u) by lra.
    replace x1 with (p1 + u) by (unfold u; ring). replace x2 with (p2 + v) by (unfold v; ring).
    apply f_equal2; apply (Rmult_eq_reg_r (D * D)); try lra.
    - transitivity (p1 * (D * D) + (ex * u + ey * v) * ex); [rewrite Q|field; lra]. assert (K : ey * (ex * v) = ey * (ey * u)) by (now rewrite Z). lra.
    - transitivity (p2 * (D * D) + (ex * u + ey * v) * ey); [rewrite Q|field; lra]. assert (K : ex * (ex * v) = ex * (ey * u)) by (now rewrite Z). lra. }
  exists t. split; [|exact Ex]. apply edges_In in He. destruct He as (i & Hi & Ep & Eq).
  split.
  - (* the edge before *)
    destruct (corner vs i Hs Hi) as (u & U1 & U2 & U3 & U4 & U5). rewrite <- Ep, <- Eq in *. pose proof (Hx _ _ U2) as L. rewrite Ex in L.
    assert (E : tri2 u p (along p q t) = t * tri2 u p q) by (unfold tri2, det2, along; cbn [fst snd]; ring). rewrite E in L. nra.
  - (* the edge after *)
    set (k := ((i + 1) mod length vs)%nat). assert (Hk : (k < length vs)%nat) by (apply Nat.mod_upper_bound; lia).
    assert (Ek : q = vert vs k) by (rewrite Eq; reflexivity).
    pose proof (edge_at_In vs k Hk) as E2. unfold edge_at in E2. rewrite <- Ek in E2. set (w := next_vert vs k) in *.
    assert (Hw : In w vs) by (apply (edges_In_l _ _ _ E2)).
    assert (Hp : In p vs) by (rewrite Ep; now apply In_vert).
    pose proof (Hx _ _ E2) as L. rewrite Ex in L.
    assert (E : tri2 q w (along p q t) = (1 - t) * tri2 q w p) by (unfold tri2, det2, along; cbn [fst snd]; ring). rewrite E in L.
    assert (0 < tri2 q w p); [|nra].
    destruct (corner vs k Hs Hk) as (u & U1 & U2 & U3 & U4 & U5). rewrite <- Ek in *. fold w in U3, U4, U5.
    assert (Eu : u = p).
    { apply edges_In in U2. destruct U2 as (j & Hj & Eu & Ev). destruct Hs as (Hn & H3 & _). rewrite Ek in Ev. unfold next_vert in Ev.
      apply NoDup_vert in Ev; auto; [|apply Nat.mod_upper_bound; lia]. unfold k in Ev. rewrite Eu, Ep. f_equal.
      destruct (Nat.eq_dec i (length vs - 1)), (Nat.eq_dec j (length vs - 1)); try lia.
      - subst i. replace (length vs - 1 + 1)%nat with (length vs) in Ev by lia. rewrite Nat.mod_same, Nat.mod_small in Ev by lia. lia.
      - subst j. replace (length vs - 1 + 1)%nat with (length vs) in Ev by lia. rewrite Nat.mod_same, Nat.mod_small in Ev by lia. lia.
      - rewrite !Nat.mod_small in Ev by lia. lia. }
    rewrite Eu in U5. replace (tri2 q w p) with (tri2 p q w) by (unfold tri2, det2; cbn [fst snd]; ring). exact U5.
Qed.
