(** the GJK loop terminates on strictly convex hulls *)
From Coq Require Import List Arith ZArith Bool Reals Lra Lia Psatz.
From Verif Require Import Num Tensor Utils Bodies Forces Constraints Contacts World Spec ResFacts RBase GeoSpec BodySpec ContactSpec
     BodyFacts RigidFacts GeomFacts HandlerFacts BodyReach PlaneFacts SupportFacts SatFacts GjkFacts GjkLoop.
Import ListNotations.
Open Scope R_scope.

(** *** no three vertices on a line *)
Definition no_collinear (vs : list pt) : Prop :=
  forall a b c, In a vs -> In b vs -> In c vs -> a <> b -> b <> c -> c <> a -> tri2 a b c <> 0.
Lemma no_between vs u v w t : strictly_convex vs -> In u vs -> In v vs -> In w vs -> u <> v -> w <> v -> 0 < t < 1 -> v = along u w t -> u = w.
Proof.
  intros (_ & _ & H) Hu Hv Hw Nu Nw Ht E. destruct (v2_eq_dec u w) as [D|D]; [exact D|exfalso].
  destruct (vert_In _ _ Hv) as (i & Hi & Ev). pose proof (edge_at_In vs i Hi) as He. unfold edge_at in He. rewrite <- Ev in He. set (v' := next_vert vs i) in *.
  assert (Lin : (1 - t) * tri2 v v' u + t * tri2 v v' w = 0). { rewrite E. unfold tri2, det2, along. cbn [fst snd]. ring. }
  assert (Z : forall x, In x vs -> x <> v -> 0 <= tri2 v v' x /\ (x <> v' -> 0 < tri2 v v' x)).
  { intros x Hx Nx. split.
    - destruct (v2_eq_dec x v') as [->|Nx']; [unfold tri2, det2; cbn [fst snd]; lra|]. left. now apply (H _ _ He).
    - intros Nx'. now apply (H _ _ He). }
  destruct (Z u Hu Nu) as [U1 U2]. destruct (Z w Hw Nw) as [W1 W2].
  destruct (v2_eq_dec u v') as [Eu|Eu].
  - assert (w <> v') by congruence. pose proof (W2 H0). nra.
  - pose proof (U2 Eu). nra.
Qed.
Lemma strictly_no_collinear vs : strictly_convex vs -> no_collinear vs.
Proof.
  intros Hs a b c Ha Hb Hc Nab Nbc Nca Z.
  assert (Hp : 0 < DD b a b) by (now apply DD_self). set (L := DD b a b) in *.
  set (t := DD c a b / L).
  assert (Ec : c = along a b t).
  { destruct c as [cx cy], a as [x1 y1], b as [x2 y2]. unfold along, t, L, DD, tri2, det2 in *. cbn [fst snd] in *.
    apply f_equal2; apply (Rmult_eq_reg_r ((x2 - x1) * (x2 - x1) + (y2 - y1) * (y2 - y1))); try lra.
    - transitivity (x1 * ((x2 - x1) * (x2 - x1) + (y2 - y1) * (y2 - y1)) + ((cx - x1) * (x2 - x1) + (cy - y1) * (y2 - y1)) * (x2 - x1)); [|field; lra].
      assert (K : (y2 - y1) * ((x2 - x1) * (cy - y1)) = (y2 - y1) * ((y2 - y1) * (cx - x1))) by (f_equal; lra). lra.
    - transitivity (y1 * ((x2 - x1) * (x2 - x1) + (y2 - y1) * (y2 - y1)) + ((cx - x1) * (x2 - x1) + (cy - y1) * (y2 - y1)) * (y2 - y1)); [|field; lra].
      assert (K : (x2 - x1) * ((x2 - x1) * (cy - y1)) = (x2 - x1) * ((y2 - y1) * (cx - x1))) by (f_equal; lra). lra. }
  assert (T0 : t <> 0) by (intros E; rewrite E, along_0 in Ec; congruence).
  assert (T1 : t <> 1) by (intros E; rewrite E, along_1 in Ec; congruence).
  destruct (Rlt_le_dec t 0) as [Tn|Tn]; [|destruct (Rlt_le_dec t 1) as [Tm|Tm]].
  - (* a between b and c *)
    apply Nbc. apply (no_between vs b a c (1 / (1 - t))); auto.
    + split; [apply Rdiv_lt_0_compat; lra|]. apply (Rmult_lt_reg_r (1 - t)); [lra|]. unfold Rdiv. rewrite Rmult_assoc, Rinv_l by lra. lra.
    + rewrite Ec. unfold along. destruct a, b. cbn [fst snd]. apply f_equal2; field; lra.
  - apply Nab. apply (no_between vs a c b t); auto. lra.
  - apply Nca. symmetry. apply (no_between vs a b c (1 / t)); auto.
    + split; [apply Rdiv_lt_0_compat; lra|]. apply (Rmult_lt_reg_r t); [lra|]. unfold Rdiv. rewrite Rmult_assoc, Rinv_l by lra. lra.
    + rewrite Ec. unfold along. destruct a, b. cbn [fst snd]. apply f_equal2; field; lra.
Qed.
Lemma simplex_independent vs sx : NoDup vs -> no_collinear vs -> simplex_ok vs sx -> independent (map (vert vs) sx).
Proof.
  intros Hn Hc (H1 & H2 & H3). destruct sx as [|i [|j [|k [|l sx]]]]; cbn in H2; try lia.
  - exact I.
  - cbn. intros E. inversion H3 as [|? ? Hi H4]; subst. inversion H4 as [|? ? Hj H5]; subst. apply NoDup_vert in E; auto.
    inversion H1 as [|? ? Hx _]; subst. apply Hx. left. reflexivity.
  - cbn. inversion H3 as [|? ? Hi H4]; subst. inversion H4 as [|? ? Hj H5]; subst. inversion H5 as [|? ? Hk _]; subst.
    inversion H1 as [|? ? Ni N2]; subst. inversion N2 as [|? ? Nj _]; subst. cbn in Ni, Nj.
    apply Hc; try (now apply In_vert); intros E; apply NoDup_vert in E; auto; intuition congruence.
Qed.

(** *** the ids get_closest can return *)
Definition id_forms : list (list nat) := [[0]; [1]; [2]; [0; 1]; [1; 2]; [2; 0]; [0; 1; 2]]%nat.
Lemma closest_forms (p : pt) vs q ids : get_closest p vs = Ok (q, ids) -> In ids id_forms.
Proof.
  unfold get_closest. destruct vs as [|a [|b [|c [|d vs]]]]; try discriminate.
  - intros H. inversion H. cbn. auto.
  - destruct (bary2 p a b) as [u v]. intros H. destruct (nleb u n0); [inversion H; cbn; auto|]. destruct (nleb v n0); inversion H; cbn; auto 10.
  - destruct (bary2 p a b) as [u1 v1]. destruct (bary2 p b c) as [u2 v2]. destruct (bary2 p c a) as [u3 v3]. intros H. bind_inv H as t E. destruct t as [[u v] w].
    repeat match type of H with (if ?x then _ else _) = _ => destruct x end; inversion H; cbn; auto 10.
Qed.
Lemma tri2_comb a b (us : list pt) ws q : length ws = length us -> Rsum ws = 1 -> fst q = wsum ws fst us -> snd q = wsum ws snd us ->
  tri2 a b q = wsum ws (fun v => tri2 a b v) us.
Proof.
  intros L S X Y. assert (E : forall ws us, length ws = length us -> wsum ws (fun v => tri2 a b v) us =
    - (fst b - fst a) * snd a * Rsum ws + (snd b - snd a) * fst a * Rsum ws + (fst b - fst a) * wsum ws snd us - (snd b - snd a) * wsum ws fst us).
  { clear. induction ws as [|w ws IH]; intros [|u us] L; try discriminate; unfold wsum in *; cbn [combine map fst snd]; rewrite ?Rsum_cons; [cbn; ring|].
    rewrite IH by (cbn in L; lia). unfold tri2, det2. cbn [fst snd]. ring. }
  rewrite E, S, <- X, <- Y by auto. unfold tri2, det2. cbn [fst snd]. ring.
Qed.
(** if the closest point does not move, the same points are used *)
Lemma stall_ids us c q ids : independent (us ++ [c]) -> (length us = 1 \/ length us = 2)%nat -> inner_mean us q ->
  In ids id_forms -> Forall (fun k => (k < length (us ++ [c]))%nat) ids -> inner_mean (used (us ++ [c]) ids) q -> ids = seq 0 (length us).
Proof.
  intros Hi Hl Hq Hf Hb Hm. destruct us as [|a [|b [|]]]; cbn in Hl; try lia.
  - cbn in Hi, Hb. assert (q = a). { destruct Hq as (ws & L & _ & S & X & Y). destruct ws as [|w [|]]; try discriminate. unfold wsum in *. cbn in *. destruct q, a; cbn in *. apply f_equal2; nra. } subst q.
    destruct Hm as (ws & L & F & S & X & Y).
    repeat (destruct Hf as [<-|Hf]; [try reflexivity|]); [| | | | | |destruct Hf]; cbn in L;
      repeat match goal with H : Forall _ (_ :: _) |- _ => inversion H; subst; clear H end; try lia.
    + destruct ws as [|w [|]]; try discriminate. unfold wsum in *. cbn in *. exfalso. apply Hi. destruct a, c; cbn in *. apply f_equal2; nra.
    + destruct ws as [|w [|w2 [|]]]; try discriminate. repeat match goal with H : Forall _ (_ :: _) |- _ => inversion H; subst; clear H end. unfold wsum in *. cbn in *.
      exfalso. apply Hi. destruct a, c; cbn in *. assert (w = 1 - w2) by lra. subst w. apply f_equal2; nra.
  - cbn in Hi, Hb. assert (Hne : a <> b) by (apply (tri_distinct a b c Hi)).
    assert (Zq : tri2 a b q = 0).
    { destruct Hq as (ws & L & _ & S & X & Y). rewrite (tri2_comb a b _ _ _ L S X Y). destruct ws as [|w [|w2 [|]]]; try discriminate. unfold wsum. cbn. unfold tri2, det2. cbn [fst snd]. ring. }
    assert (Za : tri2 a b a = 0) by (unfold tri2, det2; cbn [fst snd]; ring). assert (Zb : tri2 a b b = 0) by (unfold tri2, det2; cbn [fst snd]; ring).
    assert (Nq : q <> a /\ q <> b).
    { destruct Hq as (ws & L & F & S & X & Y). destruct ws as [|w [|w2 [|]]]; try discriminate. repeat match goal with H : Forall _ (_ :: _) |- _ => inversion H; subst; clear H end.
      unfold wsum in *. cbn in *. assert (w = 1 - w2) by lra. subst w. split; intros ->; apply Hne; destruct a, b; cbn in *; apply f_equal2; nra. }
    destruct Hm as (ws & L & F & S & X & Y). pose proof (tri2_comb a b _ _ _ L S X Y) as T. rewrite Zq in T.
    repeat (destruct Hf as [<-|Hf]; [try reflexivity|]); [| | | | | |destruct Hf]; cbn in L; unfold used in *; cbn [map nth app] in *;
      destruct ws as [|w [|w2 [|w3 [|]]]]; try discriminate; repeat match goal with H : Forall _ (_ :: _) |- _ => inversion H; subst; clear H end;
      unfold wsum in *; cbn [combine map fst snd Rsum fold_right] in *; rewrite ?Za, ?Zb in T.
    + exfalso. apply (proj1 Nq). destruct q, a; cbn in *. apply f_equal2; nra.
    + exfalso. apply (proj2 Nq). destruct q, b; cbn in *. apply f_equal2; nra.
    + exfalso. apply Hi. nra.
    + exfalso. apply Hi. nra.
    + exfalso. apply Hi. nra.
    + exfalso. apply Hi. nra.
Qed.

(** *** a measure *)
Definition chord_pt (p : pt) (vs : list pt) (ij : nat * nat) : pt :=
  if Nat.eqb (fst ij) (snd ij) then vert vs (fst ij)
  else match get_closest p [vert vs (fst ij); vert vs (snd ij)] with Ok (q, _) => q | Err _ => p end.
Definition candidates (p : pt) (vs : list pt) : list pt :=
  map (chord_pt p vs) (list_prod (seq 0 (length vs)) (seq 0 (length vs))).
Definition closer (p q : pt) (vs : list pt) : nat := length (filter (fun x => Rltb (dist p x) (dist p q)) (candidates p vs)).
Lemma closer_bound p q vs : (closer p q vs <= length vs * length vs)%nat.
Proof.
  unfold closer. assert (G : forall A (f : A -> bool) l, (length (filter f l) <= length l)%nat) by (intros A f l; induction l as [|x l IH]; cbn; [lia|]; destruct (f x); cbn; lia).
  eapply Nat.le_trans; [apply G|]. unfold candidates. rewrite map_length, prod_length, seq_length. lia.
Qed.
Lemma filter_lt {A} (f g : A -> bool) l x : (forall y, f y = true -> g y = true) -> In x l -> f x = false -> g x = true -> (length (filter f l) < length (filter g l))%nat.
Proof.
  intros H. assert (Le : forall l, (length (filter f l) <= length (filter g l))%nat).
  { induction l0 as [|y l0 IH]; cbn; [lia|]. destruct (f y) eqn:E; [rewrite (H _ E); cbn; lia|]. destruct (g y); cbn; lia. }
  induction l as [|y l IH]; intros Hx Hf Hg; [destruct Hx|]. cbn. destruct Hx as [->|Hx].
  - rewrite Hf, Hg. cbn. specialize (Le l). lia.
  - specialize (IH Hx Hf Hg). destruct (f y) eqn:E; [rewrite (H _ E); cbn; lia|]. destruct (g y); cbn; lia.
Qed.
Lemma closer_lt p q q' vs : In q' (candidates p vs) -> dist p q' < dist p q -> (closer p q' vs < closer p q vs)%nat.
Proof.
  intros Hin L. unfold closer. apply (filter_lt _ _ _ q'); auto.
  - intros y Hy. apply Rltb_true in Hy. apply Rltb_true. lra.
  - apply Rltb_false. lra.
  - now apply Rltb_true.
Qed.
Lemma candidate_in p q vs us : NoDup us -> Forall (fun k => (k < length vs)%nat) us -> (length us = 1 \/ length us = 2)%nat -> NoDup vs ->
  nearest (map (vert vs) us) p q -> In q (candidates p vs).
Proof.
  intros Hd Hb Hl Hn H. destruct us as [|i [|j [|]]]; cbn in Hl; try lia.
  - inversion Hb as [|? ? Hi _]; subst. apply in_map_iff. exists (i, i). split; [|apply in_prod; apply in_seq; lia].
    unfold chord_pt. cbn [fst snd]. rewrite Nat.eqb_refl. apply (nearest_unique [vert vs i] p); [apply (closest1 p)|exact H].
  - inversion Hb as [|? ? Hi Hb']; subst. inversion Hb' as [|? ? Hj _]; subst. inversion Hd as [|? ? Hij _]; subst.
    assert (Nij : i <> j) by (intros ->; apply Hij; now left).
    apply in_map_iff. exists (i, j). split; [|apply in_prod; apply in_seq; lia].
    unfold chord_pt. cbn [fst snd]. apply Nat.eqb_neq in Nij. rewrite Nij.
    destruct (closest2 p (vert vs i) (vert vs j)) as (q' & ids & E & N & _).
    { intros E. apply NoDup_vert in E; auto. apply Nat.eqb_neq in Nij. congruence. }
    rewrite E. apply (nearest_unique [vert vs i; vert vs j] p); [exact N|exact H].
Qed.

(** *** termination *)
Section Term.
Variables (p : pt) (vs : list pt).
Hypothesis Hn : NoDup vs.
Hypothesis Hc : no_collinear vs.
Hypothesis Hs : forall d, exists r, get_support vs d = Ok r.
Lemma closest_total sx : simplex_ok vs sx -> exists q ids, get_closest p (map (vert vs) sx) = Ok (q, ids).
Proof. intros H. destruct (closest_independent p _ (simplex_independent _ _ Hn Hc H)) as (q & ids & E & _). eauto. Qed.
Lemma gjk_terminates : forall m sx q ids fuel, simplex_ok vs sx -> get_closest p (map (vert vs) sx) = Ok (q, ids) ->
  (length ids = 3 \/ closer p q vs <= m)%nat -> (m + 2 <= fuel)%nat -> exists r, gjk fuel p vs sx = Ok r.
Proof.
  induction m as [m IH] using lt_wf_ind. intros sx q ids fuel Hsx E Hm Hf. destruct fuel as [|[|fuel]]; try lia.
  rewrite gjk_S, E. cbn [bind fst snd]. destruct (Nat.eqb_spec (length ids) 3) as [L3|L3]; [eauto|].
  destruct (gjk_round vs sx p q ids Hn Hsx E) as (R1 & R2 & R3 & R4 & R5 & R6 & R7 & R8 & R9 & R10).
  set (us := map (fun k => nth k sx 0%nat) ids) in *. assert (L12 : (length ids = 1 \/ length ids = 2)%nat) by lia.
  destruct (_ && _)%bool eqn:Z; [eauto|]. destruct (Hs (gjk_dir vs sx ids q p)) as [[sp k] Es]. rewrite Es. cbn [bind snd].
  destruct (existsb (Nat.eqb k) sx) eqn:Ex; [eauto|].
  destruct (get_support_ok _ _ _ _ Es) as (K1 & K2 & _).
  assert (Hsx' : simplex_ok vs (us ++ [k])) by (now apply snoc_ok).
  destruct (closest_total _ Hsx') as (q' & ids' & E'). pose proof E' as E2.
  destruct (gjk_round vs (us ++ [k]) p q' ids' Hn Hsx' E') as (Q1 & Q2 & Q3 & Q4 & Q5 & Q6 & Q7 & Q8 & Q9 & Q10).
  destruct (Nat.eq_dec (length ids') 3) as [L3'|L3'].
  { rewrite gjk_S, E'. cbn [bind fst snd]. rewrite L3'. cbn. eauto. }
  destruct (v2_eq_dec q' q) as [Eq|Nq].
  - (* stall *)
    subst q'. assert (Eids : ids' = seq 0 (length us)).
    { rewrite map_app in *. cbn [map] in *. rewrite <- (map_length (vert vs) us). apply (stall_ids (map (vert vs) us) (vert vs k) q ids').
      - exact Q9.
      - rewrite map_length. unfold us. rewrite map_length. exact L12.
      - exact R2.
      - eapply closest_forms; eauto.
      - eapply Forall_impl; [|exact Q10]. cbn. intros x. rewrite !app_length, map_length. auto.
      - pose proof (used_map vs (us ++ [k]) ids' Q10) as U. rewrite map_app in U. cbn [map] in U. rewrite U. exact Q2. }
    assert (Eus : map (fun i => nth i (us ++ [k]) 0%nat) ids' = us).
    { rewrite Eids. clear. assert (G : forall l (d : nat), map (fun i => nth i (l ++ [k]) 0%nat) (seq 0 (length l)) = l).
      { intros l _. apply (nth_ext _ _ 0%nat 0%nat); [now rewrite map_length, seq_length|]. intros i Hi. rewrite map_length, seq_length in Hi.
        rewrite (nth_indep _ _ (nth 0 (l ++ [k]) 0%nat)) by (rewrite map_length, seq_length; exact Hi). rewrite (map_nth (fun i => nth i (l ++ [k]) 0%nat)). rewrite seq_nth by exact Hi. cbn. now rewrite app_nth1. }
      apply (G us 0%nat). }
    rewrite gjk_S, E'. cbn [bind fst snd]. apply Nat.eqb_neq in L3'. rewrite L3'.
    assert (L12' : (length ids' = 1 \/ length ids' = 2)%nat) by (rewrite Eids, seq_length; unfold us; rewrite map_length; exact L12).
    rewrite (gjk_search vs (us ++ [k]) ids' q p L12'), Eus. pose proof (gjk_search vs sx ids q p L12) as GS. fold us in GS. rewrite <- GS.
    rewrite Z, Es. cbn [bind snd]. rewrite existsb_app. cbn. rewrite Nat.eqb_refl, !orb_true_r. eauto.
  - assert (Lt : dist p q' < dist p q).
    { destruct (proj2 Q1 q) as [X|X]; [|congruence|exact X]. apply (inner_incl (map (vert vs) us)); [|apply inner_in_hull, R2].
      intros v Hv. rewrite map_app. apply in_or_app. now left. }
    assert (L12' : (length ids' = 1 \/ length ids' = 2)%nat) by lia.
    assert (Cd : In q' (candidates p vs)) by (apply (candidate_in p q' vs (map (fun i => nth i (us ++ [k]) 0%nat) ids')); auto; rewrite map_length; exact L12').
    pose proof (closer_lt p q q' vs Cd Lt). destruct Hm as [Hm|Hm]; [lia|].
    apply (IH (closer p q' vs) ltac:(lia) (us ++ [k]) q' ids'); auto; lia.
Qed.
Lemma gjk_total start fuel : (start < length vs)%nat -> (length vs * length vs + 2 <= fuel)%nat -> exists r, gjk fuel p vs [start] = Ok r.
Proof.
  intros H1 H2. assert (Hsx : simplex_ok vs [start]) by (split; [repeat constructor; intros []|split; [cbn; lia|repeat constructor; exact H1]]).
  destruct (closest_total _ Hsx) as (q & ids & E). apply (gjk_terminates (length vs * length vs) [start] q ids); auto. right. apply closer_bound.
Qed.
End Term.
