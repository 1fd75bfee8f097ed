(** The default callback: independence of random.choice, totality, and no missed collisions *)
From Coq Require Import List Arith ZArith Bool Reals Lra Lia Psatz FinFun.
From Verif Require Import Num Tensor Utils Bodies Forces Constraints Contacts World Spec ResFacts RBase GeoSpec BodySpec ContactSpec
     FreshSpec WorldFacts BodyFacts RigidFacts GeomFacts HandlerFacts FreshFacts BodyReach PlaneFacts SupportFacts SatFacts ClipFacts GjkFacts GjkLoop GjkTerm HellyFacts ContactFacts OverlapFacts.
Import ListNotations.
Open Scope R_scope.

Lemma dist_triangle a b c : dist a c <= dist a b + dist b c.
Proof.
  pose proof (dist_nonneg a b). pose proof (dist_nonneg b c). apply Rsqr_incr_0_var; [|lra]. unfold Rsqr.
  pose proof (dist_sq a b) as E1. pose proof (dist_sq b c) as E2. pose proof (dist_sq a c) as E3. rewrite E3.
  set (x1 := fst a - fst b) in *. set (y1 := snd a - snd b) in *. set (x2 := fst b - fst c) in *. set (y2 := snd b - snd c) in *.
  replace (fst a - fst c) with (x1 + x2) by (unfold x1, x2; ring). replace (snd a - snd c) with (y1 + y2) by (unfold y1, y2; ring).
  assert (C : x1 * x2 + y1 * y2 <= dist a b * dist b c).
  { destruct (Rle_lt_dec (x1 * x2 + y1 * y2) 0) as [L|L]; [assert (0 <= dist a b * dist b c) by (apply Rmult_le_pos; auto); lra|].
    apply Rsqr_incr_0_var; [|apply Rmult_le_pos; auto]. unfold Rsqr. replace (dist a b * dist b c * (dist a b * dist b c)) with ((dist a b * dist a b) * (dist b c * dist b c)) by ring.
    rewrite E1, E2. pose proof (sq0 (x1 * y2 - x2 * y1)). nra. }
  nra.
Qed.
(** *** random.choice *)
(** the poses of a circle and a polygon for which every start of the nearest-point loop agrees *)
Lemma diff_handler_choice fuel fuel' o o' eps clk bs i1 i2 b1 b2 r r' :
  nth_error bs i1 = Some b1 -> nth_error bs i2 = Some b2 ->
  (is_circle b1 = true -> is_circle b2 = false -> NoDup (b_verts b2) /\ (~ in_hull (b_verts b2) (rel b1 b2) \/ off_chords (b_verts b2) (rel b1 b2))) ->
  (is_circle b1 = false -> is_circle b2 = true -> NoDup (b_verts b1) /\ (~ in_hull (b_verts b1) (rel b2 b1) \/ off_chords (b_verts b1) (rel b2 b1))) ->
  diff_handler fuel o eps clk bs i1 i2 = Ok r -> diff_handler fuel' o' eps clk bs i1 i2 = Ok r' -> r = r'.
Proof.
  intros H1 H2 A1 A2 H H'. apply get_body_Ok in H1, H2. unfold diff_handler in H, H'. rewrite H1, H2 in H, H'. cbn [bind] in H, H'.
  destruct (existsb _ _); [congruence|]. destruct (is_circle b1) eqn:C1; destruct (is_circle b2) eqn:C2; cbn [andb orb] in H, H'; try congruence.
  - destruct (A1 eq_refl eq_refl) as [Hn Hr]. destruct (Nat.eqb_spec (length (b_verts b2)) 0) as [Z|Z]; [discriminate|].
    bind_inv H as s E. bind_inv H' as s' E'. assert (s = s').
    { eapply (circle_hull_same fuel fuel' b1 b2 eps); eauto; apply Nat.mod_upper_bound; lia. }
    subst s'. destruct s. congruence.
  - destruct (A2 eq_refl eq_refl) as [Hn Hr]. destruct (Nat.eqb_spec (length (b_verts b1)) 0) as [Z|Z]; [discriminate|].
    bind_inv H as s E. bind_inv H' as s' E'. assert (s = s').
    { eapply (circle_hull_same fuel fuel' b2 b1 eps); eauto; apply Nat.mod_upper_bound; lia. }
    subst s'. destruct s. congruence.
Qed.

(** *** no missed collisions *)
Lemma circle_points (b : body R) q : is_circle b = true -> body_points b q <-> dist q (b_pos b) <= b_rad b.
Proof. unfold is_circle, body_points, b_rad. destruct (b_kind b); [tauto|discriminate|discriminate]. Qed.
Lemma dist_rel c h q : dist (rel c h) (v2sub q (b_pos h)) = dist (b_pos c) q.
Proof. unfold dist, rel, v2sub. rnum. cbn [fst snd]. f_equal. ring. Qed.
Lemma circle_hull_close fuel c hu eps start r q1 q2 : is_circle c = true -> is_circle hu = false -> 0 <= b_rad c -> strictly_convex (b_verts hu) -> 0 <= eps ->
  (start < length (b_verts hu))%nat -> body_points c q1 -> body_points hu q2 -> dist q1 q2 <= eps -> circle_hull fuel c hu eps start = Ok r -> fst r <> None.
Proof.
  intros Cc Ch Hr Hs He Hst P1 P2 Hd H. apply (circle_points c) in P1; auto. apply (polygon_points hu) in P2; auto.
  destruct (circle_hull_cases _ _ _ _ _ _ (proj1 Hs) Hst H) as [(q & N & S & E)|(I & E)].
  - subst r. cbn [fst]. unfold near_contact.
    assert (Dq : v2norm (v2sub (v2add q (b_pos hu)) (b_pos c)) = dist (rel c hu) q) by (unfold rel, v2norm, dist, v2dot, v2sub, v2add; rnum; cbn [fst snd]; f_equal; ring).
    rewrite Dq. assert (L : dist (rel c hu) q <= b_rad c + eps).
    { assert (L1 : dist (rel c hu) q <= dist (rel c hu) (v2sub q2 (b_pos hu))) by (destruct N as [_ N]; destruct (N _ P2) as [<-|L]; lra).
      rewrite dist_rel in L1. pose proof (dist_triangle (b_pos c) q1 q2) as T. rewrite (dist_sym (b_pos c) q1) in T. lra. }
    cbv zeta. destruct (Rltb_spec eps (dist (rel c hu) q - b_rad c)); [lra|discriminate].
  - assert (Hn : (0 < length (b_verts hu))%nat) by lia. unfold sat_contact in E. pose proof (csat_spec (b_verts hu) (rel c hu) (b_rad c) eps (b_last hu) Hn) as J.
    set (st := circle_sat _ _ _ _ _) in *. unfold csat_inv in J. destruct (ss_exit st).
    + destruct J as [J1 J2]. rewrite cdist_edge in J2. pose proof (edge_at_In _ _ J1) as Ein.
      pose proof (convex_inside (b_verts hu) _ (rel c hu) (strictly_convex_convex _ Hs) Ein (strictly_proper _ Hs _ _ Ein) I). lra.
    + destruct (ss_best st) as [[? ?]|]; [|discriminate]. inversion E. cbn. discriminate.
Qed.
Lemma diff_handler_close fuel o eps clk bs i1 i2 b1 b2 cs bs' clk' : nth_error bs i1 = Some b1 -> nth_error bs i2 = Some b2 ->
  ~ excluded b1 b2 -> tidy b1 -> tidy b2 -> (is_circle b1 = false -> is_circle b2 = false -> inscribed (b_verts b1) /\ inscribed (b_verts b2)) ->
  0 <= eps -> touching eps b1 b2 -> diff_handler fuel o eps clk bs i1 i2 = Ok (cs, bs', clk') -> cs <> [].
Proof.
  intros H1 H2 Hx T1 T2 Hi He Ht H. apply get_body_Ok in H1, H2. unfold diff_handler in H. rewrite H1, H2 in H. cbn [bind] in H.
  destruct (existsb _ _) eqn:Ex; [apply existsb_In in Ex; contradiction|]. unfold tidy in T1, T2. unfold touching in Ht.
  destruct (is_circle b1) eqn:C1; destruct (is_circle b2) eqn:C2; cbn [andb orb] in H, Ht.
  - destruct Ht as (q1 & q2 & P1 & P2 & Hd). apply (circle_points b1) in P1; auto. apply (circle_points b2) in P2; auto.
    inversion H; subst; clear H. rewrite circle_circle_eq. cbv zeta.
    destruct (Rltb_spec (b_rad b1 + b_rad b2 - dist (b_pos b1) (b_pos b2)) (- eps)) as [L|L]; [|discriminate].
    pose proof (dist_triangle (b_pos b1) q1 (b_pos b2)). pose proof (dist_triangle q1 q2 (b_pos b2)). rewrite (dist_sym (b_pos b1) q1) in *. lra.
  - destruct Ht as (q1 & q2 & P1 & P2 & Hd). destruct (Nat.eqb_spec (length (b_verts b2)) 0) as [Z|Z]; [discriminate|].
    bind_inv H as r E. destruct r as [op hu']. inversion H; subst; clear H.
    pose proof (circle_hull_close fuel b1 b2 eps _ _ q1 q2 C1 C2 T1 T2 He ltac:(apply Nat.mod_upper_bound; lia) P1 P2 Hd E) as N. cbn [fst] in N. destruct op as [[[[? ?] ?] ?]|]; [discriminate|congruence].
  - destruct Ht as (q1 & q2 & P1 & P2 & Hd). destruct (Nat.eqb_spec (length (b_verts b1)) 0) as [Z|Z]; [discriminate|].
    bind_inv H as r E. destruct r as [op hu']. inversion H; subst; clear H. rewrite dist_sym in Hd.
    pose proof (circle_hull_close fuel b2 b1 eps _ _ q2 q1 C2 C1 T2 T1 He ltac:(apply Nat.mod_upper_bound; lia) P2 P1 Hd E) as N. cbn [fst] in N. destruct op as [[[[? ?] ?] ?]|]; [discriminate|congruence].
  - destruct Ht as (q & P1 & P2). destruct (Hi eq_refl eq_refl) as [I1 I2]. bind_inv H as r E. destruct r as [[ps b1'] b2']. inversion H; subst; clear H.
    pose proof (hull_hull_overlap b1 b2 eps q ps b1' b2' C1 C2 T1 T2 I1 I2 He P1 P2 E) as N. intros Q. apply N. unfold mk_contacts in Q. now apply map_eq_nil in Q.
Qed.

(** *** it returns *)
Lemma some_outer_edge vs (p : pt) : vs <> [] -> exists e, In e (edges vs) /\ 0 <= - tri2 (fst e) (snd e) (v2add (fst e) p).
Proof.
  intros Hn. pose proof (esum_telescope (fun v : pt => (snd p) * fst v - fst p * snd v) vs) as S.
  assert (forall l : list (pt * pt), Rsum (map (fun e => snd p * fst (snd e) - fst p * snd (snd e) - (snd p * fst (fst e) - fst p * snd (fst e))) l) = 0 -> l <> [] ->
    exists e, In e l /\ 0 <= - tri2 (fst e) (snd e) (v2add (fst e) p)) as G.
  { assert (Q : forall e : pt * pt, tri2 (fst e) (snd e) (v2add (fst e) p) = snd p * fst (snd e) - fst p * snd (snd e) - (snd p * fst (fst e) - fst p * snd (fst e))).
    { intros [a b]. unfold tri2, det2, v2add. rnum. cbn [fst snd]. ring. }
    intros l Hl Hne. destruct (Rle_lt_dec 0 0) as [_|]; [|lra].
    assert (A : (exists e, In e l /\ 0 <= - tri2 (fst e) (snd e) (v2add (fst e) p)) \/ 0 < Rsum (map (fun e => tri2 (fst e) (snd e) (v2add (fst e) p)) l)).
    { clear Hl. induction l as [|e l IH]; [congruence|]. destruct (Rle_lt_dec 0 (- tri2 (fst e) (snd e) (v2add (fst e) p))) as [L|L]; [left; exists e; split; [now left|exact L]|].
      destruct l as [|e' l]; [right; change (0 < Rsum [tri2 (fst e) (snd e) (v2add (fst e) p)]); rewrite Rsum_cons; change (Rsum []) with 0; lra|]. destruct IH as [(x & Hx & Lx)|IH]; [discriminate|left; exists x; split; [now right|exact Lx]|].
      right. change (0 < Rsum ((tri2 (fst e) (snd e) (v2add (fst e) p)) :: map (fun e => tri2 (fst e) (snd e) (v2add (fst e) p)) (e' :: l))). rewrite Rsum_cons. lra. }
    destruct A as [A|A]; [exact A|]. exfalso. assert (Z : Rsum (map (fun e => tri2 (fst e) (snd e) (v2add (fst e) p)) l) = 0) by (rewrite (map_ext _ _ Q); exact Hl). rewrite Z in A. lra. }
  apply G; [exact S|]. destruct vs as [|a vs]; [congruence|]. intros E. pose proof (edge_at_In (a :: vs) 0 ltac:(cbn; lia)) as K. rewrite E in K. destruct K.
Qed.
Lemma edge_dist_lower e (x : pt) : fst e <> snd e -> 0 <= - tri2 (fst e) (snd e) (v2add (fst e) x) -> - dist (fst e) (0, 0) <= edge_dist e x.
Proof.
  intros Hne L. pose proof (edge_dist_lipschitz e x (v2add (fst e) x) Hne) as K.
  assert (Z : edge_dist e (v2add (fst e) x) >= 0). { apply dist_pos in Hne. unfold edge_dist. apply Rle_ge. apply Rmult_le_pos; [exact L|left; now apply Rinv_0_lt_compat]. }
  assert (D : dist x (v2add (fst e) x) = dist (fst e) (0, 0)).
  { unfold dist, v2add. rnum. cbn [fst snd]. f_equal. ring. }
  lra.
Qed.
Lemma circle_sat_total vs p rad eps start : strictly_convex vs -> (forall v, In v vs -> dist v (0, 0) <= 10 ^ 9) -> rad <= 10 ^ 9 ->
  ss_exit (circle_sat vs p rad eps start) = true \/ ss_best (circle_sat vs p rad eps start) <> None.
Proof.
  intros Hs Hv Hr. assert (Hn : (0 < length vs)%nat) by (destruct Hs as (_ & H & _); lia).
  pose proof (csat_spec vs p rad eps start Hn) as J. set (st := circle_sat vs p rad eps start) in *. unfold csat_inv in J.
  destruct (ss_exit st); [now left|right]. destruct J as [J1 J2]. destruct (ss_best st); [discriminate|exfalso].
  destruct (some_outer_edge vs p) as ([a b] & He & L). { intros ->. cbn in Hn. lia. }
  pose proof (edge_dist_lower (a, b) p (strictly_proper _ Hs _ _ He) L) as K. cbn [fst] in K.
  pose proof (Hv a (proj1 (edges_In_l _ _ _ He))) as Ba.
  apply edges_In in He. destruct He as (i & Hi & -> & ->). pose proof (J1 i (window_mod _ _ _ Hi)) as U. rewrite cdist_edge in U. unfold edge_at in U. rewrite J2 in U.
  replace (10 ^ 10) with (10 * 10 ^ 9) in U by (cbn [pow]; ring). assert (0 < 10 ^ 9) by (apply pow_lt; lra). lra.
Qed.
Lemma reachable_support (b : body R) : reachable_body b -> is_circle b = false -> strictly_convex (b_verts b) -> forall d, exists r, get_support (b_verts b) d = Ok r.
Proof.
  intros Hr Hc Hs d. assert (Hk : match b_kind b with KCircle _ => False | _ => True end) by (unfold is_circle in Hc; destruct (b_kind b); [discriminate|exact I|exact I]).
  destruct (reachable_centroid b Hr Hk) as (_ & Ha & Hce). destruct (centred_reaches (b_verts b) d Ha (strictly_convex_convex _ Hs) Hce) as (v & Hv & L).
  destruct (get_support_total (b_verts b) d v Hv) as (p & i & E); [lra|]. eauto.
Qed.
(** get_support never fails on the body's vertices *)
Definition supported (b : body R) : Prop := is_circle b = false -> forall d, exists r, get_support (b_verts b) d = Ok r.
Lemma reachable_supported b : reachable_body b -> tidy b -> supported b.
Proof. intros Hr Ht Hc. unfold tidy in Ht. rewrite Hc in Ht. now apply reachable_support. Qed.
Lemma separation_lower b1 b2 : strictly_convex (b_verts b1) -> b_verts b2 <> [] -> (forall v, In v (b_verts b1) -> dist v (0, 0) <= 10 ^ 9) -> (forall v, In v (b_verts b2) -> dist v (0, 0) <= 10 ^ 9) ->
  exists e m, In e (edges (b_verts b1)) /\ separation (b_verts b2) (offset b1 b2) e m /\ - 10 ^ 10 < m.
Proof.
  intros Hs Hn B1 B2. assert (exists u, In u (b_verts b2)) as (u & Hu) by (destruct (b_verts b2) as [|u l]; [congruence|exists u; now left]).
  destruct (some_outer_edge (b_verts b1) (v2add u (offset b1 b2))) as ([a b] & He & L). { intros E. destruct Hs as (_ & H & _). rewrite E in H. cbn in H. lia. }
  pose proof (strictly_proper _ Hs _ _ He) as Hne. pose proof (edge_dist_lower (a, b) _ Hne L) as K. cbn [fst] in K.
  destruct (separation_exists (b_verts b2) (offset b1 b2) (a, b) Hn) as (m & Hm). exists (a, b), m. split; [exact He|]. split; [exact Hm|].
  destruct Hm as ((v & Hv & Ev) & _). cbv beta in Ev. pose proof (edge_dist_lipschitz (a, b) (v2add v (offset b1 b2)) (v2add u (offset b1 b2)) Hne) as D.
  assert (Duv : dist (v2add v (offset b1 b2)) (v2add u (offset b1 b2)) = dist v u) by (unfold dist, v2add; rnum; cbn [fst snd]; f_equal; ring).
  pose proof (dist_triangle v (0, 0) u) as T. rewrite (dist_sym (0, 0) u) in T. pose proof (B2 v Hv). pose proof (B2 u Hu). pose proof (B1 a (proj1 (edges_In_l _ _ _ He))).
  replace (10 ^ 10) with (10 * 10 ^ 9) by (cbn [pow]; ring). assert (0 < 10 ^ 9) by (apply pow_lt; lra). lra.
Qed.
Lemma polygon_range (b : body R) : is_circle b = false -> in_range b -> forall v, In v (b_verts b) -> dist v (0, 0) <= 10 ^ 9.
Proof. unfold in_range. now intros ->. Qed.
Lemma hull_hull_total b1 b2 eps : supported b1 -> supported b2 -> is_circle b1 = false -> is_circle b2 = false ->
  strictly_convex (b_verts b1) -> strictly_convex (b_verts b2) -> in_range b1 -> in_range b2 -> exists r, hull_hull b1 b2 eps = Ok r.
Proof.
  intros R1 R2 C1 C2 S1 S2 B1 B2. pose proof (polygon_range _ C1 B1) as V1. pose proof (polygon_range _ C2 B2) as V2.
  assert (N1 : (0 < length (b_verts b1))%nat) by (destruct S1 as (_ & H & _); lia). assert (N2 : (0 < length (b_verts b2))%nat) by (destruct S2 as (_ & H & _); lia).
  assert (E1 : b_verts b1 <> []) by (intros E; rewrite E in N1; cbn in N1; lia). assert (E2 : b_verts b2 <> []) by (intros E; rewrite E in N2; cbn in N2; lia).
  destruct (separation_lower b1 b2 S1 E2 V1 V2) as (e1 & m1 & He1 & Hm1 & L1).
  destruct (sat_total b1 b2 eps e1 m1 N1 (R2 C2) He1 Hm1 L1) as (c1 & T1).
  set (b1' := set_last b1 (sep_idx c1)). assert (W : b_verts b1' = b_verts b1) by apply verts_set_last.
  destruct (separation_lower b2 b1' S2) as (e2 & m2 & He2 & Hm2 & L2); rewrite ?W; auto.
  destruct (sat_total b2 b1' eps e2 m2 N2) with (2 := He2) (3 := Hm2) (4 := L2) as (c2 & T2); [rewrite W; exact (R1 C1)|].
  unfold hull_hull. rewrite T1. cbn [bind]. fold b1'. rnum. destruct (Rltb_spec eps (sep_dist c1)) as [X|X]; [eauto|]. rewrite T2. cbn [bind].
  destruct (Rltb_spec eps (sep_dist c2)) as [Y|Y]; [eauto|].
  apply (proj1 (sat_info_le _ _ _ _ N1 T1)) in X. apply (proj1 (sat_info_le _ _ _ _ N2 T2)) in Y.
  destruct (Rltb (sep_dist c1) (sep_dist c2)).
  - destruct (sep_info c2) as [[[[[? ?] ?] ?] ?]|]; [eauto|congruence].
  - destruct (sep_info c1) as [[[[[? ?] ?] ?] ?]|]; [eauto|congruence].
Qed.
Lemma circle_hull_total fuel c hu eps start : is_circle c = true -> is_circle hu = false -> supported hu -> strictly_convex (b_verts hu) -> in_range hu -> in_range c ->
  (start < length (b_verts hu))%nat -> (gjk_rounds hu <= fuel)%nat -> exists r, circle_hull fuel c hu eps start = Ok r.
Proof.
  intros Cc Ch Hr Hs Bh Bc Hst Hf. unfold circle_hull. fold (rel c hu).
  destruct (gjk_total (rel c hu) (b_verts hu) (proj1 Hs) (strictly_no_collinear _ Hs) (Hr Ch) start fuel Hst Hf) as ([q ids] & E).
  rewrite E. cbn [bind]. destruct (Nat.ltb (length ids) 3); [rnum; destruct (Rltb _ _); eauto|].
  unfold in_range in Bc. rewrite Cc in Bc. pose proof (circle_sat_total (b_verts hu) (rel c hu) (b_rad c) eps (b_last hu) Hs (polygon_range _ Ch Bh) Bc) as T.
  set (st := circle_sat _ _ _ _ _) in *. destruct (ss_exit st); [eauto|]. destruct (ss_best st) as [[? ?]|]; [eauto|]. destruct T as [T|T]; congruence.
Qed.
Definition manageable (fuel : nat) (b : body R) : Prop := supported b /\ tidy b /\ in_range b /\ (gjk_rounds b <= fuel)%nat.
Lemma diff_handler_total fuel o eps clk bs i1 i2 b1 b2 : nth_error bs i1 = Some b1 -> nth_error bs i2 = Some b2 ->
  manageable fuel b1 -> manageable fuel b2 -> exists r, diff_handler fuel o eps clk bs i1 i2 = Ok r.
Proof.
  intros H1 H2 (R1 & T1 & B1 & F1) (R2 & T2 & B2 & F2). apply get_body_Ok in H1, H2. unfold diff_handler. rewrite H1, H2. cbn [bind].
  destruct (existsb _ _); [eauto|]. unfold tidy in T1, T2. destruct (is_circle b1) eqn:C1; destruct (is_circle b2) eqn:C2; cbn [andb orb]; [eauto| | |].
  - assert (N : (0 < length (b_verts b2))%nat) by (destruct T2 as (_ & H & _); lia). destruct (Nat.eqb_spec (length (b_verts b2)) 0) as [Z|Z]; [lia|].
    destruct (circle_hull_total fuel b1 b2 eps (o_choice o clk (length (b_verts b2)) mod length (b_verts b2)) C1 C2 R2 T2 B2 B1) as ([op hu'] & E); auto; [apply Nat.mod_upper_bound; lia|]. rewrite E. cbn [bind]. eauto.
  - assert (N : (0 < length (b_verts b1))%nat) by (destruct T1 as (_ & H & _); lia). destruct (Nat.eqb_spec (length (b_verts b1)) 0) as [Z|Z]; [lia|].
    destruct (circle_hull_total fuel b2 b1 eps (o_choice o clk (length (b_verts b1)) mod length (b_verts b1)) C2 C1 R1 T1 B1 B2) as ([op hu'] & E); auto; [apply Nat.mod_upper_bound; lia|]. rewrite E. cbn [bind]. eauto.
  - destruct (hull_hull_total b1 b2 eps R1 R2 C1 C2 T1 T2 B1 B2) as ([[ps b1'] b2'] & E). rewrite E. cbn [bind]. eauto.
Qed.
(** *** what [still] and [forget] leave *)
Lemma still_shape (b b' : body R) : still b = still b' -> b_id b = b_id b' /\ b_pos b = b_pos b' /\ is_circle b = is_circle b' /\ b_rad b = b_rad b' /\ b_verts b = b_verts b' /\ b_geom b = b_geom b'.
Proof.
  destruct b as [i k p v m j f r e fs g], b' as [i' k' p' v' m' j' f' r' e' fs' g']. unfold still, forget, with_v, b_pos, is_circle, b_rad, b_verts. cbn.
  destruct k, k'; cbn; intros H; inversion H; subst; auto 10.
Qed.
Lemma still_nth (bs bs' : list (body R)) i b : map still bs = map still bs' -> nth_error bs' i = Some b -> exists b0, nth_error bs i = Some b0 /\ still b0 = still b.
Proof.
  intros H Hi. assert (E : nth_error (map still bs') i = Some (still b)) by now rewrite nth_error_map, Hi.
  rewrite <- H, nth_error_map in E. destruct (nth_error bs i) as [b0|] eqn:Eb; [|discriminate]. exists b0. split; [reflexivity|]. cbn [option_map] in E. congruence.
Qed.
Lemma still_points (b b' : body R) q : still b = still b' -> body_points b q -> body_points b' q.
Proof.
  intros H. destruct (still_shape b b' H) as (_ & Hp & Hc & Hr & Hv & _). destruct (is_circle b) eqn:C.
  - intros P. apply (circle_points b) in P; auto. apply (circle_points b'); [congruence|]. rewrite <- Hp, <- Hr. exact P.
  - intros P. apply (polygon_points b) in P; auto. apply (polygon_points b'); [congruence|]. rewrite <- Hp, <- Hv. exact P.
Qed.
Lemma still_tidy (b b' : body R) : still b = still b' -> tidy b -> tidy b'.
Proof. intros H. destruct (still_shape b b' H) as (_ & Hp & Hc & Hr & Hv & _). unfold tidy. now rewrite <- Hc, <- Hr, <- Hv. Qed.
Lemma still_touching eps (a a' b b' : body R) : still a = still a' -> still b = still b' -> touching eps a b -> touching eps a' b'.
Proof.
  intros H K. destruct (still_shape a a' H) as (_ & _ & Hc & _). destruct (still_shape b b' K) as (_ & _ & Kc & _). unfold touching. rewrite <- Hc, <- Kc.
  destruct (is_circle a || is_circle b); intros T.
  - destruct T as (q1 & q2 & P1 & P2 & D). exists q1, q2. eauto using still_points.
  - destruct T as (q & P1 & P2). exists q. eauto using still_points.
Qed.
Lemma still_regular (a a' b b' : body R) : still a = still a' -> still b = still b' -> regular a b -> regular a' b'.
Proof.
  intros H K. destruct (still_shape a a' H) as (_ & Hp & Hc & _ & Hv & _). destruct (still_shape b b' K) as (_ & Kp & Kc & _ & Kv & _).
  unfold regular, rel. now rewrite <- Hc, <- Kc, <- Hv, <- Kv, <- Hp, <- Kp.
Qed.
Lemma still_consistent eps (a a' b b' : body R) c : still a = still a' -> still b = still b' -> consistent eps a b c -> consistent eps a' b' c.
Proof.
  intros H K. destruct (still_shape a a' H) as (_ & Hp & _). destruct (still_shape b b' K) as (_ & Kp & _). unfold consistent, at_body. now rewrite <- Hp, <- Kp.
Qed.
(** *** worlds *)
Lemma diff_handler_idx fuel o eps clk bs i1 i2 cs bs' clk' c : diff_handler (T:=R) fuel o eps clk bs i1 i2 = Ok (cs, bs', clk') -> In c cs -> c_i1 c = i1 /\ c_i2 c = i2.
Proof.
  intros H Hc. unfold diff_handler in H. bind_inv H as b1 E1. bind_inv H as b2 E2. 
  destruct (existsb _ _); [inversion H; subst; destruct Hc|]. destruct (_ && _)%bool.
  { inversion H; subst. apply in_mk_contacts in Hc. destruct Hc as (n & p1 & p2 & pen & _ & ->). auto. }
  destruct (_ || _)%bool.
  - destruct (if is_circle b2 then (b2, b1, i1) else (b1, b2, i2)) as [[c0 hu] ih]. destruct (Nat.eqb _ _); [discriminate|]. bind_inv H as r E. destruct r as [op hu'].
    inversion H; subst. apply in_mk_contacts in Hc. destruct Hc as (n & p1 & p2 & pen & _ & ->). auto.
  - bind_inv H as r E. destruct r as [[ps b1'] b2']. inversion H; subst. apply in_mk_contacts in Hc. destruct Hc as (n & p1 & p2 & pen & _ & ->). auto.
Qed.
Lemma current_consistent fuel o w c b1 b2 : contacts_current o (diff_handler fuel o) w -> In c (w_contacts w) ->
  nth_error (w_bodies w) (c_i1 c) = Some b1 -> nth_error (w_bodies w) (c_i2 c) = Some b2 -> regular b1 b2 -> consistent (w_eps w) b1 b2 c.
Proof.
  intros (k & calls & _ & Hw & Hr) Hc H1 H2 Hreg. rewrite Hw in Hc. apply in_flat_map in Hc. destruct Hc as ([[i j] new] & Hin & Hc). cbn [snd] in Hc.
  destruct (Hr i j new Hin) as (clk & bs0 & bs1 & clk1 & Hs & Hd). destruct (diff_handler_idx _ _ _ _ _ _ _ _ _ _ _ Hd Hc) as [<- <-].
  destruct (still_nth _ _ _ _ Hs H1) as (a1 & A1 & S1). destruct (still_nth _ _ _ _ Hs H2) as (a2 & A2 & S2).
  apply (still_consistent _ a1 b1 a2 b2); auto. eapply (diff_handler_consistent fuel o); eauto.
  apply (still_regular b1 a1 b2 a2); auto.
Qed.
Lemma current_touching fuel o w i j b1 b2 : contacts_current o (diff_handler fuel o) w ->
  (forall k, In (i, j) (o_collide o k (map b_geom (w_bodies w))) \/ In (j, i) (o_collide o k (map b_geom (w_bodies w)))) ->
  nth_error (w_bodies w) i = Some b1 -> nth_error (w_bodies w) j = Some b2 -> ~ excluded b1 b2 -> ~ excluded b2 b1 ->
  tidy b1 -> tidy b2 -> (is_circle b1 = false -> is_circle b2 = false -> inscribed (b_verts b1) /\ inscribed (b_verts b2)) -> 0 <= w_eps w -> touching (w_eps w) b1 b2 ->
  exists c, In c (w_contacts w) /\ ((c_i1 c = i /\ c_i2 c = j) \/ (c_i1 c = j /\ c_i2 c = i)).
Proof.
  intros (k & calls & Hk & Hw & Hr) Hp H1 H2 X1 X2 T1 T2 Hi He Ht.
  assert (G : forall i j b1 b2, In (i, j) (o_collide o k (map b_geom (w_bodies w))) -> nth_error (w_bodies w) i = Some b1 -> nth_error (w_bodies w) j = Some b2 ->
    ~ excluded b1 b2 -> tidy b1 -> tidy b2 -> (is_circle b1 = false -> is_circle b2 = false -> inscribed (b_verts b1) /\ inscribed (b_verts b2)) -> touching (w_eps w) b1 b2 ->
    exists c, In c (w_contacts w) /\ c_i1 c = i /\ c_i2 c = j).
  { clear - Hk Hw Hr He. intros i j b1 b2 Hin H1 H2 Hx T1 T2 Hi Ht. rewrite <- Hk in Hin. apply in_map_iff in Hin. destruct Hin as ([[i' j'] new] & E & Hin). cbn [fst] in E. inversion E; subst i' j'; clear E.
    destruct (Hr i j new Hin) as (clk & bs0 & bs1 & clk1 & Hs & Hd). destruct (still_nth _ _ _ _ Hs H1) as (a1 & A1 & S1). destruct (still_nth _ _ _ _ Hs H2) as (a2 & A2 & S2).
    assert (S1' := eq_sym S1). assert (S2' := eq_sym S2).
    destruct (still_shape _ _ S1') as (I1 & _ & Q1 & _ & V1 & G1). destruct (still_shape _ _ S2') as (I2 & _ & Q2 & _ & V2 & G2).
    assert (N : new <> []).
    { eapply (diff_handler_close fuel o (w_eps w) clk bs0 i j a1 a2); eauto using still_tidy, still_touching.
      - unfold excluded in *. now rewrite <- I1, <- G2.
      - rewrite <- Q1, <- Q2, <- V1, <- V2. exact Hi. }
    destruct new as [|c new]; [congruence|]. exists c. destruct (diff_handler_idx _ _ _ _ _ _ _ _ _ _ c Hd) as [E1 E2]; [now left|].
    split; [|auto]. rewrite Hw. apply in_flat_map. eexists. split; [exact Hin|]. now left. }
  destruct (Hp k) as [Hin|Hin].
  - destruct (G i j b1 b2 Hin H1 H2 X1 T1 T2 Hi Ht) as (c & Hc & E). exists c. auto.
  - destruct (G j i b2 b1 Hin H2 H1 X2 T2 T1) as (c & Hc & E).
    + intros A B. destruct (Hi B A). auto.
    + clear - Ht. unfold touching in *. rewrite orb_comm. destruct (_ || _)%bool.
      * destruct Ht as (q1 & q2 & P1 & P2 & D). exists q2, q1. rewrite dist_sym. auto.
      * destruct Ht as (q & P1 & P2). exists q. auto.
    + exists c. auto.
Qed.
(** rectangles are strictly convex and inscribed *)
Lemma rect_tidy (b : body R) d vs l : reachable_body b -> b_kind b = KRect d vs l -> 0 < fst d -> 0 < snd d -> strictly_convex (b_verts b) /\ inscribed (b_verts b).
Proof.
  intros Hr Hk H1 H2. destruct (reachable_shape b Hr) as [_ Hs]. unfold b_verts. rewrite Hk in *. destruct Hs as [_ ->].
  set (w := fst d / 2). set (h := snd d / 2). assert (Hw : 0 < w) by (unfold w; lra). assert (Hh : 0 < h) by (unfold h; lra).
  set (th := b_rot b). pose proof (sin2_cos2 th) as SC. unfold Rsqr in SC. set (s := sin th) in *. set (k := cos th) in *.
  assert (T : forall a b c : pt, tri2 (rotate th a) (rotate th b) (rotate th c) = tri2 a b c).
  { intros. unfold tri2, det2, rotate. cbn [fst snd]. fold s k. transitivity ((s * s + k * k) * ((fst b0 - fst a) * (snd c - snd a) - (snd b0 - snd a) * (fst c - fst a))); [ring|rewrite SC; ring]. }
  assert (Inj : forall a b : pt, rotate th a = rotate th b -> a = b).
  { intros a c E. unfold rotate in E. fold s k in E. inversion E as [[E1 E2]].
    assert (A1 : (s * s + k * k) * fst a = (s * s + k * k) * fst c) by (transitivity (k * (k * fst a - s * snd a) + s * (s * fst a + k * snd a)); [ring|rewrite E1, E2; ring]).
    assert (A2 : (s * s + k * k) * snd a = (s * s + k * k) * snd c) by (transitivity (k * (s * fst a + k * snd a) - s * (k * fst a - s * snd a)); [ring|rewrite E1, E2; ring]).
    rewrite SC in *. destruct a, c. cbn [fst snd] in *. apply f_equal2; lra. }
  assert (NW : forall x y z t : R, x <> z \/ y <> t -> (x, y) <> (z, t)) by (intros x y z t [K|K] E; inversion E; lra).
  split.
  - split; [|split].
    + apply FinFun.Injective_map_NoDup; [exact Inj|]. unfold corners. fold w h.
      repeat constructor; cbn; intros C; repeat (destruct C as [C|C]; [revert C; apply NW; (left; lra) || (right; lra)|]); exact C.
    + cbn. lia.
    + intros p q He v Hv N1 N2. rewrite edges_map in He. apply in_map_iff in He. destruct He as ([p' q'] & E & He). cbn [fst snd] in E. inversion E; subst p q; clear E.
      apply in_map_iff in Hv. destruct Hv as (v' & <- & Hv). rewrite T. assert (M1 : v' <> p') by congruence. assert (M2 : v' <> q') by congruence. clear N1 N2.
      unfold corners in *. fold w h in He, Hv. cbn [edges combine app] in He. pose proof (Rmult_lt_0_compat _ _ Hw Hh) as WH.
      repeat (destruct He as [He|He]; [inversion He; subst p' q'; clear He; repeat (destruct Hv as [Hv|Hv]; [subst v'; first [congruence|unfold tri2, det2; cbn [fst snd]; lra]|]); destruct Hv|]); destruct He.
  - intros p q He. rewrite edges_map in He. apply in_map_iff in He. destruct He as ([p' q'] & E & He). cbn [fst snd] in E. inversion E; subst p q; clear E.
    assert (Nrm : forall a : pt, fst (rotate th a) * fst (rotate th a) + snd (rotate th a) * snd (rotate th a) = fst a * fst a + snd a * snd a).
    { intros a. unfold rotate. cbn [fst snd]. fold s k. transitivity ((s * s + k * k) * (fst a * fst a + snd a * snd a)); [ring|rewrite SC; ring]. }
    rewrite !Nrm. unfold corners in He. fold w h in He. cbn [edges combine app] in He.
    repeat (destruct He as [He|He]; [inversion He; subst p' q'; cbn [fst snd]; ring|]). destruct He.
Qed.
(** *** detection never fails *)
Lemma still_range (b b' : body R) : still b = still b' -> in_range b -> in_range b'.
Proof. intros H. destruct (still_shape b b' H) as (_ & Hp & Hc & Hr & Hv & _). unfold in_range. now rewrite <- Hc, <- Hr, <- Hv. Qed.
Lemma still_manageable fuel (b b' : body R) : still b = still b' -> manageable fuel b -> manageable fuel b'.
Proof.
  intros H (A & B & C & D). pose proof (still_shape b b' H) as (_ & _ & Hc & _ & Hv & _). split; [|split; [|split]].
  - unfold supported in *. now rewrite <- Hc, <- Hv.
  - eapply still_tidy; eauto.
  - eapply still_range; eauto.
  - unfold gjk_rounds in *. now rewrite <- Hv.
Qed.
Lemma still_all fuel (bs bs' : list (body R)) : map still bs = map still bs' -> Forall (manageable fuel) bs -> Forall (manageable fuel) bs'.
Proof.
  intros H F. rewrite Forall_forall in *. intros b Hb. apply In_nth_error in Hb. destruct Hb as (i & Hi).
  destruct (still_nth _ _ _ _ H Hi) as (b0 & H0 & E). eapply still_manageable; [exact E|]. apply F. eapply nth_error_In; eauto.
Qed.
Lemma find_contacts_total fuel o (w : world R) : broadphase_sane o -> Forall (manageable fuel) (w_bodies w) -> exists w', find_contacts o (diff_handler fuel o) w = Ok w'.
Proof.
  intros Hs Hm. unfold find_contacts. set (pairs := o_collide _ _ _).
  assert (Hp : forall i j, In (i, j) pairs -> (i < length (w_bodies w))%nat /\ (j < length (w_bodies w))%nat).
  { intros i j Hin. apply Hs in Hin. rewrite map_length in Hin. tauto. }
  clearbody pairs.
  assert (G : forall pairs cs bs clk, (forall i j, In (i, j) pairs -> (i < length (w_bodies w))%nat /\ (j < length (w_bodies w))%nat) ->
    length bs = length (w_bodies w) -> Forall (manageable fuel) bs -> exists r, fold_left (fc_step (diff_handler fuel o) (w_eps w)) pairs (Ok (cs, bs, clk)) = Ok r).
  { clear. induction pairs as [|[i j] pairs IH]; intros cs bs clk Hp L F; [eexists; reflexivity|]. cbn [fold_left].
    destruct (Hp i j (or_introl eq_refl)) as [Hi Hj]. rewrite <- L in Hi, Hj.
    destruct (nth_error bs i) as [b1|] eqn:E1; [|apply nth_error_None in E1; lia]. destruct (nth_error bs j) as [b2|] eqn:E2; [|apply nth_error_None in E2; lia].
    rewrite Forall_forall in F. destruct (diff_handler_total fuel o (w_eps w) clk bs i j b1 b2 E1 E2 (F _ (nth_error_In _ _ E1)) (F _ (nth_error_In _ _ E2))) as ([[new bs'] clk'] & Hd).
    assert (Z : fc_step (diff_handler fuel o) (w_eps w) (Ok (cs, bs, clk)) (i, j) = Ok (cs ++ new, bs', clk')) by (unfold fc_step; cbn [bind]; rewrite Hd; reflexivity).
    rewrite Z. pose proof (diff_handler_frame _ _ _ _ _ _ _ _ _ _ Hd) as Hf. apply IH.
    - intros a b Hab. apply Hp. now right.
    - apply (f_equal (@length _)) in Hf. rewrite !map_length in Hf. congruence.
    - apply (still_all fuel bs); [symmetry; now apply map_still_forget|now apply Forall_forall]. }
  destruct (G pairs [] (w_bodies w) (S (w_clk w)) Hp eq_refl Hm) as ([[cs bs] clk] & E). unfold fc_step in E. rewrite E. cbn [bind]. eauto.
Qed.
(** *** contacts of two circles in a world *)
Lemma gap_sym b1 b2 : gap b1 b2 = gap b2 b1.
Proof. unfold gap. rewrite dist_sym. ring. Qed.
Lemma still_gap (a a' b b' : body R) : still a = still a' -> still b = still b' -> gap a b = gap a' b'.
Proof. intros H K. destruct (still_shape a a' H) as (_ & Hp & _ & Hr & _). destruct (still_shape b b' K) as (_ & Kp & _ & Kr & _). unfold gap. now rewrite Hp, Hr, Kp, Kr. Qed.
Lemma gap_touching b1 b2 eps : is_circle b1 = true -> is_circle b2 = true -> 0 < b_rad b1 -> 0 < b_rad b2 -> 0 <= eps -> gap b1 b2 <= eps ->
  exists q1 q2, body_points b1 q1 /\ body_points b2 q2 /\ dist q1 q2 <= eps.
Proof.
  intros C1 C2 P1 P2 He G. unfold gap in G. set (D := dist (b_pos b1) (b_pos b2)) in *. assert (HD : 0 <= D) by apply sqrt_pos.
  set (r1 := b_rad b1) in *. set (r2 := b_rad b2) in *. set (p1 := b_pos b1) in *. set (p2 := b_pos b2) in *.
  assert (A : forall s t : R, dist (along p1 p2 s) (along p1 p2 t) = Rabs (s - t) * D).
  { intros s t. unfold dist at 1. replace (Rabs (s - t) * D) with (sqrt ((s - t) * (s - t)) * D) by (f_equal; rewrite <- sqrt_Rsqr_abs; reflexivity).
    unfold D, dist. rewrite <- sqrt_mult_alt by apply Rle_0_sqr. f_equal. unfold along. cbn [fst snd]. ring. }
  assert (A1 : along p1 p2 0 = p1) by (unfold along; destruct p1; cbn; apply f_equal2; ring). assert (A2 : along p1 p2 1 = p2) by (unfold along; destruct p1, p2; cbn; apply f_equal2; ring).
  assert (Q : forall s t, Rabs (s - 0) * D <= r1 -> Rabs (t - 1) * D <= r2 -> Rabs (s - t) * D <= eps -> exists q1 q2, body_points b1 q1 /\ body_points b2 q2 /\ dist q1 q2 <= eps).
  { intros s t H1 H2 H3. exists (along p1 p2 s), (along p1 p2 t). rewrite (circle_points b1), (circle_points b2) by auto. fold p1 p2 r1 r2.
    pose proof (A s 0) as K1. pose proof (A t 1) as K2. rewrite A1 in K1. rewrite A2 in K2. split; [rewrite K1; exact H1|]. split; [rewrite K2; exact H2|rewrite A; exact H3]. }
  destruct (Rle_lt_dec D (r1 + r2)) as [L|L].
  - assert (0 < r1 + r2) by lra.
    assert (K : forall r, 0 < r -> r / (r1 + r2) * D <= r).
    { intros r Hr. apply (Rmult_le_reg_l (r1 + r2)); [lra|]. replace ((r1 + r2) * (r / (r1 + r2) * D)) with (r * D) by (field; lra). nra. }
    apply (Q (r1 / (r1 + r2)) (r1 / (r1 + r2))).
    + rewrite Rminus_0_r, Rabs_right by (apply Rle_ge; apply Rlt_le, Rdiv_lt_0_compat; lra). now apply K.
    + replace (r1 / (r1 + r2) - 1) with (- (r2 / (r1 + r2))) by (field; lra). rewrite Rabs_Ropp, Rabs_right by (apply Rle_ge; apply Rlt_le, Rdiv_lt_0_compat; lra). now apply K.
    + rewrite Rminus_diag_eq by reflexivity. rewrite Rabs_R0. lra.
  - assert (0 < D) by lra. apply (Q (r1 / D) (1 - r2 / D)).
    + rewrite Rminus_0_r, Rabs_right by (apply Rle_ge; apply Rlt_le, Rdiv_lt_0_compat; lra). right. field. lra.
    + replace (1 - r2 / D - 1) with (- (r2 / D)) by ring. rewrite Rabs_Ropp, Rabs_right by (apply Rle_ge; apply Rlt_le, Rdiv_lt_0_compat; lra). right. field. lra.
    + replace (r1 / D - (1 - r2 / D)) with (- ((D - r1 - r2) / D)) by (field; lra). rewrite Rabs_Ropp, Rabs_right by (apply Rle_ge; apply Rlt_le, Rdiv_lt_0_compat; lra). replace ((D - r1 - r2) / D * D) with (D - r1 - r2) by (field; lra). exact G.
Qed.
Lemma current_circles fuel o w c b1 b2 : contacts_current o (diff_handler fuel o) w -> In c (w_contacts w) ->
  nth_error (w_bodies w) (c_i1 c) = Some b1 -> nth_error (w_bodies w) (c_i2 c) = Some b2 -> is_circle b1 = true -> is_circle b2 = true -> b_pos b1 <> b_pos b2 ->
  gap b1 b2 <= w_eps w /\ circle_contact b1 b2 c.
Proof.
  intros (k & calls & _ & Hw & Hr) Hc H1 H2 C1 C2 Hne. rewrite Hw in Hc. apply in_flat_map in Hc. destruct Hc as ([[i j] new] & Hin & Hc). cbn [snd] in Hc.
  destruct (Hr i j new Hin) as (clk & bs0 & bs1 & clk1 & Hs & Hd). destruct (diff_handler_idx _ _ _ _ _ _ _ _ _ _ _ Hd Hc) as [<- <-].
  destruct (still_nth _ _ _ _ Hs H1) as (a1 & A1 & S1). destruct (still_nth _ _ _ _ Hs H2) as (a2 & A2 & S2).
  pose proof (still_shape _ _ S1) as (I1 & P1 & Q1 & R1 & V1 & G1). pose proof (still_shape _ _ S2) as (I2 & P2 & Q2 & R2 & V2 & G2).
  assert (Hx : ~ excluded a1 a2).
  { intros X. unfold diff_handler in Hd. apply get_body_Ok in A1, A2. rewrite A1, A2 in Hd. cbn [bind] in Hd. unfold excluded in X.
    destruct (existsb _ _) eqn:Ex; [inversion Hd; subst; destruct Hc|]. apply existsb_In in X. congruence. }
  destruct (circle_contact_spec fuel o (w_eps w) clk bs0 (c_i1 c) (c_i2 c) a1 a2 A1 A2) as [X Y]; try congruence.
  rewrite <- (still_gap a1 b1 a2 b2) by auto. destruct (Rle_lt_dec (gap a1 a2) (w_eps w)) as [L|L]; [|rewrite (X L) in Hd; inversion Hd; subst; destruct Hc].
  split; [exact L|]. destruct (Y L) as (c' & Hd' & _ & _ & Z). rewrite Hd in Hd'. inversion Hd'; subst new. destruct Hc as [<-|[]].
  unfold circle_contact, at_body. rewrite <- (still_gap a1 b1 a2 b2) by auto. unfold at_body in Z. rewrite <- P1, <- P2, <- R1, <- R2. exact Z.
Qed.
