(** Deep overlaps are reported: bodies whose contacts report at most [t] overlap by at most [t] *)
From Coq Require Import List Arith ZArith Bool Reals Lra Lia Psatz.
From Verif Require Import Num Tensor Utils Bodies Forces Constraints Contacts World Spec GeoSpec BodySpec ContactSpec FreshSpec StrictSpec
     ResFacts RBase BodyFacts RigidFacts GeomFacts HandlerFacts BodyReach PlaneFacts SupportFacts SatFacts ClipFacts GjkFacts GjkLoop GjkTerm HellyFacts ContactFacts OverlapFacts CollideFacts FreshFacts StrictFacts.
Import ListNotations.
Open Scope R_scope.

Lemma unit_dot' n a b : unit_vec n -> - dist a b <= fst n * (fst a - fst b) + snd n * (snd a - snd b).
Proof. intros U. pose proof (unit_dot n b a U) as H. rewrite (dist_sym b a) in H. lra. Qed.
Lemma dir_unit (a b : pt) : a <> b -> let n := ((fst a - fst b) / dist a b, (snd a - snd b) / dist a b) in
  unit_vec n /\ fst n * (fst b - fst a) + snd n * (snd b - snd a) = - dist a b.
Proof.
  intros H. apply dist_pos in H. pose proof (dist_sq a b) as E. cbv zeta. unfold unit_vec. cbn [fst snd]. set (D := dist a b) in *.
  set (x := fst a - fst b) in *. set (y := snd a - snd b) in *. replace (fst b - fst a) with (- x) by (unfold x; ring). replace (snd b - snd a) with (- y) by (unfold y; ring). split.
  - transitivity ((x * x + y * y) / (D * D)); [field; lra|]. rewrite <- E. field. lra.
  - transitivity (- ((x * x + y * y) / D)); [field; lra|]. rewrite <- E. field. lra.
Qed.
Lemma circles_cover (c1 c2 : body R) t : is_circle c1 = true -> is_circle c2 = true -> b_rad c1 + b_rad c2 - dist (b_pos c1) (b_pos c2) <= t -> overlap_at_most t c1 c2.
Proof.
  intros C1 C2 H. destruct (v2_eq_dec (b_pos c1) (b_pos c2)) as [E|E].
  - exists (1, 0). split; [unfold unit_vec; cbn; ring|]. intros q1 q2 P1 P2. apply circle_points in P1, P2; auto. rewrite E in *.
    assert (U : unit_vec (1, 0)) by (unfold unit_vec; cbn; ring).
    pose proof (unit_dot (1, 0) q2 (b_pos c2) U) as A. pose proof (unit_dot' (1, 0) q1 (b_pos c2) U) as B. rewrite (proj2 (dist_zero _ _) eq_refl) in H. cbn [fst snd] in *. lra.
  - destruct (dir_unit _ _ E) as [U D]. eexists. split; [exact U|]. intros q1 q2 P1 P2. apply circle_points in P1, P2; auto.
    pose proof (unit_dot _ q2 (b_pos c2) U) as A. pose proof (unit_dot' _ q1 (b_pos c1) U) as B. set (n := (_, _)) in *. lra.
Qed.
Lemma near_cover (c hu : body R) t q : is_circle c = true -> is_circle hu = false -> nearest (b_verts hu) (rel c hu) q -> rel c hu <> q ->
  b_rad c - dist (rel c hu) q <= t -> overlap_at_most t c hu.
Proof.
  intros C Ch N E H. destruct (dir_unit _ _ E) as [U D]. pose proof (dist_pos _ _ E) as P. set (d := dist (rel c hu) q) in *. eexists. split; [exact U|]. intros q1 q2 P1 P2.
  apply circle_points in P1; auto. apply polygon_points in P2; auto. pose proof (unit_dot' _ q1 (b_pos c) U) as B. set (n := (_, _)) in *.
  assert (L : aff (- (fst n * fst q + snd n * snd q)) (fst n) (snd n) (v2sub q2 (b_pos hu)) <= 0).
  { apply (in_hull_aff (b_verts hu)); [exact P2|]. intros v Hv. pose proof (nearest_cond_inv _ _ _ N v Hv) as Q. unfold aff, n. cbn [fst snd].
    apply (Rmult_le_reg_r d); [exact P|]. rewrite Rmult_0_l. eapply Rle_trans; [|exact Q]. right. field. lra. }
  unfold aff, rel, v2sub in *. rnum. cbn [fst snd] in *. lra.
Qed.
Lemma edge_dist_diff e x y : fst e <> snd e -> edge_dist e x - edge_dist e y = fst (outward (fst e) (snd e)) * (fst x - fst y) + snd (outward (fst e) (snd e)) * (snd x - snd y).
Proof. intros H. apply dist_pos in H. destruct e as [p q]. unfold edge_dist, outward, tri2, det2. cbn [fst snd] in *. field. lra. Qed.
Lemma edge_cover (c hu : body R) t e : is_circle c = true -> is_circle hu = false -> convex (b_verts hu) -> In e (edges (b_verts hu)) -> fst e <> snd e ->
  b_rad c - edge_dist e (rel c hu) <= t -> overlap_at_most t c hu.
Proof.
  intros C Ch Hc He Hn H. pose proof (outward_unit _ _ Hn) as U. exists (outward (fst e) (snd e)). split; [exact U|]. intros q1 q2 P1 P2.
  apply circle_points in P1; auto. apply polygon_points in P2; auto. pose proof (unit_dot' _ q1 (b_pos c) U) as B. pose proof (convex_inside _ _ _ Hc He Hn P2) as I.
  pose proof (edge_dist_diff e (v2sub q2 (b_pos hu)) (rel c hu) Hn) as D. set (n := outward _ _) in *. unfold rel, v2sub in *. rnum. cbn [fst snd] in *. lra.
Qed.
Lemma face_cover (b1 b2 : body R) t e s : is_circle b1 = false -> is_circle b2 = false -> convex (b_verts b1) -> In e (edges (b_verts b1)) -> fst e <> snd e ->
  separation (b_verts b2) (offset b1 b2) e s -> - s <= t -> overlap_at_most t b1 b2.
Proof.
  intros C1 C2 Hc He Hn Hs H. apply overlap_sym. pose proof (outward_unit _ _ Hn) as U. exists (outward (fst e) (snd e)). split; [exact U|]. intros q2 q1 P2 P1.
  apply polygon_points in P1, P2; auto. pose proof (convex_inside _ _ _ Hc He Hn P1) as I. pose proof (separation_outside _ _ _ _ _ Hs P2) as O.
  pose proof (edge_dist_diff e (v2sub q1 (b_pos b1)) (v2add (v2sub q2 (b_pos b2)) (offset b1 b2)) Hn) as D. set (n := outward _ _) in *. unfold offset, v2add, v2sub in *. rnum. cbn [fst snd] in *.
  match type of D with ?a - ?b = _ => set (x := a) in *; set (y := b) in * end. nra.
Qed.

(** *** what the narrow phase reports *)
Lemma circle_hull_cover fuel c hu eps start r hu' t : is_circle c = true -> is_circle hu = false -> strictly_convex (b_verts hu) -> (start < length (b_verts hu))%nat ->
  0 <= eps -> 0 <= t < b_rad c -> circle_hull fuel c hu eps start = Ok (r, hu') -> (forall n p1 p2 pen, r = Some (n, p1, p2, pen) -> pen <= t) -> overlap_at_most t c hu.
Proof.
  intros C Ch Hc Hs He Ht H Hr. pose proof (proj1 Hc) as Hn. pose proof (strictly_proper _ Hc) as Hp. pose proof (strictly_convex_convex _ Hc) as Hv.
  destruct (circle_hull_cases _ _ _ _ _ _ Hn Hs H) as [(q & N & _ & E)|(I & E)].
  - inversion E as [[E1 E2]]. clear E. destruct (near_contact c hu eps q) as [[[[n p1] p2] pen]|] eqn:En.
    + destruct (near_consistent _ _ _ _ _ _ _ _ En) as (_ & _ & _ & Ep & _). assert (L : pen <= t) by (eapply Hr; eauto). apply (near_cover c hu t q); auto; [|lra].
      intros Z. rewrite Z, (proj2 (dist_zero _ _) eq_refl) in Ep. lra.
    + unfold near_contact in En. set (pt1 := v2sub (v2add q (b_pos hu)) (b_pos c)) in *.
      assert (Dq : v2norm pt1 = dist (rel c hu) q) by (unfold pt1, rel, v2norm, dist, v2dot, v2sub, v2add; rnum; cbn [fst snd]; f_equal; ring).
      destruct (Rltb_spec eps (v2norm pt1 - b_rad c)) as [L|L]; [|discriminate]. rewrite Dq in L. apply (near_cover c hu t q); auto; [|lra].
      intros Z. rewrite Z, (proj2 (dist_zero _ _) eq_refl) in L. lra.
  - assert (Nl : (0 < length (b_verts hu))%nat) by lia. destruct r as [[[[n p1] p2] pen]|].
    + destruct (sat_consistent c hu eps n p1 p2 pen hu' Nl E) as (_ & _ & _ & e & Hin & _ & Ep & _). assert (L : pen <= t) by (eapply Hr; eauto).
      apply (edge_cover c hu t e); auto; [|lra]. destruct e as [a b]. apply (Hp a b Hin).
    + unfold sat_contact in E. pose proof (csat_spec (b_verts hu) (rel c hu) (b_rad c) eps (b_last hu) Nl) as S. set (st := circle_sat _ _ _ _ _) in *. unfold csat_inv in S.
      destruct (ss_exit st); [|destruct (ss_best st) as [[? ?]|]; discriminate]. destruct S as (Hi & L). rewrite cdist_edge in L.
      pose proof (edge_at_In _ _ Hi) as Hin. apply (edge_cover c hu t (edge_at (b_verts hu) (ss_last st))); auto. lra.
Qed.
Lemma hull_hull_cover b1 b2 eps ps b1' b2' t : is_circle b1 = false -> is_circle b2 = false ->
  strictly_convex (b_verts b1) -> strictly_convex (b_verts b2) -> inscribed (b_verts b1) -> inscribed (b_verts b2) -> 0 <= eps -> 0 <= t ->
  hull_hull b1 b2 eps = Ok (ps, b1', b2') -> (forall n p1 p2 pen, In (n, p1, p2, pen) ps -> pen <= t) -> overlap_at_most t b1 b2.
Proof.
  intros C1 C2 S1 S2 I1 I2 He Ht H Hr. pose proof (strictly_convex_convex _ S1) as V1. pose proof (strictly_convex_convex _ S2) as V2.
  pose proof (strictly_proper _ S1) as R1. pose proof (strictly_proper _ S2) as R2.
  assert (N1 : (0 < length (b_verts b1))%nat) by (destruct S1 as (_ & S1 & _); lia). assert (N2 : (0 < length (b_verts b2))%nat) by (destruct S2 as (_ & S2 & _); lia).
  unfold hull_hull in H. bind_inv H as c1 E1. cbv zeta in H. rnum.
  destruct (sat_value _ _ _ _ N1 E1) as (Q1 & J1 & M1). pose proof (edge_at_In _ _ J1) as In1. set (e1 := edge_at (b_verts b1) (sep_idx c1)) in *.
  assert (Ne1 : fst e1 <> snd e1) by (clearbody e1; destruct e1; apply (R1 _ _ In1)).
  assert (Cov1 : - sep_dist c1 <= t -> overlap_at_most t b1 b2) by (intros; now apply (face_cover b1 b2 t e1 (sep_dist c1))).
  destruct (Rltb_spec eps (sep_dist c1)) as [X|X1]; [apply Cov1; lra|]. bind_inv H as c2 E2.
  destruct (sat_value _ _ _ _ N2 E2) as (Q2 & J2 & M2). rewrite verts_set_last in Q2, M2. pose proof (edge_at_In _ _ J2) as In2. set (e2 := edge_at (b_verts b2) (sep_idx c2)) in *.
  assert (Ne2 : fst e2 <> snd e2) by (clearbody e2; destruct e2; apply (R2 _ _ In2)).
  assert (Off : offset b2 (set_last b1 (sep_idx c1)) = offset b2 b1) by (unfold offset; now rewrite pos_set_last). rewrite Off in Q2, M2.
  assert (Off2 : offset b2 b1 = v2opp (offset b1 b2)) by (unfold offset, v2sub, v2opp; rnum; cbn [fst snd]; apply f_equal2; ring).
  assert (Off3 : offset b1 b2 = v2opp (offset b2 b1)) by (unfold offset, v2sub, v2opp; rnum; cbn [fst snd]; apply f_equal2; ring).
  assert (Cov2 : - sep_dist c2 <= t -> overlap_at_most t b1 b2) by (intros; apply overlap_sym; now apply (face_cover b2 b1 t e2 (sep_dist c2))).
  destruct (Rltb_spec eps (sep_dist c2)) as [X|X2]; [apply Cov2; lra|].
  destruct M1 as [M1|M1]; [lra|]. destruct M2 as [M2|M2]; [lra|].
  destruct (test_separations_inv _ _ _ _ N1 E1) as (_ & (s1 & v1 & G1 & D1 & K1) & _).
  destruct (test_separations_inv _ _ _ _ N2 E2) as (_ & (s2 & v2 & G2 & D2 & K2) & _). rewrite verts_set_last in G2.
  destruct (Rltb_spec (sep_dist c1) (sep_dist c2)) as [X|X].
  - destruct (Rle_lt_dec (sep_dist c2) 0) as [Z|Z]; [|apply Cov2; lra].
    destruct (sep_info c2) as [[[[[pa pb] nn] v] en]|]; [|discriminate]. destruct K2 as (-> & -> & ->). inversion H; subst ps b1' b2'; clear H.
    destruct (face_deepest b2 b1 (sep_idx c2) s2 v2 eps (sep_dist c2)) as ([[p1 p2] d] & Hin & L); auto; try lra.
    + rewrite D2. unfold sep_value. now rewrite pos_set_last.
    + intros e m Hin Hm. assert (m <= sep_dist c1); [|lra]. apply (M1 e m Hin). now rewrite Off3.
    + apply Cov2. cbn [snd] in L. assert (- d <= t); [|lra]. eapply Hr. rewrite clip_face_last, !v2opp2. apply in_map_iff. exists (p1, p2, d). split; [reflexivity|exact Hin].
  - destruct (Rle_lt_dec (sep_dist c1) 0) as [Z|Z]; [|apply Cov1; lra].
    destruct (sep_info c1) as [[[[[pa pb] nn] v] en]|]; [|discriminate]. destruct K1 as (-> & -> & ->). inversion H; subst ps b1' b2'; clear H.
    destruct (face_deepest b1 b2 (sep_idx c1) s1 v1 eps (sep_dist c1)) as ([[p1 p2] d] & Hin & L); auto; try lra.
    + intros e m Hin Hm. assert (m <= sep_dist c2); [|lra]. apply (M2 e m Hin). now rewrite Off2.
    + apply Cov1. cbn [snd] in L. assert (- d <= t); [|lra]. eapply Hr. rewrite clip_face_last, !v2opp2. apply in_map_iff. exists (p1, p2, d). split; [reflexivity|exact Hin].
Qed.
(** which pairs of bodies the reported penetrations speak the truth about, up to [t] *)
Lemma handler_cover fuel o eps clk bs i1 i2 b1 b2 cs bs' clk' t : nth_error bs i1 = Some b1 -> nth_error bs i2 = Some b2 -> ~ excluded b1 b2 -> tidy b1 -> tidy b2 ->
  0 <= eps -> 0 <= t -> measured t b1 b2 -> diff_handler (T := R) fuel o eps clk bs i1 i2 = Ok (cs, bs', clk') -> (forall c, In c cs -> c_pen c <= t) -> overlap_at_most t b1 b2.
Proof.
  intros H1 H2 Hx T1 T2 He Ht Hm H Hr. unfold diff_handler in H. unfold get_body in H. rewrite H1, H2 in H. cbn [bind] in H.
  destruct (existsb _ _) eqn:Ex; [apply existsb_In in Ex; contradiction|]. unfold tidy in T1, T2. unfold measured in Hm. destruct (is_circle b1) eqn:C1, (is_circle b2) eqn:C2; cbn [andb orb] in H.
  - inversion H; subst; clear H. apply circles_cover; auto. rewrite circle_circle_eq in Hr. cbv zeta in Hr.
    destruct (Rltb_spec (b_rad b1 + b_rad b2 - dist (b_pos b1) (b_pos b2)) (- eps)) as [L|L]; [lra|]. cbn in Hr. specialize (Hr _ (or_introl eq_refl)). cbn [c_pen] in Hr. exact Hr.
  - destruct (Nat.eqb_spec (length (b_verts b2)) 0) as [|N]; [discriminate|]. bind_inv H as r E. destruct r as [op hu']. inversion H; subst; clear H.
    eapply (circle_hull_cover fuel b1 b2 eps); eauto; [apply Nat.mod_upper_bound; exact N|]. intros n p1 p2 pen ->. specialize (Hr _ (or_introl eq_refl)). exact Hr.
  - destruct (Nat.eqb_spec (length (b_verts b1)) 0) as [|N]; [discriminate|]. bind_inv H as r E. destruct r as [op hu']. inversion H; subst; clear H.
    apply overlap_sym. eapply (circle_hull_cover fuel b2 b1 eps); eauto; [apply Nat.mod_upper_bound; exact N|]. intros n p1 p2 pen ->. specialize (Hr _ (or_introl eq_refl)). exact Hr.
  - destruct Hm as [I1 I2]. bind_inv H as r E. destruct r as [[ps b1'] b2']. inversion H; subst; clear H.
    eapply (hull_hull_cover b1 b2 eps); eauto. intros n p1 p2 pen Hin. specialize (Hr (mkContact n p1 p2 pen i1 i2)). apply Hr. unfold mk_contacts. apply in_map_iff. exists (n, p1, p2, pen). auto.
Qed.

(** *** bodies that share no point do not overlap *)
Lemma min_exists {A} (f : A -> R) l : l <> [] -> exists m, is_min f l m.
Proof.
  induction l as [|a [|b l] IH]; intros H; [congruence| |].
  - exists (f a). split; [exists a; split; [now left|reflexivity]|]. intros v [->|[]]. lra.
  - destruct IH as (m & (v & Hv & Ev) & Hm); [discriminate|]. destruct (Rle_lt_dec (f a) m) as [L|L].
    + exists (f a). split; [exists a; split; [now left|reflexivity]|]. intros x [->|Hx]; [lra|]. specialize (Hm x Hx). lra.
    + exists m. split; [exists v; split; [now right|exact Ev]|]. intros x [->|Hx]; [lra|auto].
Qed.
Lemma outside_dec P Q d : Q <> [] -> not_outside P Q d \/ exists e m, In e (edges P) /\ separation Q d e m /\ 0 < m.
Proof.
  intros HQ. unfold not_outside. induction (edges P) as [|e l IH]; [left; intros ? ? []|].
  destruct IH as [IH|(e' & m & H1 & H2 & H3)]; [|right; exists e', m; split; [now right|auto]].
  destruct (min_exists (fun v => edge_dist e (v2add v d)) Q HQ) as (m & Hm). destruct (Rle_lt_dec m 0) as [L|L]; [left|right; exists e, m; split; [now left|split; auto]].
  intros e' m' [<-|Hin] H; [|eauto]. rewrite (separation_unique _ _ _ _ _ H Hm). exact L.
Qed.
Lemma apart_cover b1 b2 : tidy b1 -> tidy b2 -> supported b1 -> supported b2 -> (exists q, body_points b1 q /\ body_points b2 q) \/ overlap_at_most 0 b1 b2.
Proof.
  assert (CH : forall c hu, is_circle c = true -> is_circle hu = false -> 0 <= b_rad c -> strictly_convex (b_verts hu) -> supported hu -> (exists q, body_points c q /\ body_points hu q) \/ overlap_at_most 0 c hu).
  { intros c hu C Ch P Hc Hs. destruct (nearest_exists (b_verts hu) (rel c hu) Hc (Hs Ch)) as (q & N).
    destruct (Rle_lt_dec (dist (rel c hu) q) (b_rad c)) as [L|L]; [left|right].
    { exists (v2add q (b_pos hu)). split; [|apply hull_at; [exact Ch|apply N]].
      apply circle_points; [exact C|]. rewrite dist_sym, <- dist_rel with (h := hu). rewrite v2add_sub. exact L. }
    apply (near_cover c hu 0 q); auto; [|lra]. intros Z. rewrite Z, (proj2 (dist_zero _ _) eq_refl) in L. lra. }
  intros T1 T2 U1 U2. unfold tidy in T1, T2. destruct (is_circle b1) eqn:C1, (is_circle b2) eqn:C2.
  - destruct (Rle_lt_dec (dist (b_pos b1) (b_pos b2)) (b_rad b1 + b_rad b2)) as [L|L]; [left|right; apply circles_cover; auto; lra].
    set (D := dist (b_pos b1) (b_pos b2)) in *. pose proof (dist_nonneg (b_pos b1) (b_pos b2)) as DN. fold D in DN.
    destruct (Rle_lt_dec D (b_rad b1)) as [L1|L1].
    + exists (b_pos b2). split; apply circle_points; auto; [rewrite dist_sym; exact L1|rewrite (proj2 (dist_zero _ _) eq_refl); exact T2].
    + assert (E : b_pos b2 <> b_pos b1) by (intros E; unfold D in L1; rewrite E, (proj2 (dist_zero _ _) eq_refl) in L1; lra).
      destruct (dir_unit _ _ E) as [U V]. set (n := (_, _)) in *. exists (v2add (b_pos b1) (v2scale (b_rad b1) n)). split; apply circle_points; auto.
      * rewrite dist_sym, dist_push; auto. lra.
      * assert (Eb : b_pos b2 = v2add (b_pos b1) (v2scale D n)).
        { unfold v2add, v2scale, n, D. rnum. cbn [fst snd]. rewrite (dist_sym (b_pos b2)). apply dist_pos in E. rewrite dist_sym in E. destruct (b_pos b2), (b_pos b1). cbn [fst snd]. apply f_equal2; field; lra. }
        assert (Q : dist (v2add (b_pos b1) (v2scale D n)) (v2add (b_pos b1) (v2scale (b_rad b1) n)) = D - b_rad b1).
        { replace (v2add (b_pos b1) (v2scale D n)) with (v2add (v2add (b_pos b1) (v2scale (b_rad b1) n)) (v2scale (D - b_rad b1) n)) by (unfold v2add, v2scale; rnum; cbn [fst snd]; apply f_equal2; ring).
          rewrite dist_sym. apply dist_push; [exact U|]. clear - L1. lra. }
        rewrite dist_sym, Eb, Q. clear - L. lra.
  - apply CH; auto.
  - destruct (CH b2 b1 C2 C1 T2 T1 U1) as [(q & ? & ?)|O]; [left; eauto|right; now apply overlap_sym].
  - pose proof (strictly_convex_convex _ T1) as V1. pose proof (strictly_convex_convex _ T2) as V2. pose proof (strictly_proper _ T1) as R1. pose proof (strictly_proper _ T2) as R2.
    assert (N1 : b_verts b1 <> []) by (intros Z; destruct T1 as (_ & T1 & _); rewrite Z in T1; cbn in T1; lia). assert (N2 : b_verts b2 <> []) by (intros Z; destruct T2 as (_ & T2 & _); rewrite Z in T2; cbn in T2; lia).
    destruct (outside_dec (b_verts b1) (b_verts b2) (offset b1 b2) N2) as [O1|(e & m & Hin & Hs & L)].
    + destruct (outside_dec (b_verts b2) (b_verts b1) (v2opp (offset b1 b2)) N1) as [O2|(e & m & Hin & Hs & L)].
      * left. destruct (sat_complete _ _ _ T1 T2 O1 O2) as (x & X1 & X2). exists (v2add x (b_pos b1)). split; apply polygon_points; auto.
        -- now rewrite v2add_sub.
        -- replace (v2sub (v2add x (b_pos b1)) (b_pos b2)) with (v2sub x (offset b1 b2)); [exact X2|]. unfold offset, v2sub, v2add. rnum. cbn [fst snd]. apply f_equal2; ring.
      * right. apply overlap_sym. apply (face_cover b2 b1 0 e m); auto; [destruct e; apply (R2 _ _ Hin)| |lra].
        replace (offset b2 b1) with (v2opp (offset b1 b2)); [exact Hs|]. unfold offset, v2sub, v2opp. rnum. cbn [fst snd]. apply f_equal2; ring.
    + right. apply (face_cover b1 b2 0 e m); auto; [destruct e; apply (R1 _ _ Hin)|lra].
Qed.

(** *** in a world *)
Lemma overlap_le t t' b1 b2 : t <= t' -> overlap_at_most t b1 b2 -> overlap_at_most t' b1 b2.
Proof. intros L (n & U & H). exists n. split; [exact U|]. intros q1 q2 P1 P2. specialize (H q1 q2 P1 P2). lra. Qed.
Lemma measured_sym t b1 b2 : measured t b1 b2 -> measured t b2 b1.
Proof. unfold measured. destruct (is_circle b1), (is_circle b2); tauto. Qed.
Lemma current_cover fuel o w i j b1 b2 t : contacts_current o (diff_handler fuel o) w ->
  (forall k, In (i, j) (o_collide o k (map b_geom (w_bodies w))) \/ In (j, i) (o_collide o k (map b_geom (w_bodies w)))) ->
  nth_error (w_bodies w) i = Some b1 -> nth_error (w_bodies w) j = Some b2 -> ~ excluded b1 b2 -> ~ excluded b2 b1 ->
  tidy b1 -> tidy b2 -> measured t b1 b2 -> 0 <= w_eps w -> 0 <= t -> (forall c, In c (w_contacts w) -> c_pen c <= t) -> overlap_at_most t b1 b2.
Proof.
  intros (k & calls & Hk & Hw & Hr) Hp H1 H2 X1 X2 T1 T2 Hm He Ht Hc.
  assert (G : forall i j b1 b2, In (i, j) (o_collide o k (map b_geom (w_bodies w))) -> nth_error (w_bodies w) i = Some b1 -> nth_error (w_bodies w) j = Some b2 ->
    ~ excluded b1 b2 -> tidy b1 -> tidy b2 -> measured t b1 b2 -> overlap_at_most t b1 b2).
  { clear - Hk Hw Hr He Ht Hc. intros i j b1 b2 Hin H1 H2 Hx T1 T2 Hm. rewrite <- Hk in Hin. apply in_map_iff in Hin. destruct Hin as ([[i' j'] new] & E & Hin). cbn [fst] in E. inversion E; subst i' j'; clear E.
    destruct (Hr i j new Hin) as (clk & bs0 & bs1 & clk1 & Hs & Hd). destruct (still_nth _ _ _ _ Hs H1) as (a1 & A1 & S1). destruct (still_nth _ _ _ _ Hs H2) as (a2 & A2 & S2).
    assert (S1' := eq_sym S1). assert (S2' := eq_sym S2).
    destruct (still_shape _ _ S1') as (I1 & _ & Q1 & R1 & V1 & G1). destruct (still_shape _ _ S2') as (I2 & _ & Q2 & R2 & V2 & G2).
    apply (still_overlap t b1 a1 b2 a2); auto. eapply (handler_cover fuel o (w_eps w) clk bs0 i j a1 a2); eauto using still_tidy.
    - unfold excluded in *. now rewrite <- I1, <- G2.
    - unfold measured in *. rewrite <- Q1, <- Q2, <- V1, <- V2, <- R1, <- R2. exact Hm.
    - intros c Hin'. apply Hc. rewrite Hw. apply in_flat_map. eexists. split; [exact Hin|exact Hin']. }
  destruct (Hp k) as [Hin|Hin]; [eapply G; eauto|]. apply overlap_sym. eapply (G j i); eauto. now apply measured_sym.
Qed.
