(** Strict worlds: overlap, motion and the step-halving loop *)
From Coq Require Import List Arith ZArith Bool Reals Lra Lia Psatz.
From Verif Require Import Num Tensor Utils Bodies Forces Constraints Contacts World Lapack Pdipm Lcp Engines Spec GeoSpec BodySpec JointSpec FreshSpec EngineSpec ContactSpec RewindSpec StrictSpec
     RBase ResFacts LinAlg LapackSpec KktSpec PdipmSpec BodyFacts WorldFacts HandlerFacts LayoutFacts HistFacts RigidFacts SysFacts RewindFacts JointFacts JeFacts FreshFacts TimeFacts
     CacheFacts BodyReach GeomFacts PdipmFacts PdipmLoop SolverFacts EngineFacts ContactSys EngineBalance ContactLaw EngineTotal PostFacts HeldFacts PlaneFacts SupportFacts SatFacts HellyFacts
     ContactFacts OverlapFacts CollideFacts FlightFacts EngineProps IndepFacts DriftFacts RunTotal.
Import ListNotations.
Open Scope R_scope.

(** *** points and directions *)
Lemma dist_nonneg a b : 0 <= dist a b.
Proof. apply sqrt_pos. Qed.
Lemma dist_sq a b : dist a b * dist a b = (fst a - fst b) * (fst a - fst b) + (snd a - snd b) * (snd a - snd b).
Proof. unfold dist. apply sqrt_sqrt. pose proof (Rle_0_sqr (fst a - fst b)). pose proof (Rle_0_sqr (snd a - snd b)). unfold Rsqr in *. lra. Qed.
Lemma unit_dot n a b : unit_vec n -> fst n * (fst a - fst b) + snd n * (snd a - snd b) <= dist a b.
Proof.
  unfold unit_vec. intros U. pose proof (dist_sq a b) as D. pose proof (dist_nonneg a b) as P. set (x := fst a - fst b) in *. set (y := snd a - snd b) in *. set (d := dist a b) in *.
  assert (Q : (fst n * x + snd n * y) * (fst n * x + snd n * y) <= d * d).
  { rewrite D. replace (x * x + y * y) with ((fst n * fst n + snd n * snd n) * (x * x + y * y)) by (rewrite U; ring). pose proof (Rle_0_sqr (fst n * y - snd n * x)) as S. unfold Rsqr in S. lra. }
  destruct (Rle_dec (fst n * x + snd n * y) d); [assumption|]. nra.
Qed.
Lemma unit_opp n : unit_vec n -> unit_vec (v2opp n).
Proof. unfold unit_vec, v2opp. cbn [fst snd]. rnum. intros. lra. Qed.
Lemma overlap_sym t b1 b2 : overlap_at_most t b1 b2 -> overlap_at_most t b2 b1.
Proof.
  intros (n & U & H). exists (v2opp n). split; [now apply unit_opp|]. intros q1 q2 P1 P2. specialize (H q2 q1 P2 P1). unfold v2opp. cbn [fst snd]. rnum. lra.
Qed.
Lemma circle_far (c : body R) n : is_circle c = true -> 0 <= b_rad c -> unit_vec n -> body_points c (v2add (b_pos c) (v2scale (b_rad c) n)).
Proof.
  intros C P U. apply circle_points; [exact C|]. unfold dist, v2add, v2scale. cbn [fst snd]. rnum. unfold unit_vec in U.
  replace ((fst (b_pos c) + b_rad c * fst n - fst (b_pos c)) * (fst (b_pos c) + b_rad c * fst n - fst (b_pos c)) + (snd (b_pos c) + b_rad c * snd n - snd (b_pos c)) * (snd (b_pos c) + b_rad c * snd n - snd (b_pos c)))
    with (b_rad c * b_rad c * (fst n * fst n + snd n * snd n)) by ring.
  rewrite U, Rmult_1_r, sqrt_square by exact P. lra.
Qed.

(** *** a contact never reports more than the overlap *)
Lemma circles_depth c1 c2 t : is_circle c1 = true -> is_circle c2 = true -> 0 <= b_rad c1 -> 0 <= b_rad c2 -> overlap_at_most t c1 c2 ->
  b_rad c1 + b_rad c2 - dist (b_pos c1) (b_pos c2) <= t.
Proof.
  intros C1 C2 P1 P2 (n & U & H). pose proof (H _ _ (circle_far c1 _ C1 P1 (unit_opp _ U)) (circle_far c2 _ C2 P2 U)) as L.
  unfold v2add, v2scale, v2opp in L. cbn [fst snd] in L. rnum. pose proof (unit_dot n (b_pos c1) (b_pos c2) U) as D. unfold unit_vec in U.
  set (n1 := fst n) in *. set (n2 := snd n) in *. nra.
Qed.
Lemma hull_at (hu : body R) x : is_circle hu = false -> in_hull (b_verts hu) x -> body_points hu (v2add x (b_pos hu)).
Proof. intros C H. apply polygon_points; [exact C|]. now rewrite v2add_sub. Qed.
Lemma near_depth c hu t q : is_circle c = true -> 0 <= b_rad c -> is_circle hu = false -> in_hull (b_verts hu) q -> overlap_at_most t c hu ->
  b_rad c - dist (rel c hu) q <= t.
Proof.
  intros C P Ch Hq (n & U & H). pose proof (H _ _ (circle_far c _ C P (unit_opp _ U)) (hull_at hu q Ch Hq)) as L.
  pose proof (unit_dot n (rel c hu) q U) as D. unfold rel, v2add, v2sub, v2scale, v2opp in *. cbn [fst snd] in *. rnum. unfold unit_vec in U. 
  set (n1 := fst n) in *. set (n2 := snd n) in *. set (d := dist _ q) in *. nra.
Qed.
Lemma inside_push vs x n D : strictly_convex vs -> unit_vec n -> 0 <= D -> (forall e, In e (edges vs) -> edge_dist e x <= - D) -> in_hull vs (v2add x (v2scale D n)).
Proof.
  intros Hc U HD H. apply inside_hull; [exact Hc|]. intros p q He. pose proof (strictly_proper _ Hc p q He) as Hn. apply (edge_dist_neg (p, q)); [exact Hn|].
  pose proof (edge_dist_lipschitz (p, q) x (v2add x (v2scale D n)) Hn) as L. rewrite (dist_push x D n U HD) in L. specialize (H _ He). lra.
Qed.
Lemma deep_depth c hu t D : is_circle c = true -> 0 <= b_rad c -> is_circle hu = false -> strictly_convex (b_verts hu) -> in_hull (b_verts hu) (rel c hu) ->
  (forall e, In e (edges (b_verts hu)) -> edge_dist e (rel c hu) <= - D) -> overlap_at_most t c hu -> b_rad c + D <= t.
Proof.
  intros C P Ch Hc Hin HD (n & U & H).
  assert (G : forall D', 0 <= D' -> in_hull (b_verts hu) (v2add (rel c hu) (v2scale D' n)) -> b_rad c + D' <= t).
  { intros D' HD' Hx. pose proof (H _ _ (circle_far c _ C P (unit_opp _ U)) (hull_at hu _ Ch Hx)) as L.
    unfold rel, v2add, v2sub, v2scale, v2opp in L. cbn [fst snd] in L. rnum. unfold unit_vec in U. set (n1 := fst n) in *. set (n2 := snd n) in *. nra. }
  destruct (Rle_dec 0 D) as [L|L].
  - apply G; [exact L|]. now apply inside_push.
  - pose proof (G 0 (Rle_refl 0)) as Q. assert (E : v2add (rel c hu) (v2scale 0 n) = rel c hu).
    { unfold v2add, v2scale. rnum. destruct (rel c hu). cbn [fst snd]. apply f_equal2; ring. }
    rewrite E in Q. specialize (Q Hin). lra.
Qed.
Lemma circle_hull_depth fuel c hu eps start n p1 p2 pen hu' t : is_circle c = true -> 0 <= b_rad c -> is_circle hu = false -> strictly_convex (b_verts hu) -> (start < length (b_verts hu))%nat ->
  circle_hull fuel c hu eps start = Ok (Some (n, p1, p2, pen), hu') -> overlap_at_most t c hu -> pen <= t.
Proof.
  intros C P Ch Hc Hs H Ho. pose proof (proj1 Hc) as Hn. destruct (circle_hull_cases _ _ _ _ _ _ Hn Hs H) as [(q & N & _ & E)|(I & E)].
  - inversion E as [[E1 E2]]. symmetry in E1. destruct (near_consistent _ _ _ _ _ _ _ _ E1) as (_ & _ & _ & -> & _). apply near_depth; auto. apply N.
  - destruct (sat_consistent c hu eps n p1 p2 pen hu' ltac:(lia) E) as (_ & _ & _ & e & He & _ & -> & _ & Hm).
    pose proof (deep_depth c hu t (- edge_dist e (rel c hu)) C P Ch Hc I) as Q. unfold Rminus. apply Q; [|exact Ho]. intros e' He'. specialize (Hm e' He'). lra.
Qed.
Lemma handler_depth fuel o eps clk bs i1 i2 b1 b2 cs bs' clk' c t : nth_error bs i1 = Some b1 -> nth_error bs i2 = Some b2 -> tidy b1 -> tidy b2 ->
  is_circle b1 = true \/ is_circle b2 = true -> overlap_at_most t b1 b2 -> diff_handler (T := R) fuel o eps clk bs i1 i2 = Ok (cs, bs', clk') -> In c cs -> c_pen c <= t.
Proof.
  intros H1 H2 T1 T2 Hc Ho H Hin. unfold diff_handler in H. unfold get_body in H. rewrite H1, H2 in H. cbn [bind] in H.
  destruct (existsb _ _); [inversion H; subst; destruct Hin|]. destruct (is_circle b1) eqn:C1, (is_circle b2) eqn:C2; cbn [andb orb] in H.
  - inversion H; subst. apply in_mk_contacts in Hin. destruct Hin as (n & p1 & p2 & pen & Hin & ->). cbn [c_pen]. rewrite circle_circle_eq in Hin.
    cbv zeta in Hin. destruct (Rltb (b_rad b1 + b_rad b2 - dist (b_pos b1) (b_pos b2)) (- eps)); [destruct Hin|]. destruct Hin as [Hin|[]].
    assert (Ep : pen = b_rad b1 + b_rad b2 - dist (b_pos b1) (b_pos b2)) by congruence. rewrite Ep. unfold tidy in T1, T2. rewrite C1 in T1. rewrite C2 in T2.
    pose proof (circles_depth b1 b2 t C1 C2 T1 T2 Ho). lra.
  - unfold tidy in T1, T2. rewrite C1 in T1. rewrite C2 in T2. destruct (Nat.eqb_spec (length (b_verts b2)) 0) as [|N]; [discriminate|]. bind_inv H as r E. destruct r as [[p|] hu']; inversion H; subst; [|destruct Hin].
    destruct p as [[[n p1] p2] pen]. destruct Hin as [<-|[]]. cbn [c_pen]. eapply circle_hull_depth; [exact C1|exact T1|exact C2|exact T2| |exact E|exact Ho]. apply Nat.mod_upper_bound. exact N.
  - unfold tidy in T1, T2. rewrite C1 in T1. rewrite C2 in T2. destruct (Nat.eqb_spec (length (b_verts b1)) 0) as [|N]; [discriminate|]. bind_inv H as r E. destruct r as [[p|] hu']; inversion H; subst; [|destruct Hin].
    destruct p as [[[n p1] p2] pen]. destruct Hin as [<-|[]]. cbn [c_pen].
    eapply circle_hull_depth; [exact C2|exact T2|exact C1|exact T1| |exact E|apply overlap_sym; exact Ho]. apply Nat.mod_upper_bound. exact N.
  - destruct Hc; discriminate.
Qed.

(** *** how far points move *)
Lemma wsum_rotate th ws vs : length ws = length vs ->
  wsum ws fst (map (rotate th) vs) = cos th * wsum ws fst vs - sin th * wsum ws snd vs /\ wsum ws snd (map (rotate th) vs) = sin th * wsum ws fst vs + cos th * wsum ws snd vs.
Proof.
  revert vs. induction ws as [|a ws IH]; intros [|v vs] L; try discriminate; [unfold wsum; cbn; split; ring|]. cbn in L.
  destruct (IH vs ltac:(lia)) as [E1 E2]. unfold wsum in *. cbn [combine map]. rewrite !Rsum_cons, E1, E2. unfold rotate. cbn [fst snd]. split; ring.
Qed.
Lemma hull_rotated th vs x : in_hull (map (rotate th) vs) x -> exists u, in_hull vs u /\ x = rotate th u.
Proof.
  intros (ws & L & F & S & X & Y). rewrite map_length in L. destruct (wsum_rotate th ws vs L) as [E1 E2]. exists (wsum ws fst vs, wsum ws snd vs).
  split; [exists ws; auto|]. unfold rotate. cbn [fst snd]. destruct x. cbn [fst snd] in *. apply f_equal2; lra.
Qed.
Lemma rotate_shift th u : dist (rotate th u) u <= Rabs th * dist u (0, 0).
Proof.
  assert (E : dist (rotate th u) u * dist (rotate th u) u <= (Rabs th * dist u (0, 0)) * (Rabs th * dist u (0, 0))).
  { replace (Rabs th * dist u (0, 0) * (Rabs th * dist u (0, 0))) with ((Rabs th * Rabs th) * (dist u (0, 0) * dist u (0, 0))) by ring. rewrite !dist_sq.
    assert (A : Rabs th * Rabs th = th * th) by (rewrite <- Rabs_mult; apply Rabs_pos_eq; nra). rewrite A. unfold rotate. cbn [fst snd].
    pose proof (sin2_cos2 th) as SC. unfold Rsqr in SC. pose proof (cos_below th) as CB. set (s := sin th) in *. set (k := cos th) in *. set (x := fst u). set (y := snd u).
    apply Rle_trans with (2 * (1 - k) * (x * x + y * y)).
    - right. transitivity (((s * s + k * k) - 2 * k + 1) * (x * x + y * y)); [ring|rewrite SC; ring].
    - replace ((x - 0) * (x - 0) + (y - 0) * (y - 0)) with (x * x + y * y) by ring. apply Rmult_le_compat_r; [nra|exact CB]. }
  pose proof (dist_nonneg (rotate th u) u). pose proof (dist_nonneg u (0, 0)). pose proof (Rabs_pos th).
  destruct (Rle_dec (dist (rotate th u) u) (Rabs th * dist u (0, 0))) as [|N]; [assumption|]. assert (0 <= Rabs th * dist u (0, 0)) by (apply Rmult_le_pos; assumption). nra.
Qed.
Lemma dist_add a b c d : dist (v2add a b) (v2add c d) <= dist a c + dist b d.
Proof.
  assert (E1 : dist (v2add a b) (v2add c b) = dist a c) by (unfold dist, v2add; cbn [fst snd]; rnum; f_equal; ring).
  assert (E2 : dist (v2add c b) (v2add c d) = dist b d) by (unfold dist, v2add; cbn [fst snd]; rnum; f_equal; ring).
  pose proof (dist_triangle (v2add a b) (v2add c b) (v2add c d)). lra.
Qed.
(** every point of the moved body comes from a point of the body that is not far away *)
Lemma moved_point (b : body R) dt q' : poly_wf b -> 0 <= dt -> body_points (move b dt) q' ->
  exists q, body_points b q /\ dist q' q <= dt * (dist (snd (b_v b)) (0, 0) + Rabs (fst (b_v b)) * dist q (b_pos b)).
Proof.
  intros W Hdt H. set (p := v3add (b_p b) (v3scale dt (b_v b))).
  assert (Em : move b dt = set_p b p) by reflexivity. rewrite Em in H. destruct (set_p_verts b p W) as (_ & Ev & HC).
  assert (Ep : b_pos (set_p b p) = v2add (b_pos b) (v2scale dt (snd (b_v b)))).
  { unfold b_pos. rewrite set_p_p. reflexivity. }
  assert (Et : fst p - b_rot b = fst (b_v b) * dt) by (unfold p, b_rot, v3add, v3scale; cbn; rnum; ring).
  assert (Dv : dist (v2scale dt (snd (b_v b))) (0, 0) = dt * dist (snd (b_v b)) (0, 0)).
  { unfold dist, v2scale. cbn [fst snd]. rnum. set (x := fst (snd (b_v b))). set (y := snd (snd (b_v b))).
    replace ((dt * x - 0) * (dt * x - 0) + (dt * y - 0) * (dt * y - 0)) with ((dt * dt) * ((x - 0) * (x - 0) + (y - 0) * (y - 0))) by ring.
    rewrite sqrt_mult_alt by nra. now rewrite sqrt_square. }
  destruct (is_circle b) eqn:Hc.
  - assert (Hc' : is_circle (set_p b p) = true) by (unfold same_class in HC; unfold is_circle in *; destruct (b_kind b), (b_kind (set_p b p)); tauto || discriminate).
    assert (Er : b_rad (set_p b p) = b_rad b) by (unfold same_class in HC; unfold b_rad, is_circle in *; destruct (b_kind b), (b_kind (set_p b p)); tauto || discriminate).
    exists (v2sub q' (v2scale dt (snd (b_v b)))). rewrite (circle_points _ _ Hc'), Ep, Er in H. split.
    + apply circle_points; [exact Hc|]. replace (dist (v2sub q' (v2scale dt (snd (b_v b)))) (b_pos b)) with (dist q' (v2add (b_pos b) (v2scale dt (snd (b_v b))))); [exact H|].
      unfold dist, v2sub, v2add. cbn [fst snd]. rnum. f_equal. ring.
    + set (q := v2sub q' _). assert (D : dist q' q = dist (v2scale dt (snd (b_v b))) (0, 0)) by (unfold q, dist, v2sub; cbn [fst snd]; rnum; f_equal; ring).
      rewrite D, Dv. apply Rmult_le_compat_l; [exact Hdt|]. assert (0 <= Rabs (fst (b_v b)) * dist q (b_pos b)) by (apply Rmult_le_pos; [apply Rabs_pos|apply dist_nonneg]). lra.
  - assert (Hc' : is_circle (set_p b p) = false) by (unfold same_class in HC; unfold is_circle in *; destruct (b_kind b), (b_kind (set_p b p)); tauto || discriminate).
    apply (polygon_points _ _ Hc') in H. rewrite Ev, Et in H. apply hull_rotated in H. destruct H as (u & Hu & Eq). exists (v2add u (b_pos b)). split; [now apply hull_at|].
    assert (Eq' : q' = v2add (rotate (fst (b_v b) * dt) u) (v2add (b_pos b) (v2scale dt (snd (b_v b))))) by (rewrite <- Eq, <- Ep; symmetry; apply v2sub_add).
    rewrite Eq'. pose proof (dist_add (rotate (fst (b_v b) * dt) u) (v2add (b_pos b) (v2scale dt (snd (b_v b)))) u (b_pos b)) as L.
    assert (D : dist (v2add (b_pos b) (v2scale dt (snd (b_v b)))) (b_pos b) = dist (v2scale dt (snd (b_v b))) (0, 0)) by (unfold dist, v2add; cbn [fst snd]; rnum; f_equal; ring).
    rewrite D, Dv in L. pose proof (rotate_shift (fst (b_v b) * dt) u) as Q. rewrite Rabs_mult, (Rabs_pos_eq dt Hdt) in Q.
    assert (Eu : dist (v2add u (b_pos b)) (b_pos b) = dist u (0, 0)) by (unfold dist, v2add; cbn [fst snd]; rnum; f_equal; ring). rewrite Eu. lra.
Qed.
Lemma overlap_moved b1 b2 t s dt : poly_wf b1 -> poly_wf b2 -> 0 <= dt -> overlap_at_most t b1 b2 ->
  (forall q, body_points b1 q -> dist (snd (b_v b1)) (0, 0) + Rabs (fst (b_v b1)) * dist q (b_pos b1) <= s) ->
  (forall q, body_points b2 q -> dist (snd (b_v b2)) (0, 0) + Rabs (fst (b_v b2)) * dist q (b_pos b2) <= s) ->
  overlap_at_most (t + 2 * s * dt) (move b1 dt) (move b2 dt).
Proof.
  intros W1 W2 Hdt (n & U & H) S1 S2. exists n. split; [exact U|]. intros q1' q2' P1 P2.
  destruct (moved_point b1 dt q1' W1 Hdt P1) as (q1 & Q1 & D1). destruct (moved_point b2 dt q2' W2 Hdt P2) as (q2 & Q2 & D2).
  specialize (H q1 q2 Q1 Q2). pose proof (unit_dot n q2' q2 U) as A2. pose proof (unit_dot n q1 q1' U) as A1. rewrite dist_sym in A1.
  specialize (S1 q1 Q1). specialize (S2 q2 Q2). nra.
Qed.

(** *** the step-halving loop *)
Lemma still_overlap t (a1 b1 a2 b2 : body R) : still a1 = still b1 -> still a2 = still b2 -> overlap_at_most t b1 b2 -> overlap_at_most t a1 a2.
Proof. intros E1 E2 (n & U & H). exists n. split; [exact U|]. intros q1 q2 P1 P2. apply H; eapply still_points; eauto. Qed.
Lemma move_id (b : body R) dt : b_id (move b dt) = b_id b /\ g_no_contact (b_geom (move b dt)) = g_no_contact (b_geom b).
Proof.
  unfold move, set_p. set (p := v3add _ _). clearbody p. destruct (b_kind b); cbn; try (match goal with |- context[Reqb ?a ?c] => destruct (Reqb a c) end); split; reflexivity.
Qed.
Lemma halve_below dt d : 0 < d -> exists m, dt / 2 ^ m <= d.
Proof.
  intros Hd. destruct (Rle_dec dt 0) as [N|N].
  - exists 0%nat. cbn. lra.
  - destruct (archimed (dt / d)) as [Hm _]. assert (Pm : 0 < dt / d) by (apply Rdiv_lt_0_compat; lra). set (m := Z.to_nat (up (dt / d))).
    assert (Hm' : dt < INR m * d).
    { unfold m. rewrite INR_IZR_INZ, Z2Nat.id by (apply le_IZR; lra). replace dt with (dt / d * d) at 1 by (field; lra). apply Rmult_lt_compat_r; lra. }
    clearbody m. exists m. assert (G : INR m <= 2 ^ m).
    { clear. induction m as [|m IH]; [cbn; lra|]. rewrite S_INR. cbn [pow]. assert (1 <= 2 ^ m) by (apply pow_R1_Rle; lra). lra. }
    pose proof (pow2_pos m). apply Rmult_le_reg_r with (2 ^ m); [lra|]. unfold Rdiv. rewrite Rmult_assoc, Rinv_l by lra.
    assert (INR m * d <= 2 ^ m * d) by (apply Rmult_le_compat_r; lra). lra.
Qed.

Section Loop.
Variables (gf : nat) (o : oracle R) (bs : list (body R)) (js : list (joint R)) (J0 : list jent).
Hypothesis Ho : broadphase_sane o.
Notation hd := (diff_handler gf o).
Let Hf := diff_handler_frame gf o.
Let Hr := diff_handler_respects gf o.
Definition ready (w : world R) : Prop := sound bs js J0 w /\ Forall (fit gf) (w_bodies w).

Lemma ready_find w : ready w -> exists w', find_contacts o hd w = Ok w' /\ ready w'.
Proof.
  intros [S F]. destruct (find_contacts_total gf o w Ho) as [w' E].
  { eapply Forall_impl; [|exact F]. intros b. apply fit_manageable. }
  exists w'. split; [exact E|]. split; [exact (sound_find _ _ _ _ _ Hf Hr Ho _ _ S E)|]. refine (fit_all _ _ _ _ F). apply Forall2_forget'; [apply fit_steps|]. eapply find_contacts_frame; eauto.
Qed.
Lemma ready_move w dt w' : ready w -> move_all w dt = Ok w' -> ready w'.
Proof.
  intros [S F] E. split; [exact (sound_move _ _ _ _ _ _ S E)|]. refine (fit_all _ _ _ _ F). apply move_all_inv in E. destruct E as [? ->]. cbn. apply HistFacts.Forall2_map_r. intros. now apply fit_set_p.
Qed.
Lemma ready_rewind w1 w w' : ready w1 -> ready w ->
  rewind w (cat3 (map b_p (w_bodies w1))) (map (fun '(j, _, _) => (j_rot1 j, j_rot2 j)) (w_joints w1)) = Ok w' -> ready w'.
Proof.
  intros [S1 F1] [S F] E. split; [exact (sound_rewind _ _ _ _ _ _ S1 S E)|]. refine (fit_all _ _ _ _ F). apply rewind_inv in E. destruct E as [? ->]. cbn. apply Forall2_mapi. intros. now apply fit_set_p.
Qed.
Lemma ready_set_v w v w' : ready w -> set_v w v = Ok w' -> ready w'.
Proof. intros [S F] E. split; [exact (sound_set_v _ _ _ _ _ _ S E)|]. refine (fit_all _ _ _ _ F). eapply set_v_bodies; eauto. apply fit_steps. Qed.
Lemma ready_joints w : ready w -> joints_ok w.
Proof. intros [S _]. exact (calm_joints bs js J0 w S). Qed.

Variables (w0 : world R) (v : vec R) (t s : R).
Hypothesis H0 : ready w0.
Notation B := (with_vs (w_bodies w0) v).
Hypothesis Hroom : roomy t w0.
Hypothesis Hslow : slower_than s w0 v.
Notation sp := (cat3 (map b_p (w_bodies w0))).
Notation sr := (map (fun '(j, _, _) => (j_rot1 j, j_rot2 j)) (w_joints w0)).

Lemma B_nth i b : nth_error B i = Some b -> exists b0, nth_error (w_bodies w0) i = Some b0 /\ b = with_v b0 (v3_at v i).
Proof. unfold with_vs. rewrite mapi_nth. destruct (nth_error (w_bodies w0) i) as [b0|]; [|discriminate]. cbn. intros E. inversion E. eauto. Qed.
Lemma accepted w dt w1 w2 : ready w -> same_place (w_bodies w) B -> 0 <= dt -> t + 2 * s * dt <= w_tol w ->
  move_all w dt = Ok w1 -> find_contacts o hd w1 = Ok w2 -> no_penetration w2 = true.
Proof.
  intros Rw Hp Hdt Ht E1 E2. pose proof (find_contacts_current o hd _ _ Hf E2) as (k & calls & Hk & Hc & Hrep).
  pose proof (ready_move _ _ _ Rw E1) as R1. destruct (ready_find _ R1) as (w2' & E2' & R2). assert (w2' = w2) by congruence. subst w2'.
  assert (OM : one_move dt B (w_bodies w2)).
  { pose proof E1 as E1'. apply move_all_inv in E1'. destruct E1' as [jx Ex]. pose proof E2 as E2''. apply find_contacts_frame in E2''; auto. subst w1. cbn in E2''. eapply same_place_move; eauto. }
  assert (C : cfg w2 = cfg w) by (rewrite (find_contacts_cfg _ _ _ _ E2); exact (move_all_cfg _ _ _ E1)). cfg_fields C.
  apply no_penetration_spec. rewrite Forall_forall. intros c Hin. rnum. apply Rleb_true. rewrite Htol. apply Rle_trans with (t + 2 * s * dt); [|exact Ht].
  rewrite Hc in Hin. apply in_flat_map in Hin. destruct Hin as ([[i j] new] & Hcall & Hin). cbn [snd] in Hin.
  assert (Hij : In (i, j) (o_collide o k (map b_geom (w_bodies w2)))) by (rewrite <- Hk; exact (in_map fst _ _ Hcall)).
  destruct (Ho _ _ _ _ Hij) as (Ne & Li & Lj). rewrite map_length in Li, Lj. destruct (Hrep i j new Hcall) as (clk & bs0 & bs1 & clk1 & Hs & Hd).
  destruct (nth_error (w_bodies w2) i) as [c1|] eqn:N1; [|apply nth_error_None in N1; lia]. destruct (nth_error (w_bodies w2) j) as [c2|] eqn:N2; [|apply nth_error_None in N2; lia].
  destruct (still_nth _ _ _ _ Hs N1) as (a1 & A1 & S1). destruct (still_nth _ _ _ _ Hs N2) as (a2 & A2 & S2).
  destruct (nth_error_Forall2 _ _ _ _ _ OM N1) as (d1 & D1 & M1). destruct (nth_error_Forall2 _ _ _ _ _ OM N2) as (d2 & D2 & M2).
  assert (T1 : still a1 = still (move d1 dt)) by (rewrite S1; now apply still_forget). assert (T2 : still a2 = still (move d2 dt)) by (rewrite S2; now apply still_forget).
  destruct (B_nth _ _ D1) as (b1 & B1 & ->). destruct (B_nth _ _ D2) as (b2 & B2 & ->). set (d1 := with_v b1 (v3_at v i)) in *. set (d2 := with_v b2 (v3_at v j)) in *.
  destruct (Hroom i j b1 b2 Ne B1 B2) as [[X1 X2]|[Hcirc Hov]].
  - exfalso. destruct (still_shape _ _ T1) as (I1 & _). destruct (still_shape _ _ T2) as (_ & _ & _ & _ & _ & G2). destruct (move_id d1 dt) as [Id1 _]. destruct (move_id d2 dt) as [_ Nc2].
    unfold diff_handler, get_body in Hd. rewrite A1, A2 in Hd. cbn [bind] in Hd. assert (Ex : existsb (Nat.eqb (b_id a1)) (g_no_contact (b_geom a2)) = true).
    { apply existsb_exists. exists (b_id a1). split; [|apply Nat.eqb_refl]. rewrite I1, Id1, G2, Nc2. exact X1. }
    rewrite Ex in Hd. inversion Hd; subst. destruct Hin.
  - pose proof (proj2 R2) as F2. rewrite Forall_forall in F2. pose proof (F2 _ (nth_error_In _ _ N1)) as (W1 & _ & Ty1 & _). pose proof (F2 _ (nth_error_In _ _ N2)) as (W2 & _ & Ty2 & _).
    pose proof (proj2 H0) as F0. rewrite Forall_forall in F0. pose proof (F0 _ (nth_error_In _ _ B1)) as (V1 & _). pose proof (F0 _ (nth_error_In _ _ B2)) as (V2 & _).
    eapply (handler_depth gf o (w_eps w2) clk bs0 i j a1 a2); eauto using still_tidy.
    + apply (still_tidy c1); auto.
    + apply (still_tidy c2); auto.
    + destruct (still_shape _ _ T1) as (_ & _ & Q1 & _). destruct (still_shape _ _ T2) as (_ & _ & Q2 & _).
      assert (P1 : is_circle (move d1 dt) = is_circle b1). { destruct (set_p_verts d1 (v3add (b_p d1) (v3scale dt (b_v d1))) V1) as (_ & _ & Cl). unfold same_class in Cl. unfold move, is_circle. change (b_kind b1) with (b_kind d1). destruct (b_kind d1), (b_kind (set_p d1 _)); tauto. }
      assert (P2 : is_circle (move d2 dt) = is_circle b2). { destruct (set_p_verts d2 (v3add (b_p d2) (v3scale dt (b_v d2))) V2) as (_ & _ & Cl). unfold same_class in Cl. unfold move, is_circle. change (b_kind b2) with (b_kind d2). destruct (b_kind d2), (b_kind (set_p d2 _)); tauto. }
      rewrite Q1, Q2, P1, P2. exact Hcirc.
    + apply (still_overlap _ a1 (move d1 dt) a2 (move d2 dt) T1 T2). apply overlap_moved; auto.
      * intros q Hq. exact (Hslow i b1 q B1 Hq).
      * intros q Hq. exact (Hslow j b2 q B2 Hq).
Qed.
Hypothesis Hgeom : Forall geom_ok (w_bodies w0).
Lemma halving m : forall w dt, ready w -> same_place (w_bodies w) B -> length sr = length (w_joints w) -> w_strict w = true -> 0 < dt -> t + 2 * s * (dt / 2 ^ m) <= w_tol w ->
  exists k w', (k <= m)%nat /\ tries o hd sp sr w dt k w' (dt / 2 ^ k) /\ ready w' /\ (k = 0%nat \/ w_tol w < t + 2 * s * (2 * (dt / 2 ^ k))).
Proof.
  induction m as [|m IH]; intros w dt Rw Hp Hsr Hs Hdt Hm;
    destruct (move_all_total w dt (ready_joints _ Rw)) as (w1 & E1 & J1 & L1 & K1); pose proof (ready_move _ _ _ Rw E1) as R1; destruct (ready_find _ R1) as (w2 & E2 & R2);
    destruct (no_penetration w2) eqn:En.
  1,3: exists 0%nat, w2; split; [lia|]; split; [replace (dt / 2 ^ 0) with dt by (cbn; field); eapply tries_accept; eauto|auto].
  - exfalso. cbn in Hm. replace (dt / 1) with dt in Hm by field. assert (A : no_penetration w2 = true) by (apply (accepted w dt w1 w2); auto; lra). congruence.
  - assert (Hbig : w_tol w < t + 2 * s * dt).
    { destruct (Rlt_dec (w_tol w) (t + 2 * s * dt)) as [|N]; [assumption|]. exfalso. assert (A : no_penetration w2 = true) by (apply (accepted w dt w1 w2); auto; lra). congruence. }
    pose proof (move_all_cfg _ _ _ E1) as C1. pose proof (find_contacts_cfg _ _ _ _ E2) as C2. assert (C : cfg w2 = cfg w) by congruence. cfg_fields C.
    assert (K2 : length (w_joints w2) = length (w_joints w)). { rewrite <- K1. apply find_contacts_inv in E2. destruct E2 as (?&?&?& ->). reflexivity. }
    destruct (rewind_total w2 sp sr (ready_joints _ R2)) as (w3 & E3 & J3 & L3 & K3); [congruence|]. pose proof (ready_rewind _ _ _ H0 R2 E3) as R3.
    pose proof (rewind_cfg _ _ _ _ E3) as C3. assert (C' : cfg w3 = cfg w) by congruence. cfg_fields C'.
    assert (OM : one_move dt B (w_bodies w2)).
    { pose proof E1 as E1'. apply move_all_inv in E1'. destruct E1' as [jx Ex]. pose proof E2 as E2''. apply find_contacts_frame in E2''; auto. subst w1. cbn in E2''. eapply same_place_move; eauto. }
    destruct (IH w3 (dt / 2)) as (k & w' & Hk & Ht & R' & Hlow); auto; try congruence; try lra.
    + pose proof E3 as E3'. apply rewind_inv in E3'. destruct E3' as [jx ->]. cbn. rewrite <- (with_vs_p (w_bodies w0) v). apply (one_move_back dt); [now apply with_vs_geom|exact OM].
    + cbn [pow] in Hm. rewrite Htol0. replace (dt / 2 / 2 ^ m) with (dt / (2 * 2 ^ m)); [exact Hm|]. pose proof (pow2_pos m). field. lra.
    + pose proof (pow2_pos k). assert (Ed : dt / 2 / 2 ^ k = dt / 2 ^ S k) by (cbn [pow]; field; lra). exists (S k), w'. split; [lia|]. split; [|split; [exact R'|right]].
      * rewrite <- Ed. eapply tries_reject; eauto; left; congruence.
      * destruct Hlow as [->|Hlow]; [cbn; replace (2 * (dt / (2 * 1))) with dt by field; exact Hbig|]. rewrite Htol0, Ed in Hlow. exact Hlow.
Qed.
End Loop.

(** *** steps *)
Section Step.
Variables (gf : nat) (o : oracle R) (bs : list (body R)) (js : list (joint R)) (J0 : list jent) (e : engine R).
Hypothesis Ho : broadphase_sane o.
Notation hd := (diff_handler gf o).
Notation ready := (ready gf bs js J0).
Definition quick (w : world R) (dt t s : R) (k : nat) : Prop := k = 0%nat \/ (w_tol w - t) / (4 * s) < dt / 2 ^ k.

Lemma strict_core w dt v c t s : ready w -> Forall geom_ok (w_bodies w) -> w_strict w = true -> 0 < dt -> e_solve e w dt = Ok (v, c) -> length v = (3 * length (w_bodies w))%nat ->
  roomy t w -> slower_than s w v -> 0 < s -> t < w_tol w ->
  exists w1 k w2, set_v (with_cache w c) v = Ok w1 /\
    tries o hd (cat3 (map b_p (w_bodies w))) (map (fun '(j, _, _) => (j_rot1 j, j_rot2 j)) (w_joints w)) w1 dt k w2 (dt / 2 ^ k) /\ ready w2 /\ quick w dt t s k.
Proof.
  intros Rw Hg Hs Hdt Ev Lv Hroom Hslow Ps Ht. destruct (set_v_total (with_cache w c) v Lv) as [w1 E1].
  assert (Rc : ready (with_cache w c)) by (destruct Rw as [S F]; split; [now apply sound_cache|exact F]). pose proof (ready_set_v gf bs js J0 _ _ _ Rc E1) as R1.
  pose proof (set_v_cfg _ _ _ E1) as C1. change (cfg (with_cache w c)) with (cfg w) in C1. cfg_fields C1.
  pose proof E1 as E1'. apply set_v_inv in E1'. destruct E1' as [_ E1'].
  assert (Eb : w_bodies w1 = with_vs (w_bodies w) v) by (subst w1; reflexivity). assert (Ej : w_joints w1 = w_joints w) by (subst w1; reflexivity).
  destruct (halve_below dt ((w_tol w - t) / (2 * s))) as [m Hm]. { apply Rdiv_lt_0_compat; lra. }
  destruct (halving gf o bs js J0 Ho w v t s Rw Hroom Hslow Hg m w1 dt) as (k & w2 & _ & Htr & R2 & Hlow); auto; try congruence.
  - rewrite Eb. clear. unfold same_place. induction (with_vs (w_bodies w) v); constructor; auto. apply sim_refl.
  - rewrite map_length. congruence.
  - rewrite Htol. assert (2 * s * (dt / 2 ^ m) <= 2 * s * ((w_tol w - t) / (2 * s))) by (apply Rmult_le_compat_l; lra).
    assert (E : 2 * s * ((w_tol w - t) / (2 * s)) = w_tol w - t) by (field; lra). lra.
  - exists w1, k, w2. split; [exact E1|]. split; [exact Htr|]. split; [exact R2|]. destruct Hlow as [->|Hlow]; [now left|right]. rewrite Htol in Hlow.
    apply Rmult_lt_reg_r with (4 * s); [lra|]. unfold Rdiv. rewrite (Rmult_assoc (w_tol w - t)), Rinv_l by lra. unfold Rdiv in Hlow. lra.
Qed.
Lemma strict_plain w dt v c t s : ready w -> Forall geom_ok (w_bodies w) -> w_strict w = true -> w_post_stab w = false -> 0 < dt -> e_solve e w dt = Ok (v, c) -> length v = (3 * length (w_bodies w))%nat ->
  roomy t w -> slower_than s w v -> 0 < s -> t < w_tol w ->
  exists k w', (forall fuel, (k < fuel)%nat -> step_dt fuel o hd e w dt = Ok w') /\ w_t w' = w_t w + dt / 2 ^ k /\ quick w dt t s k.
Proof.
  intros Rw Hg Hs Hps Hdt Ev Lv Hroom Hslow Ps Ht. destruct (strict_core w dt v c t s) as (w1 & k & w2 & E1 & Htr & R2 & Q); auto.
  pose proof (tries_cfg _ _ _ _ _ _ _ _ _ Htr) as [Hc Htm]. pose proof (set_v_cfg _ _ _ E1) as C1. change (cfg (with_cache w c)) with (cfg w) in C1. pose proof (set_v_t _ _ _ E1) as T1. change (w_t (with_cache w c)) with (w_t w) in T1.
  assert (C : cfg w2 = cfg w) by congruence. cfg_fields C.
  exists k, (with_t w2 (w_t w2 + dt / 2 ^ k)). split; [|split; [cbn; congruence|exact Q]]. intros fuel Hk. unfold step_dt. rewrite Ev. cbn [bind]. rewrite E1. cbn [bind].
  rewrite (tries_step_loop fuel _ _ _ _ _ _ _ _ _ Htr) by lia. cbn [bind]. replace (w_post_stab w2) with false by congruence. reflexivity.
Qed.
Lemma tries_on P w0 w dt k w' dt' : returns_on P o hd e -> P w0 -> P w ->
  tries o hd (cat3 (map b_p (w_bodies w0))) (map (fun '(j, _, _) => (j_rot1 j, j_rot2 j)) (w_joints w0)) w dt k w' dt' -> P w'.
Proof.
  intros Hr H0 Hw H. remember (cat3 (map b_p (w_bodies w0))) as sp. remember (map _ (w_joints w0)) as sr. induction H as [w dt w1 w2 E1 E2 _|w dt w1 w2 w3 k w' dt' E1 E2 _ _ E3 H IH].
  - pose proof (ro_move _ _ _ _ Hr _ _ _ Hw E1) as P1. destruct (ro_find _ _ _ _ Hr w1 P1) as (w2' & E2' & P2). congruence.
  - pose proof (ro_move _ _ _ _ Hr _ _ _ Hw E1) as P1. destruct (ro_find _ _ _ _ Hr w1 P1) as (w2' & E2' & P2). assert (w2' = w2) by congruence. subst w2'. apply IH. subst sp sr. exact (ro_rewind _ _ _ _ Hr _ _ _ H0 P2 E3).
Qed.
Lemma strict_total P w dt v c t s : returns_on P o hd e -> P w -> ready w -> Forall geom_ok (w_bodies w) -> w_strict w = true -> 0 < dt -> e_solve e w dt = Ok (v, c) -> length v = (3 * length (w_bodies w))%nat ->
  roomy t w -> slower_than s w v -> 0 < s -> t < w_tol w ->
  exists k w', (forall fuel, (k < fuel)%nat -> step_dt fuel o hd e w dt = Ok w') /\ w_t w' = w_t w + dt / 2 ^ k /\ quick w dt t s k.
Proof.
  intros Hr Pw Rw Hg Hs Hdt Ev Lv Hroom Hslow Ps Ht. destruct (strict_core w dt v c t s) as (w1 & k & w2 & E1 & Htr & R2 & Q); auto.
  pose proof (tries_cfg _ _ _ _ _ _ _ _ _ Htr) as [Hc Htm]. pose proof (set_v_cfg _ _ _ E1) as C1. change (cfg (with_cache w c)) with (cfg w) in C1. pose proof (set_v_t _ _ _ E1) as T1. change (w_t (with_cache w c)) with (w_t w) in T1.
  pose proof (ro_set_v _ _ _ _ Hr _ _ _ (ro_cache _ _ _ _ Hr _ _ _ _ Pw Ev) E1) as P1. pose proof (tries_on P _ _ _ _ _ _ Hr Pw P1 Htr) as P2. destruct (ro_joints _ _ _ _ Hr w2 P2) as [J2 V2].
  exists k. destruct (w_post_stab w2) eqn:Hp.
  - destruct (ro_post _ _ _ _ Hr w2 P2 Hp) as (dp & Ed & Ld).
    destruct (set_v_total w2 (map (fun a => ndiv a (nofZ 2)) dp)) as [wa Ea]; [now rewrite map_length|]. pose proof (ro_set_v _ _ _ _ Hr _ _ _ P2 Ea) as Pa.
    destruct (ro_joints _ _ _ _ Hr wa Pa) as [Ja _]. destruct (move_all_total wa (dt / 2 ^ k) Ja) as (wb & Eb & _ & Lb & _). pose proof (ro_move _ _ _ _ Hr _ _ _ Pa Eb) as Pb.
    destruct (set_v_total wb (w_v w2)) as [wc Ec]. { rewrite V2, Lb. destruct (set_v_shape _ _ _ Ea) as (-> & _). reflexivity. }
    pose proof (ro_set_v _ _ _ _ Hr _ _ _ Pb Ec) as Pc. destruct (ro_find _ _ _ _ Hr wc Pc) as (wd & Ed' & Pd).
    exists (with_t wd (w_t wd + dt / 2 ^ k)). split; [|split; [|exact Q]].
    + intros fuel Hk. unfold step_dt. rewrite Ev. cbn [bind]. rewrite E1. cbn [bind]. rewrite (tries_step_loop fuel _ _ _ _ _ _ _ _ _ Htr) by lia. cbn [bind]. rewrite Hp, Ed. cbn [bind]. rewrite Ea. cbn [bind]. rewrite Eb. cbn [bind]. rewrite Ec. cbn [bind]. rewrite Ed'. reflexivity.
    + cbn. rewrite (find_contacts_t _ _ _ _ Ed'), (set_v_t _ _ _ Ec), (move_all_t _ _ _ Eb), (set_v_t _ _ _ Ea), Htm, T1. reflexivity.
  - exists (with_t w2 (w_t w2 + dt / 2 ^ k)). split; [|split; [cbn; congruence|exact Q]]. intros fuel Hk. unfold step_dt. rewrite Ev. cbn [bind]. rewrite E1. cbn [bind].
    rewrite (tries_step_loop fuel _ _ _ _ _ _ _ _ _ Htr) by lia. cbn [bind]. rewrite Hp. reflexivity.
Qed.
End Step.

(** *** worlds from the constructor *)
Lemma session_ready la mi gf o bs js w : session la mi o (diff_handler gf o) bs js w -> Forall (fun b => tidy b /\ ContactSpec.in_range b /\ (gjk_rounds b <= gf)%nat) bs ->
  exists J0, ready gf bs js J0 w.
Proof.
  intros Hs Ht. destruct (session_facts _ _ _ _ _ _ _ Hs) as (_ & _ & _ & _ & J0 & S & _). exists J0. split; [exact S|].
  inversion Hs as [fuel gf' heap dt eps tol fd ps st w0 ops _ _ Hn Hb Ha Hi Hx]; subst.
  pose proof (world_steps _ (fit_steps gf) _ _ _ _ _ _ _ _ _ _ _ _ _ _ _ _ (diff_handler_frame gf o) Hi Hx) as F. refine (fit_all _ _ _ F _).
  rewrite Forall_forall in *. intros b Hb'. destruct (Ht b Hb') as (T1 & T2 & T3). apply available_fit; auto.
Qed.
Lemma session_progress la mi gf o bs js w dt v t s :
  lapack_ok la -> session la mi o (diff_handler gf o) bs js w -> Forall (fun b => tidy b /\ ContactSpec.in_range b /\ (gjk_rounds b <= gf)%nat) bs ->
  w_strict w = true -> w_post_stab w = false -> 0 < dt -> solved_velocity (pdipm_engine la mi) w dt v ->
  roomy t w -> slower_than s w v -> 0 < s -> t < w_tol w ->
  exists k w', (forall fuel, (k < fuel)%nat -> step_dt fuel o (diff_handler gf o) (pdipm_engine la mi) w dt = Ok w') /\
    w_t w' = w_t w + dt / 2 ^ k /\ (k = 0%nat \/ (w_tol w - t) / (4 * s) < dt / 2 ^ k).
Proof.
  intros HL Hs Hsh Hst Hps Hdt [c Ev] Hroom Hslow Ps Ht. destruct (session_ready _ _ _ _ _ _ _ Hs Hsh) as (J0 & Rw). destruct (session_facts _ _ _ _ _ _ _ Hs) as (_ & _ & Ho & Hg & J1 & S & V).
  destruct (solve_balance bs js J1 w la mi S HL V dt v c Ev) as (f' & imps & y & _ & Lv & _). exact (strict_plain gf o bs js J0 _ Ho w dt v c t s Rw Hg Hst Hps Hdt Ev Lv Hroom Hslow Ps Ht).
Qed.
Section Smooth.
Variables (la : lapack R) (mi gf : nat) (o : oracle R) (bs : list (body R)) (js : list (joint R)) (w0 : world R).
Hypothesis HL : lapack_ok la.
Hypothesis Hmi : (0 < mi)%nat.
Hypothesis Ho : broadphase_sane o.
Hypothesis HS : smooth_strict gf bs js w0.
Variables (heap : fheap R) (dt eps tol : R) (fd : nat) (ps : bool).
Notation hd := (diff_handler gf o).
Notation eng := (pdipm_engine la mi).
Hypothesis H0 : world_init o hd heap bs js dt eps tol fd ps true = Ok w0.
Lemma strict_calm : calm la gf bs js (w_joints w0) w0.
Proof.
  destruct HS as [A1 A2 A3 A4 A5 A6 A7 A8 A9].
  pose proof (sound_init o hd bs js heap dt eps tol fd ps true w0 (diff_handler_frame gf o) (diff_handler_respects gf o) Ho A1 A2 H0) as S.
  constructor; auto.
  - now destruct (init_valid la _ _ _ _ _ _ _ _ _ _ _ _ (diff_handler_frame gf o) H0) as [V _].
  - refine (fit_all _ _ _ (world_init_bodies _ (fit_steps gf) _ _ _ _ _ _ _ _ _ _ _ _ (diff_handler_frame gf o) H0) _).
    rewrite Forall_forall in *. intros b Hb. destruct (A4 b Hb) as (T1 & T2 & T3). apply available_fit; auto.
Qed.
Lemma smooth_progress fuel ops w d t : exec fuel o hd eng ops w0 = Ok w -> 0 < d -> roomy t w -> t < w_tol w0 ->
  exists v, solved_velocity eng w d v /\ forall s, slower_than s w v -> 0 < s ->
    exists k w', (forall fuel', (k < fuel')%nat -> step_dt fuel' o hd eng w d = Ok w') /\ w_t w' = w_t w + d / 2 ^ k /\ (k = 0%nat \/ (w_tol w0 - t) / (4 * s) < d / 2 ^ k).
Proof.
  intros Hx Hd Hroom Ht. destruct HS as [A1 A2 A3 A4 A5 A6 A7 A8 A9]. pose proof (exec_cfg _ _ _ _ _ _ _ Hx) as C. cfg_fields C.
  pose proof (calm_exec la mi gf o bs js (w_joints w0) Ho fuel ops w0 w strict_calm Hx) as Cw.
  pose proof (calm_returns la mi gf o bs js (w_joints w0) HL Hmi Ho A5 A6 A7) as Hr. destruct (ro_solve _ _ _ _ Hr w d Cw) as (v & c & Ev & Lv).
  exists v. split; [exists c; exact Ev|]. intros s Hslow Ps.
  assert (Hg : Forall geom_ok (w_bodies w)).
  { pose proof (world_steps _ geom_steps _ _ _ _ _ _ _ _ _ _ _ _ _ _ _ _ (diff_handler_frame gf o) H0 Hx) as F. rewrite Forall_forall in *. intros b Hin.
    destruct (Forall2_In_r _ _ _ _ F Hin) as (a & Hina & Hrel). apply Hrel, available_geom, A3, Hina. }
  assert (Est : w_strict w0 = true) by (apply world_init_inv in H0; tauto).
  destruct (strict_total gf o bs js (w_joints w0) eng Ho _ w d v c t s Hr Cw) as (k & w' & E & T & Q); auto; try congruence.
  - split; [exact (ca_sound _ _ _ _ _ _ Cw)|exact (ca_fit _ _ _ _ _ _ Cw)].
  - exists k, w'. unfold quick in Q. rewrite Htol in Q. auto.
Qed.
End Smooth.
