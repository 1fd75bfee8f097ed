(** Contact detection does not depend on the state the bodies carry along (last_sat_idx), without ties *)
From Coq Require Import List Arith ZArith Bool Reals Lra Lia Permutation.
From Verif Require Import Num Tensor Utils Bodies Forces Constraints Contacts World Spec ResFacts RBase GeoSpec BodySpec ContactSpec FreshSpec DetectSpec
     WorldFacts BodyFacts RigidFacts GeomFacts HandlerFacts FreshFacts BodyReach PlaneFacts SupportFacts SatFacts ClipFacts GjkFacts GjkLoop GjkTerm HellyFacts ContactFacts OverlapFacts CollideFacts.
Import ListNotations.
Open Scope R_scope.

(** the same in everything that detection may look at, besides last_sat_idx *)
Definition alike_body (b b' : body R) : Prop := b_pos b = b_pos b' /\ b_verts b = b_verts b' /\ b_rad b = b_rad b'.
Lemma still_alike (b b' : body R) : still b = still b' -> alike_body b b'.
Proof. intros H. destruct (still_shape _ _ H) as (_ & A & _ & B & C & _). unfold alike_body. auto. Qed.
Lemma alike_last b i : alike_body (set_last b i) b.
Proof. unfold alike_body, b_pos, b_verts, b_rad, set_last. destruct b as [? k]; destruct k; auto. Qed.
Lemma alike_trans a b c : alike_body a b -> alike_body b c -> alike_body a c.
Proof. unfold alike_body. intros (A & B & C) (A' & B' & C'). repeat split; congruence. Qed.
Lemma alike_sym a b : alike_body a b -> alike_body b a.
Proof. unfold alike_body. intros (A & B & C). auto. Qed.

Lemma edge_normal_at vs i j : edge_at vs i = edge_at vs j -> edge_normal vs i = edge_normal vs j /\ edge_vec vs i = edge_vec vs j /\ vert vs i = vert vs j.
Proof. unfold edge_at, edge_normal, edge_vec. intros H. inversion H as [[H1 H2]]. auto. Qed.
Lemma sat_same b1 b2 a1 a2 eps s s' : (0 < length (b_verts b1))%nat -> alike_body a1 b1 -> alike_body a2 b2 -> one_face b1 b2 ->
  test_separations b1 b2 eps = Ok s -> test_separations a1 a2 eps = Ok s' ->
  (eps < sep_dist s /\ eps < sep_dist s') \/
  (sep_dist s <= eps /\ sep_dist s' = sep_dist s /\ vert (b_verts b1) (sep_idx s') = vert (b_verts b1) (sep_idx s) /\
   exists p1 p2 p1' p2' nn vtx en, sep_info s = Some (p1, p2, nn, vtx, en) /\ sep_info s' = Some (p1', p2', nn, vtx, en)).
Proof.
  intros Hn (Ap & Av & _) (Bp & Bv & _) Hf H H'. assert (Hn' : (0 < length (b_verts a1))%nat) by (rewrite Av; exact Hn).
  assert (O : offset a1 a2 = offset b1 b2) by (unfold offset; now rewrite Ap, Bp).
  destruct (sat_value _ _ _ _ Hn H) as (S1 & I1 & D1). destruct (sat_value _ _ _ _ Hn' H') as (S2 & I2 & D2).
  destruct (test_separations_inv _ _ _ _ Hn H) as (_ & (sup & vtx & G & _ & G2) & _ & _). destruct (test_separations_inv _ _ _ _ Hn' H') as (_ & (sup' & vtx' & G' & _ & G2') & _ & _).
  pose proof (sat_info_le _ _ _ _ Hn H) as L1. pose proof (sat_info_le _ _ _ _ Hn' H') as L2. rewrite Av, Bv, O in *.
  pose proof (edge_at_In _ _ I1) as E1. pose proof (edge_at_In _ _ I2) as E2.
  destruct (Rlt_le_dec eps (sep_dist s)) as [L|L].
  - left. split; [exact L|]. destruct D2 as [D2|D2]; [exact D2|]. pose proof (D2 _ _ E1 S1). lra.
  - destruct D1 as [D1|D1]; [lra|]. right. split; [exact L|]. destruct D2 as [D2|D2]; [pose proof (D1 _ _ E2 S2); lra|].
    assert (D : sep_dist s' = sep_dist s) by (pose proof (D1 _ _ E2 S2); pose proof (D2 _ _ E1 S1); lra). rewrite D in *.
    pose proof (Hf _ _ _ E1 E2 S1 S2 D1) as EE. destruct (edge_normal_at _ _ _ EE) as (N1 & N2 & N3). split; [reflexivity|]. split; [now rewrite N3|].
    destruct (sep_info s) as [[[[[p1 p2] nn] v] en]|]; [|now destruct (proj1 L1 L)]. destruct (sep_info s') as [[[[[p1' p2'] nn'] v'] en']|]; [|now destruct (proj1 L2 L)].
    destruct G2 as (-> & -> & ->). destruct G2' as (-> & -> & ->). rewrite <- N1 in G'. rewrite G in G'. inversion G'; subst. rewrite <- N1, <- N2.
    do 7 eexists. split; reflexivity.
Qed.
Lemma clip_same ref inc ref' inc' n en i i' v eps : alike_body ref' ref -> alike_body inc' inc -> vert (b_verts ref) i' = vert (b_verts ref) i ->
  clip_face ref' inc' n en i' v eps = clip_face ref inc n en i v eps.
Proof. intros (Ap & Av & _) (Bp & Bv & _) E. unfold clip_face. now rewrite Ap, Av, Bp, Bv, E. Qed.
Lemma hull_same b1 b2 a1 a2 eps ps c1 c2 ps' c1' c2' : b_verts b1 <> [] -> b_verts b2 <> [] -> alike_body a1 b1 -> alike_body a2 b2 -> one_face b1 b2 -> one_face b2 b1 ->
  hull_hull b1 b2 eps = Ok (ps, c1, c2) -> hull_hull a1 a2 eps = Ok (ps', c1', c2') -> ps' = ps.
Proof.
  intros N1 N2 A1 A2 F1 F2 H H'. assert (L1 : (0 < length (b_verts b1))%nat) by (destruct (b_verts b1); [congruence|cbn; lia]). assert (L2 : (0 < length (b_verts b2))%nat) by (destruct (b_verts b2); [congruence|cbn; lia]).
  unfold hull_hull in H, H'. bind_inv H as s E. bind_inv H' as s' E'. rnum.
  destruct (sat_same _ _ _ _ _ _ _ L1 A1 A2 F1 E E') as [[G G']|(G & D & V & p1 & p2 & p1' & p2' & nn & vtx & en & I & I')].
  - rewrite (proj2 (Rltb_true _ _)) in H by exact G. rewrite (proj2 (Rltb_true _ _)) in H' by exact G'. congruence.
  - rewrite (proj2 (Rltb_false _ _)) in H by exact G. rewrite D in H'. rewrite (proj2 (Rltb_false _ _)) in H' by exact G.
    bind_inv H as t Et. bind_inv H' as t' Et'. set (x1 := set_last b1 (sep_idx s)) in *. set (x1' := set_last a1 (sep_idx s')) in *.
    assert (X1 : alike_body x1 b1) by apply alike_last. assert (X1' : alike_body x1' x1) by (apply (alike_trans _ a1); [apply alike_last|apply (alike_trans _ b1); [exact A1|apply alike_sym, alike_last]]).
    assert (F2' : one_face b2 x1) by (unfold one_face, offset; destruct X1 as (-> & -> & _); exact F2).
    destruct (sat_same _ _ _ _ _ _ _ L2 A2 X1' F2' Et Et') as [[K K']|(K & D2 & V2 & q1 & q2 & q1' & q2' & nn2 & vtx2 & en2 & J & J')].
    + rewrite (proj2 (Rltb_true _ _)) in H by exact K. rewrite (proj2 (Rltb_true _ _)) in H' by exact K'. congruence.
    + rewrite (proj2 (Rltb_false _ _)) in H by exact K. rewrite D2 in H'. rewrite (proj2 (Rltb_false _ _)) in H' by exact K. rewrite I, J in H. rewrite I', J' in H'.
      set (x2 := set_last b2 (sep_idx t)) in *. set (x2' := set_last a2 (sep_idx t')) in *.
      assert (X2 : alike_body x2 b2) by apply alike_last.
      assert (X2' : alike_body x2' x2) by (apply (alike_trans _ a2); [apply alike_last|apply (alike_trans _ b2); [exact A2|apply alike_sym, alike_last]]).
      destruct (Rltb _ _).
      * rewrite (clip_same x2 x1 x2' x1' _ _ (sep_idx t) (sep_idx t') _ eps X2' X1') in H' by (destruct X2 as (_ & -> & _); exact V2). congruence.
      * rewrite (clip_same x1 x2 x1' x2' _ _ (sep_idx s) (sep_idx s') _ eps X1' X2') in H' by (destruct X1 as (_ & -> & _); exact V). congruence.
Qed.
Lemma sat_contact_same c h c' h' eps r r' : b_verts h <> [] -> alike_body c' c -> alike_body h' h ->
  (forall e e', In e (edges (b_verts h)) -> In e' (edges (b_verts h)) -> edge_dist e (rel c h) = edge_dist e' (rel c h) ->
     (forall e2, In e2 (edges (b_verts h)) -> edge_dist e2 (rel c h) <= edge_dist e (rel c h)) -> e = e') ->
  sat_contact c h eps = Ok r -> sat_contact c' h' eps = Ok r' -> fst r' = fst r.
Proof.
  intros Nv (Ap & _ & Ar) (Bp & Bv & _) U H H'. assert (Hn : (0 < length (b_verts h))%nat) by (destruct (b_verts h); [congruence|cbn; lia]).
  unfold sat_contact in H, H'. assert (R : rel c' h' = rel c h) by (unfold rel; now rewrite Ap, Bp). rewrite R, Bv, Bp, Ar, Ap in H'.
  pose proof (csat_spec (b_verts h) (rel c h) (b_rad c) eps (b_last h) Hn) as J. pose proof (csat_spec (b_verts h) (rel c h) (b_rad c) eps (b_last h') Hn) as J'.
  set (st := circle_sat _ _ _ _ (b_last h)) in *. set (st' := circle_sat _ _ _ _ (b_last h')) in *. unfold csat_inv in J, J'.
  destruct (ss_exit st), (ss_exit st').
  - inversion H. inversion H'. reflexivity.
  - exfalso. destruct J as [J1 J2]. destruct J' as [J1' J2']. destruct (ss_best st') as [[n p]|]; [|discriminate]. destruct J2' as (_ & _ & L & _). pose proof (J1' _ (window_mod _ (b_last h') _ J1)). lra.
  - exfalso. destruct J as [J1 J2]. destruct J' as [J1' J2']. destruct (ss_best st) as [[n p]|]; [|discriminate]. destruct J2 as (_ & _ & L & _). pose proof (J1 _ (window_mod _ (b_last h) _ J1')). lra.
  - destruct J as [J1 J2]. destruct J' as [J1' J2']. destruct (ss_best st) as [[n p]|]; [|discriminate]. destruct (ss_best st') as [[n' p']|]; [|discriminate].
    destruct J2 as (K1 & K2 & K3 & K4 & K5). destruct J2' as (K1' & K2' & K3' & K4' & K5').
    assert (D : ss_dist st' = ss_dist st) by (pose proof (J1 _ (window_mod _ (b_last h) _ K1')); pose proof (J1' _ (window_mod _ (b_last h') _ K1)); lra).
    assert (E : edge_at (b_verts h) (ss_last st) = edge_at (b_verts h) (ss_last st')).
    { apply U; [now apply edge_at_In|now apply edge_at_In|rewrite !cdist_edge in *; lra|]. intros [a b] Hin. apply edges_In in Hin. destruct Hin as (i & Hi & -> & ->).
      pose proof (J1 _ (window_mod _ (b_last h) _ Hi)) as Q. rewrite cdist_edge in Q, K2. change (edge_dist (edge_at (b_verts h) i) (rel c h) <= edge_dist (edge_at (b_verts h) (ss_last st)) (rel c h)). lra. }
    destruct (edge_normal_at _ _ _ E) as (N & _ & _). assert (n' = n) by congruence. subst n'. assert (p' = p) by congruence. subst p'. injection H as <-. injection H' as <-. cbn [fst]. rewrite D, H0 in *. rewrite H1. reflexivity.
Qed.
Lemma circle_hull_any fuel fuel' c h c' h' eps start start' r r' : (start < length (b_verts h))%nat -> (start' < length (b_verts h))%nat ->
  alike_body c' c -> alike_body h' h -> one_way_out c h ->
  circle_hull fuel c h eps start = Ok r -> circle_hull fuel' c' h' eps start' = Ok r' -> fst r' = fst r.
Proof.
  intros Hs Hs' A B (Hn & Hreg) H H'. pose proof A as (Ap & Av & Ar). pose proof B as (Bp & Bv & Br). assert (R : rel c' h' = rel c h) by (unfold rel; now rewrite Ap, Bp).
  assert (Nv : b_verts h <> []) by (destruct (b_verts h); [cbn in Hs; lia|discriminate]).
  assert (G : forall q, nearest (b_verts h) (rel c h) q -> (exists u v, In u (b_verts h) /\ In v (b_verts h) /\ on_segment u v q) -> in_hull (b_verts h) (rel c h) -> False).
  { intros q Hq (u & v & Hu & Hv & Hq2) Hin. destruct Hreg as [C|[C _]]; [contradiction|].
    assert (q = rel c h). { apply (nearest_unique (b_verts h) (rel c h)); [exact Hq|]. apply nearest_cond; [exact Hin|intros; lra]. }
    subst q. exact (C u v Hu Hv Hq2). }
  rewrite <- Bv in Hs'. assert (Hn' : NoDup (b_verts h')) by (rewrite Bv; exact Hn).
  destruct (circle_hull_cases _ _ _ _ _ _ Hn Hs H) as [(q & N & S & E)|(I & E)]; destruct (circle_hull_cases _ _ _ _ _ _ Hn' Hs' H') as [(q' & N' & S' & E')|(I' & E')]; rewrite Bv, R in *.
  - subst. cbn [fst]. rewrite (nearest_unique _ _ _ _ N' N). unfold near_contact. now rewrite Ap, Bp, Ar.
  - exfalso. eauto.
  - exfalso. eauto.
  - destruct Hreg as [C|[_ U]]; [contradiction|]. exact (sat_contact_same c h c' h' eps r r' Nv A B U E E').
Qed.
Lemma handler_same gf gf' o o' eps clk clk' bs bs' i1 i2 b1 b2 cs x k cs' x' k' : map still bs' = map still bs ->
  nth_error bs i1 = Some b1 -> nth_error bs i2 = Some b2 -> clear_cut b1 b2 ->
  diff_handler gf o eps clk bs i1 i2 = Ok (cs, x, k) -> diff_handler gf' o' eps clk' bs' i1 i2 = Ok (cs', x', k') -> cs' = cs.
Proof.
  intros HS H1 H2 C H H'. destruct (still_nth _ _ _ _ HS H1) as (a1 & G1 & S1). destruct (still_nth _ _ _ _ HS H2) as (a2 & G2 & S2).
  pose proof (still_alike _ _ S1) as A1. pose proof (still_alike _ _ S2) as A2.
  destruct (still_shape _ _ S1) as (Id & _ & K1 & _ & V1 & Gm1). destruct (still_shape _ _ S2) as (_ & _ & K2 & _ & V2 & Gm2).
  apply get_body_Ok in H1, H2, G1, G2. unfold diff_handler in H, H'. rewrite H1, H2 in H. rewrite G1, G2 in H'. cbn [bind] in H, H'. rewrite Id, Gm2, K1, K2 in H'.
  destruct (existsb _ _); [congruence|]. unfold clear_cut in C. destruct (is_circle b1) eqn:C1; destruct (is_circle b2) eqn:C2; cbn [andb orb] in H, H'.
  - assert (E : circle_circle a1 a2 eps = circle_circle b1 b2 eps). { unfold circle_circle. destruct A1 as (-> & _ & ->), A2 as (-> & _ & ->). reflexivity. } rewrite E in H'. congruence.
  - rewrite V2 in H'. destruct (Nat.eqb_spec (length (b_verts b2)) 0) as [Z|Z]; [discriminate|]. bind_inv H as s E. bind_inv H' as s' E'.
    pose proof (circle_hull_any _ _ b1 b2 a1 a2 _ _ _ _ _ ltac:(apply Nat.mod_upper_bound; lia) ltac:(apply Nat.mod_upper_bound; lia) A1 A2 C E E') as X.
    destruct s as [op hu], s' as [op' hu']. cbn [fst] in X. subst op'. congruence.
  - rewrite V1 in H'. destruct (Nat.eqb_spec (length (b_verts b1)) 0) as [Z|Z]; [discriminate|]. bind_inv H as s E. bind_inv H' as s' E'.
    pose proof (circle_hull_any _ _ b2 b1 a2 a1 _ _ _ _ _ ltac:(apply Nat.mod_upper_bound; lia) ltac:(apply Nat.mod_upper_bound; lia) A2 A1 C E E') as X.
    destruct s as [op hu], s' as [op' hu']. cbn [fst] in X. subst op'. congruence.
  - destruct C as (N1 & N2 & F1 & F2). bind_inv H as s E. bind_inv H' as s' E'. destruct s as [[ps c1] c2], s' as [[ps' c1'] c2'].
    rewrite (hull_same _ _ _ _ _ _ _ _ _ _ _ N1 N2 A1 A2 F1 F2 E E') in H'. congruence.
Qed.
(** any two worlds in the same poses *)
Lemma perm_calls (calls : list (nat * nat * list (contact R))) : forall calls' : list (nat * nat * list (contact R)),
  (forall p c c', In (p, c) calls -> In (p, c') calls' -> c' = c) -> Permutation (map fst calls) (map fst calls') -> Permutation (flat_map snd calls) (flat_map snd calls').
Proof.
  induction calls as [|[p c] calls IH]; intros calls' Heq HP.
  - apply Permutation_nil in HP. destruct calls'; [constructor|discriminate].
  - cbn [map fst] in HP. assert (Hin : In p (map fst calls')) by (apply (Permutation_in _ HP); now left). apply in_map_iff in Hin. destruct Hin as ([p' c'] & Ep & Hin). cbn in Ep. subst p'.
    apply in_split in Hin. destruct Hin as (l1 & l2 & ->). rewrite map_app in HP. cbn [map fst] in HP. apply Permutation_cons_app_inv in HP. rewrite <- map_app in HP.
    assert (c' = c) by (apply (Heq p); [now left|apply in_or_app; right; now left]). subst c'.
    rewrite flat_map_app. cbn [flat_map snd]. rewrite (Permutation_app_swap_app (flat_map snd l1) c (flat_map snd l2)). apply Permutation_app_head. rewrite <- flat_map_app. apply IH; [|exact HP].
    intros p0 d d' Hd Hd'. apply (Heq p0); [now right|]. apply in_app_or in Hd'. apply in_or_app. destruct Hd'; [now left|right; now right].
Qed.
Lemma handler_index gf (o : oracle R) eps clk bs i j r : diff_handler gf o eps clk bs i j = Ok r -> exists b1 b2, nth_error bs i = Some b1 /\ nth_error bs j = Some b2.
Proof. intros H. unfold diff_handler in H. bind_inv H as b1 E1. bind_inv H as b2 E2. unfold get_body in *. destruct (nth_error bs i); [|discriminate]. destruct (nth_error bs j); [|discriminate]. eauto. Qed.
Theorem current_same gf gf' o o' w w' : contacts_current o (diff_handler gf o) w -> contacts_current o' (diff_handler gf' o') w' -> same_pairs o o' ->
  map still (w_bodies w') = map still (w_bodies w) -> w_eps w' = w_eps w ->
  (forall i j b1 b2, i <> j -> nth_error (w_bodies w) i = Some b1 -> nth_error (w_bodies w) j = Some b2 -> clear_cut b1 b2) ->
  broadphase_sane o -> Permutation (w_contacts w) (w_contacts w').
Proof.
  intros (k & calls & P1 & P2 & P3) (k' & calls' & P1' & P2' & P3') Ho HS He HC Hs. rewrite P2, P2'. apply perm_calls.
  - intros [i j] c c' Hi Hi'. destruct (P3 _ _ _ Hi) as (clk & bs0 & bs1 & clk1 & S0 & E0). destruct (P3' _ _ _ Hi') as (clk' & bs0' & bs1' & clk1' & S0' & E0').
    destruct (handler_index _ _ _ _ _ _ _ _ E0) as (b1 & b2 & B1 & B2). rewrite He in E0'.
    assert (NE : i <> j). { assert (Hp : In (i, j) (o_collide o k (map b_geom (w_bodies w)))) by (rewrite <- P1; apply (in_map fst _ _ Hi)). exact (proj1 (Hs _ _ _ _ Hp)). }
    refine (handler_same gf gf' o o' (w_eps w) clk clk' bs0 bs0' i j b1 b2 _ _ _ _ _ _ _ B1 B2 _ E0 E0'); [congruence|].
    destruct (still_nth _ _ _ _ (eq_sym S0) B1) as (d1 & D1 & T1). destruct (still_nth _ _ _ _ (eq_sym S0) B2) as (d2 & D2 & T2). pose proof (HC _ _ _ _ NE D1 D2) as CC.
    destruct (still_shape _ _ T1) as (_ & X1 & X2 & _ & X3 & _). destruct (still_shape _ _ T2) as (_ & Y1 & Y2 & _ & Y3 & _).
    unfold clear_cut, one_way_out, one_face, offset, rel in *. rewrite X1, X2, X3, Y1, Y2, Y3 in CC. exact CC.
  - rewrite P1, P1', (map_geom_still _ _ HS). apply Ho.
Qed.
