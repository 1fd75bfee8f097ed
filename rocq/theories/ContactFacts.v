(** Contacts reported by the default callback *)
From Coq Require Import List Arith ZArith Bool Reals Lra Lia Psatz.
From Verif Require Import Num Tensor Utils Bodies Forces Constraints Contacts World Spec ResFacts RBase GeoSpec BodySpec ContactSpec
     BodyFacts RigidFacts GeomFacts HandlerFacts BodyReach PlaneFacts SupportFacts SatFacts ClipFacts GjkFacts GjkLoop GjkTerm.
Import ListNotations.
Open Scope R_scope.

(** *** circle-circle *)
Lemma circle_circle_eq b1 b2 eps : circle_circle b1 b2 eps =
  let D := dist (b_pos b1) (b_pos b2) in
  let n := v2div (v2sub (b_pos b1) (b_pos b2)) D in
  let pen := b_rad b1 + b_rad b2 - D in
  if Rltb pen (- eps) then []
  else [(n, v2scale (b_rad b1 - pen / 2) (v2opp n), v2scale (b_rad b2 - pen / 2) n, pen)].
Proof. unfold circle_circle. cbv zeta. rewrite v2norm_sub. reflexivity. Qed.
Lemma circle_normal (b1 b2 : body R) : b_pos b1 <> b_pos b2 ->
  let n := v2div (v2sub (b_pos b1) (b_pos b2)) (dist (b_pos b1) (b_pos b2)) in
  unit_vec n /\ b_pos b1 = v2add (b_pos b2) (v2scale (dist (b_pos b1) (b_pos b2)) n).
Proof.
  intros H. apply dist_pos in H as HD. cbv zeta. split.
  - rewrite <- v2norm_sub. apply unit_div. intros C. apply H. now apply v2sub_zero.
  - set (D := dist _ _) in *. destruct (b_pos b1), (b_pos b2). unfold v2add, v2scale, v2div, v2sub. rnum. cbn [fst snd]. apply f_equal2; field; lra.
Qed.
Lemma circle_handler fuel o eps clk bs i1 i2 b1 b2 : get_body bs i1 = Ok b1 -> get_body bs i2 = Ok b2 ->
  is_circle b1 = true -> is_circle b2 = true -> ~ excluded b1 b2 ->
  diff_handler fuel o eps clk bs i1 i2 = Ok (mk_contacts i1 i2 (circle_circle b1 b2 eps), bs, clk).
Proof.
  intros H1 H2 C1 C2 Hx. unfold diff_handler. rewrite H1, H2. cbn [bind].
  destruct (existsb _ _) eqn:Ex; [apply existsb_In in Ex; contradiction|]. rewrite C1, C2. reflexivity.
Qed.
Lemma circle_contact_spec fuel o eps clk bs i1 i2 b1 b2 :
  nth_error bs i1 = Some b1 -> nth_error bs i2 = Some b2 -> is_circle b1 = true -> is_circle b2 = true -> ~ excluded b1 b2 -> b_pos b1 <> b_pos b2 ->
  (eps < gap b1 b2 -> diff_handler fuel o eps clk bs i1 i2 = Ok ([], bs, clk)) /\
  (gap b1 b2 <= eps -> exists c, diff_handler fuel o eps clk bs i1 i2 = Ok ([c], bs, clk) /\
     c_i1 c = i1 /\ c_i2 c = i2 /\ unit_vec (c_normal c) /\
     b_pos b1 = v2add (b_pos b2) (v2scale (dist (b_pos b1) (b_pos b2)) (c_normal c)) /\
     c_pen c = - gap b1 b2 /\
     at_body b1 (c_p1 c) = at_body b2 (c_p2 c) /\
     at_body b1 (c_p1 c) = midpoint (v2sub (b_pos b1) (v2scale (b_rad b1) (c_normal c))) (v2add (b_pos b2) (v2scale (b_rad b2) (c_normal c)))).
Proof.
  intros H1 H2 C1 C2 Hx Hne. apply get_body_Ok in H1, H2. rewrite (circle_handler fuel o eps clk bs i1 i2 b1 b2) by auto. rewrite circle_circle_eq. cbv zeta.
  destruct (circle_normal b1 b2 Hne) as [Hu Hd]. set (D := dist (b_pos b1) (b_pos b2)) in *. set (n := v2div (v2sub (b_pos b1) (b_pos b2)) D) in *.
  unfold gap. fold D. split; intros G.
  - rewrite (proj2 (Rltb_true _ _)) by lra. reflexivity.
  - rewrite (proj2 (Rltb_false _ _)) by lra. eexists. split; [reflexivity|]. cbn [c_i1 c_i2 c_normal c_pen c_p1 c_p2].
    split; [reflexivity|]. split; [reflexivity|]. split; [exact Hu|]. split; [exact Hd|]. split; [ring|].
    assert (X : fst (b_pos b1) = fst (b_pos b2) + D * fst n) by (rewrite Hd; reflexivity). assert (Y : snd (b_pos b1) = snd (b_pos b2) + D * snd n) by (rewrite Hd; reflexivity).
    unfold at_body, midpoint, v2sub, v2add, v2scale, v2opp. rnum. cbn [fst snd]. rewrite X, Y. split; apply f_equal2; field.
Qed.
Lemma circle_swap fuel fuel' o o' eps clk clk' bs bs' i1 i2 b1 b2 cs r clk1 cs' r' clk1' :
  nth_error bs i1 = Some b1 -> nth_error bs i2 = Some b2 -> nth_error bs' i1 = Some b1 -> nth_error bs' i2 = Some b2 ->
  is_circle b1 = true -> is_circle b2 = true -> ~ excluded b1 b2 -> ~ excluded b2 b1 ->
  diff_handler fuel o eps clk bs i1 i2 = Ok (cs, r, clk1) -> diff_handler fuel' o' eps clk' bs' i2 i1 = Ok (cs', r', clk1') ->
  cs' = map mirror cs.
Proof.
  intros H1 H2 H3 H4 C1 C2 X1 X2. apply get_body_Ok in H1, H2, H3, H4.
  rewrite (circle_handler fuel o eps clk bs i1 i2 b1 b2) by auto. rewrite (circle_handler fuel' o' eps clk' bs' i2 i1 b2 b1) by auto.
  intros E E'. inversion E; inversion E'; subst. rewrite !circle_circle_eq. cbv zeta. rewrite (dist_sym (b_pos b2)). set (D := dist _ _).
  replace (b_rad b2 + b_rad b1) with (b_rad b1 + b_rad b2) by ring. destruct (Rltb _ _); [reflexivity|]. cbn [mk_contacts map].
  apply f_equal2; [|reflexivity]. unfold mirror. cbn [c_normal c_p1 c_p2 c_pen c_i1 c_i2].
  assert (N : v2div (v2sub (b_pos b2) (b_pos b1)) D = v2opp (v2div (v2sub (b_pos b1) (b_pos b2)) D)).
  { unfold v2opp, v2div, v2sub. rnum. cbn [fst snd]. unfold Rdiv. apply f_equal2; ring. }
  rewrite N. f_equal. unfold v2opp, v2scale. rnum. cbn [fst snd]. apply f_equal2; ring.
Qed.

(** *** circle against a hull: the separating-axis loop *)
Definition cdist (vs : list pt) (center : pt) (rad : R) (i : nat) : R := v2dot (edge_normal vs i) (v2sub center (vert vs i)) - rad.
Definition csat_inv (vs : list pt) (center : pt) (rad eps : R) (l : list nat) (st : sat_state R) : Prop :=
  if ss_exit st then (ss_last st < length vs)%nat /\ eps < cdist vs center rad (ss_last st)
  else (forall i, In i (map (fun i => (i mod length vs)%nat) l) -> cdist vs center rad i <= ss_dist st) /\
    match ss_best st with
    | None => ss_dist st = - 10 ^ 10
    | Some (n, pt2) => (ss_last st < length vs)%nat /\ ss_dist st = cdist vs center rad (ss_last st) /\ ss_dist st <= eps /\ n = edge_normal vs (ss_last st) /\
                       pt2 = v2add center (v2scale (- (ss_dist st + rad)) n)
    end.
Lemma csat_step vs center rad eps l st i : (0 < length vs)%nat -> csat_inv vs center rad eps l st -> csat_inv vs center rad eps (l ++ [i]) (circle_sat_step vs center rad eps st i).
Proof.
  intros Hn H. unfold circle_sat_step. destruct (ss_exit st) eqn:Ee; [unfold csat_inv in *; rewrite Ee in *; exact H|].
  unfold csat_inv in H. rewrite Ee in H. destruct H as [H1 H2]. cbv zeta.
  set (idx := (i mod length vs)%nat). assert (Hi : (idx < length vs)%nat) by (apply Nat.mod_upper_bound; lia).
  change (v2dot (edge_normal vs idx) (v2sub center (vert vs idx)) - rad)%num with (cdist vs center rad idx). rnum.
  assert (In_snoc : forall x, In x (map (fun i => (i mod length vs)%nat) (l ++ [i])) -> In x (map (fun i => (i mod length vs)%nat) l) \/ x = idx).
  { intros x Hx. rewrite map_app in Hx. apply in_app_or in Hx. destruct Hx as [Hx|[Hx|[]]]; auto. }
  destruct (Rltb_spec (ss_dist st) (cdist vs center rad idx)) as [L|L]; [destruct (Rltb_spec eps (cdist vs center rad idx)) as [L2|L2]|]; unfold csat_inv; cbn [ss_exit ss_dist ss_best ss_last].
  - split; auto.
  - split; [|auto]. intros x Hx. apply In_snoc in Hx. destruct Hx as [Hx|Hx]; [pose proof (H1 x Hx); lra|subst x; lra].
  - rewrite Ee. split; [|exact H2]. intros x Hx. apply In_snoc in Hx. destruct Hx as [Hx|Hx]; [auto|subst x; exact L].
Qed.
Lemma csat_fold vs center rad eps l : (0 < length vs)%nat -> forall done st, csat_inv vs center rad eps done st ->
  csat_inv vs center rad eps (done ++ l) (fold_left (circle_sat_step vs center rad eps) l st).
Proof.
  intros Hn. induction l as [|i l IH]; intros done st H; cbn [fold_left]; [now rewrite app_nil_r|].
  replace (done ++ i :: l) with ((done ++ [i]) ++ l) by (rewrite <- app_assoc; reflexivity). apply IH. now apply csat_step.
Qed.
Lemma csat_spec vs center rad eps start : (0 < length vs)%nat -> csat_inv vs center rad eps (seq start (length vs)) (circle_sat vs center rad eps start).
Proof.
  intros Hn. unfold circle_sat. apply (csat_fold vs center rad eps (seq start (length vs)) Hn []). unfold csat_inv. cbn. split; [intros i []|reflexivity].
Qed.
Lemma cdist_edge vs center rad i : cdist vs center rad i = edge_dist (edge_at vs i) center - rad.
Proof. unfold cdist. now rewrite edge_normal_dist. Qed.

(** *** circle against a hull *)
Lemma start_ok vs start : (start < length vs)%nat -> simplex_ok vs [start].
Proof. intros H. split; [repeat constructor; intros []|]. split; [cbn; lia|repeat constructor; exact H]. Qed.
(** what the nearest-point branch reports *)
Definition near_contact (c hu : body R) (eps : R) (q : pt) : option (pt * pt * pt * R) :=
  let pt1 := v2sub (v2add q (b_pos hu)) (b_pos c) in
  let d := v2norm pt1 - b_rad c in
  if Rltb eps d then None else Some (v2div (v2opp pt1) (v2norm pt1), pt1, q, - d).
Definition sat_contact (c hu : body R) (eps : R) : res (option (pt * pt * pt * R) * body R) :=
  let st := circle_sat (b_verts hu) (rel c hu) (b_rad c) eps (b_last hu) in
  let hu' := set_last hu (ss_last st) in
  if ss_exit st then Ok (None, hu')
  else match ss_best st with
       | Some (normal, pt2) => Ok (Some (normal, v2sub (v2add pt2 (b_pos hu)) (b_pos c), pt2, - ss_dist st), hu')
       | None => Err EUnbound
       end.
Lemma circle_hull_cases fuel c hu eps start r : NoDup (b_verts hu) -> (start < length (b_verts hu))%nat -> circle_hull fuel c hu eps start = Ok r ->
  (exists q, nearest (b_verts hu) (rel c hu) q /\ (exists u v, In u (b_verts hu) /\ In v (b_verts hu) /\ on_segment u v q) /\ r = (near_contact c hu eps q, hu)) \/
  (in_hull (b_verts hu) (rel c hu) /\ sat_contact c hu eps = Ok r).
Proof.
  intros Hn Hs H. unfold circle_hull in H. fold (rel c hu) in H. bind_inv H as g E. destruct g as [q ids].
  destruct (gjk_ok _ _ _ _ _ _ Hn (start_ok _ _ Hs) E) as (N & S & T). destruct (Nat.ltb_spec (length ids) 3) as [L|L].
  - left. exists q. split; [exact N|]. split; [auto|]. unfold near_contact. rnum. destruct (Rltb _ _); inversion H; reflexivity.
  - right. destruct (T L) as (-> & _). split; [apply N|]. exact H.
Qed.
Lemma circle_hull_same fuel fuel' c hu eps start start' r r' : NoDup (b_verts hu) -> (start < length (b_verts hu))%nat -> (start' < length (b_verts hu))%nat ->
  (~ in_hull (b_verts hu) (rel c hu) \/ off_chords (b_verts hu) (rel c hu)) ->
  circle_hull fuel c hu eps start = Ok r -> circle_hull fuel' c hu eps start' = Ok r' -> r = r'.
Proof.
  intros Hn Hs Hs' Hreg H H'.
  assert (G : forall q, nearest (b_verts hu) (rel c hu) q -> (exists u v, In u (b_verts hu) /\ In v (b_verts hu) /\ on_segment u v q) -> in_hull (b_verts hu) (rel c hu) -> False).
  { intros q Hq (u & v & Hu & Hv & Hq2) Hin. destruct Hreg as [C|C]; [contradiction|].
    assert (q = rel c hu). { apply (nearest_unique (b_verts hu) (rel c hu)); [exact Hq|]. apply nearest_cond; [exact Hin|intros; lra]. }
    subst q. exact (C u v Hu Hv Hq2). }
  destruct (circle_hull_cases _ _ _ _ _ _ Hn Hs H) as [(q & N & S & E)|(I & E)]; destruct (circle_hull_cases _ _ _ _ _ _ Hn Hs' H') as [(q' & N' & S' & E')|(I' & E')].
  - subst. now rewrite (nearest_unique _ _ _ _ N N').
  - exfalso. eauto.
  - exfalso. eauto.
  - congruence.
Qed.
Lemma near_consistent c hu eps q n p1 p2 pen : near_contact c hu eps q = Some (n, p1, p2, pen) ->
  at_body c p1 = at_body hu p2 /\ - eps <= pen /\ p2 = q /\ pen = b_rad c - dist (rel c hu) q /\
  (q <> rel c hu -> unit_vec n /\ rel c hu = v2add q (v2scale (dist (rel c hu) q) n)).
Proof.
  unfold near_contact. intros H. set (pt1 := v2sub (v2add q (b_pos hu)) (b_pos c)) in *.
  assert (Dq : v2norm pt1 = dist (rel c hu) q).
  { unfold pt1, rel, v2norm, dist, v2dot, v2sub, v2add. rnum. cbn [fst snd]. f_equal. ring. }
  destruct (Rltb_spec eps (v2norm pt1 - b_rad c)) as [L|L]; [discriminate|]. assert (E1 : n = v2div (v2opp pt1) (v2norm pt1)) by congruence. assert (E2 : p1 = pt1) by congruence. assert (E3 : p2 = q) by congruence. assert (E4 : pen = - (v2norm pt1 - b_rad c)) by congruence. clear H. subst n p1 p2 pen.
  split; [unfold at_body, pt1, v2sub, v2add; rnum; cbn [fst snd]; apply f_equal2; ring|]. split; [apply Ropp_le_contravar; exact L|]. split; [reflexivity|]. split; [rewrite Dq; ring|].
  intros Hne. assert (Hz : v2opp pt1 <> (0, 0)).
  { intros C. apply Hne. destruct q as [qx qy]. unfold pt1, rel, v2opp, v2sub, v2add in *. rnum. cbn [fst snd] in *. inversion C. apply f_equal2; lra. }
  assert (En : v2norm (v2opp pt1) = v2norm pt1) by (unfold v2norm, v2dot, v2opp; rnum; cbn [fst snd]; f_equal; ring).
  split; [rewrite <- En; now apply unit_div|]. rewrite <- Dq. apply v2norm_pos in Hz. rewrite En in Hz. set (L0 := v2norm pt1) in *.
  unfold rel, pt1, v2opp, v2div, v2scale, v2sub, v2add. rnum. cbn [fst snd]. apply f_equal2; field; lra.
Qed.
Lemma sat_consistent c hu eps n p1 p2 pen hu' : (0 < length (b_verts hu))%nat -> sat_contact c hu eps = Ok (Some (n, p1, p2, pen), hu') ->
  at_body c p1 = at_body hu p2 /\ - eps <= pen /\ (proper_edges (b_verts hu) -> unit_vec n) /\
  exists e, In e (edges (b_verts hu)) /\ (proper_edges (b_verts hu) -> n = outward (fst e) (snd e)) /\ pen = b_rad c - edge_dist e (rel c hu) /\
    p2 = v2sub (rel c hu) (v2scale (edge_dist e (rel c hu)) n) /\
    forall e', In e' (edges (b_verts hu)) -> edge_dist e' (rel c hu) <= edge_dist e (rel c hu).
Proof.
  intros Hn. unfold sat_contact. set (st := circle_sat _ _ _ _ _). pose proof (csat_spec (b_verts hu) (rel c hu) (b_rad c) eps (b_last hu) Hn) as I. fold st in I.
  unfold csat_inv in I. destruct (ss_exit st); [discriminate|]. destruct (ss_best st) as [[nn pp]|]; [|discriminate]. intros H. inversion H; subst; clear H.
  destruct I as (I1 & I2 & I3 & I4 & I5 & I6). rewrite cdist_edge in I3.
  split; [unfold at_body, v2sub, v2add; rnum; cbn [fst snd]; apply f_equal2; ring|]. split; [lra|].
  split; [intros Hp; rewrite I5; now apply edge_normal_unit|]. exists (edge_at (b_verts hu) (ss_last st)). split; [now apply edge_at_In|].
  split; [intros Hp; rewrite I5; now apply face_normal|]. split; [lra|]. split.
  - rewrite I6, I3. unfold v2sub, v2add, v2scale. rnum. cbn [fst snd]. apply f_equal2; ring.
  - intros [a b] He. apply edges_In in He. destruct He as (i & Hi & -> & ->). pose proof (I1 i (window_mod _ _ _ Hi)) as L. rewrite cdist_edge in L. unfold edge_at in L at 1. lra.
Qed.
Lemma circle_hull_consistent fuel c hu eps start n p1 p2 pen hu' : NoDup (b_verts hu) -> (start < length (b_verts hu))%nat ->
  circle_hull fuel c hu eps start = Ok (Some (n, p1, p2, pen), hu') ->
  at_body c p1 = at_body hu p2 /\ - eps <= pen /\ (proper_edges (b_verts hu) -> off_chords (b_verts hu) (rel c hu) -> unit_vec n).
Proof.
  intros Hn Hs H. destruct (circle_hull_cases _ _ _ _ _ _ Hn Hs H) as [(q & N & (u & v & Hu & Hv & S) & E)|(I & E)].
  - inversion E; subst. symmetry in H1. destruct (near_consistent _ _ _ _ _ _ _ _ H1) as (A & B & C & D & F). split; [exact A|]. split; [exact B|].
    intros _ Hoff. apply F. intros ->. exact (Hoff u v Hu Hv S).
  - destruct (sat_consistent c hu eps n p1 p2 pen hu' ltac:(lia) E) as (A & B & C & _). split; [exact A|]. split; [exact B|]. auto.
Qed.

(** *** hull against hull *)
Lemma verts_set_last (b : body R) i : b_verts (set_last b i) = b_verts b.
Proof. now rewrite <- forget_verts, forget_set_last, forget_verts. Qed.
Lemma pos_set_last (b : body R) i : b_pos (set_last b i) = b_pos b.
Proof. unfold b_pos. now rewrite <- forget_p, forget_set_last, forget_p. Qed.
Lemma clip_face_last (b1 b2 : body R) i j n en ri iv eps : clip_face (set_last b1 i) (set_last b2 j) n en ri iv eps = clip_face b1 b2 n en ri iv eps.
Proof. unfold clip_face. now rewrite !verts_set_last, !pos_set_last. Qed.
Lemma v2opp2 (n : pt) : v2opp (v2opp n) = n.
Proof. destruct n. unfold v2opp. rnum. cbn. apply f_equal2; ring. Qed.
(** [ref]'s edge [i] is the reference edge and the point comes from clipping [inc] *)
Definition face_point (ref inc : body R) (eps : R) (i : nat) (ptr pti : pt) (d : R) : Prop :=
  (i < length (b_verts ref))%nat /\ exists sup vtx,
    get_support (b_verts inc) (v2opp (edge_normal (b_verts ref) i)) = Ok (sup, vtx) /\
    In (ptr, pti, d) (clip_face ref inc (edge_normal (b_verts ref) i) (v2norm (edge_vec (b_verts ref) i)) i vtx eps).
Lemma hull_hull_points b1 b2 eps ps b1' b2' n p1 p2 pen : (0 < length (b_verts b1))%nat -> (0 < length (b_verts b2))%nat ->
  hull_hull b1 b2 eps = Ok (ps, b1', b2') -> In (n, p1, p2, pen) ps ->
  (exists i d, face_point b1 b2 eps i p1 p2 d /\ n = v2opp (edge_normal (b_verts b1) i) /\ pen = - d) \/
  (exists i d, face_point b2 b1 eps i p2 p1 d /\ n = edge_normal (b_verts b2) i /\ pen = - d).
Proof.
  intros N1 N2 H Hp. unfold hull_hull in H. bind_inv H as c1 E1. cbv zeta in H. rnum.
  destruct (Rltb_spec eps (sep_dist c1)) as [L1|L1]; [inversion H; subst; destruct Hp|]. bind_inv H as c2 E2.
  destruct (Rltb_spec eps (sep_dist c2)) as [L2|L2]; [inversion H; subst; destruct Hp|].
  destruct (test_separations_inv _ _ _ _ N1 E1) as (I1 & (s1 & v1 & G1 & D1 & M1) & _).
  destruct (test_separations_inv _ _ _ _ N2 E2) as (I2 & (s2 & v2 & G2 & D2 & M2) & _). rewrite verts_set_last in G2.
  destruct (Rltb (sep_dist c1) (sep_dist c2)).
  - right. destruct (sep_info c2) as [[[[[pa pb] nn] v] en]|]; [|discriminate]. destruct M2 as (-> & -> & ->). inversion H; subst; clear H.
    rewrite clip_face_last, ?v2opp2 in Hp. apply in_map_iff in Hp. destruct Hp as ([[ptr pti] d] & E & Hin). inversion E; subst.
    exists (sep_idx c2), d. split; [|split; reflexivity]. split; [exact I2|]. exists s2, v2. split; [exact G2|rewrite ?v2opp2 in Hin; exact Hin].
  - left. destruct (sep_info c1) as [[[[[pa pb] nn] v] en]|]; [|discriminate]. destruct M1 as (-> & -> & ->). inversion H; subst; clear H.
    rewrite clip_face_last, ?v2opp2 in Hp. apply in_map_iff in Hp. destruct Hp as ([[ptr pti] d] & E & Hin). inversion E; subst.
    exists (sep_idx c1), d. split; [|split; reflexivity]. split; [exact I1|]. exists s1, v1. split; [exact G1|rewrite ?v2opp2 in Hin; exact Hin].
Qed.
Lemma face_point_same ref inc eps i ptr pti d : face_point ref inc eps i ptr pti d -> at_body ref ptr = at_body inc pti /\ d <= eps.
Proof.
  intros (_ & sup & vtx & _ & H). apply clip_face_pts in H. destruct H as (-> & L & _). split; [|exact L].
  unfold at_body, v2sub, v2add. rnum. cbn [fst snd]. apply f_equal2; ring.
Qed.
Lemma face_point_line ref inc eps i ptr pti d : proper_edges (b_verts ref) -> face_point ref inc eps i ptr pti d ->
  on_line (vert (b_verts ref) i) (next_vert (b_verts ref) i) ptr /\ edge_normal (b_verts ref) i = outward (vert (b_verts ref) i) (next_vert (b_verts ref) i).
Proof.
  intros Hp (Hi & sup & vtx & _ & H). split; [|now apply face_normal]. apply clip_face_pts in H. destruct H as (_ & _ & v & -> & ->).
  eexists. apply face_foot; auto.
Qed.
Lemma face_point_segment ref inc eps i ptr pti d : proper_edges (b_verts ref) -> inscribed (b_verts ref) ->
  convex (b_verts inc) -> proper_edges (b_verts inc) -> 0 < area (b_verts inc) ->
  face_point ref inc eps i ptr pti d -> on_segment (vert (b_verts ref) i) (next_vert (b_verts ref) i) ptr.
Proof. intros Hp Hins Hc Hpi Ha (Hi & sup & vtx & Hsup & H). eapply face_within; eauto. Qed.

(** *** the callback *)
Lemma in_mk_contacts i1 i2 (ps : list (pt * pt * pt * R)) c : In c (mk_contacts i1 i2 ps) <-> exists n p1 p2 pen, In (n, p1, p2, pen) ps /\ c = mkContact n p1 p2 pen i1 i2.
Proof.
  unfold mk_contacts. rewrite in_map_iff. split.
  - intros ([[[n p1] p2] pen] & <- & H). eauto 10.
  - intros (n & p1 & p2 & pen & H & ->). exists (n, p1, p2, pen). auto.
Qed.
Lemma diff_handler_consistent fuel o eps clk bs i1 i2 b1 b2 cs bs' clk' c :
  nth_error bs i1 = Some b1 -> nth_error bs i2 = Some b2 -> regular b1 b2 ->
  diff_handler fuel o eps clk bs i1 i2 = Ok (cs, bs', clk') -> In c cs -> consistent eps b1 b2 c.
Proof.
  intros H1 H2 Hreg H Hc. apply get_body_Ok in H1, H2. unfold diff_handler in H. rewrite H1, H2 in H. cbn [bind] in H. unfold regular in Hreg.
  destruct (existsb _ _); [inversion H; subst; destruct Hc|].
  destruct (is_circle b1) eqn:C1; destruct (is_circle b2) eqn:C2; cbn [andb orb] in H.
  - inversion H; subst; clear H. rewrite circle_circle_eq in Hc. cbv zeta in Hc. destruct (circle_normal b1 b2 Hreg) as [Hu Hd].
    set (D := dist (b_pos b1) (b_pos b2)) in *. set (n := v2div (v2sub (b_pos b1) (b_pos b2)) D) in *.
    destruct (Rltb_spec (b_rad b1 + b_rad b2 - D) (- eps)) as [L|L]; [destruct Hc|]. destruct Hc as [<-|[]].
    split; [exact Hu|]. split; [|exact L]. cbn [c_p1 c_p2].
    assert (X : fst (b_pos b1) = fst (b_pos b2) + D * fst n) by (rewrite Hd; reflexivity). assert (Y : snd (b_pos b1) = snd (b_pos b2) + D * snd n) by (rewrite Hd; reflexivity).
    unfold at_body, v2scale, v2opp. rnum. cbn [fst snd]. rewrite X, Y. apply f_equal2; field.
  - destruct (Nat.eqb_spec (length (b_verts b2)) 0) as [Z|Z]; [discriminate|]. bind_inv H as r E. destruct r as [op hu']. inversion H; subst; clear H.
    apply in_mk_contacts in Hc. destruct Hc as (n & p1 & p2 & pen & Hc & ->). destruct op as [q|]; [|destruct Hc]. destruct Hc as [->|[]].
    destruct Hreg as (R1 & R2 & R3). destruct (circle_hull_consistent _ _ _ _ _ _ _ _ _ _ R1 ltac:(apply Nat.mod_upper_bound; lia) E) as (A & B & C).
    split; [cbn; auto|]. split; [exact A|exact B].
  - destruct (Nat.eqb_spec (length (b_verts b1)) 0) as [Z|Z]; [discriminate|]. bind_inv H as r E. destruct r as [op hu']. inversion H; subst; clear H.
    apply in_mk_contacts in Hc. destruct Hc as (n & p1 & p2 & pen & Hc & ->). destruct op as [[[[n0 q1] q2] pen0]|]; [|destruct Hc]. destruct Hc as [Hc|[]]. cbn in Hc. inversion Hc; subst; clear Hc.
    destruct Hreg as (R1 & R2 & R3). destruct (circle_hull_consistent _ _ _ _ _ _ _ _ _ _ R1 ltac:(apply Nat.mod_upper_bound; lia) E) as (A & B & C).
    split; [cbn; apply unit_opp; auto|]. split; [symmetry; exact A|exact B].
  - bind_inv H as r E. destruct r as [[ps b1'] b2']. inversion H; subst; clear H. apply in_mk_contacts in Hc. destruct Hc as (n & p1 & p2 & pen & Hc & ->).
    destruct Hreg as [R1 R2].
    assert (NZ : (0 < length (b_verts b1))%nat /\ (0 < length (b_verts b2))%nat).
    { unfold hull_hull in E. bind_inv E as c1 E1. unfold test_separations in E1. destruct (b_verts b1) as [|x l1] eqn:V1; [cbn in E1; discriminate|]. split; [cbn; lia|].
      cbv zeta in E. rnum. destruct (Rltb eps (sep_dist c1)); [inversion E; subst; destruct Hc|]. bind_inv E as c2 E2. unfold test_separations in E2.
      destruct (b_verts b2) as [|y l2] eqn:V2; [cbn in E2; discriminate|]. cbn. lia. }
    destruct NZ as [NZ1 NZ2].
    destruct (hull_hull_points _ _ _ _ _ _ _ _ _ _ NZ1 NZ2 E Hc) as [(i & d & F & -> & ->)|(i & d & F & -> & ->)];
      destruct (face_point_same _ _ _ _ _ _ _ F) as [S L]; destruct F as (Hi & _).
    + split; [cbn; apply unit_opp; now apply edge_normal_unit|]. split; [exact S|cbn; lra].
    + split; [cbn; now apply edge_normal_unit|]. split; [symmetry; exact S|cbn; lra].
Qed.
