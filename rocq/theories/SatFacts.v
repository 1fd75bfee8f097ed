(** test_separations *)
From Coq Require Import List Arith ZArith Bool Reals Lra Lia Psatz.
From Verif Require Import Num Tensor Utils Bodies Forces Constraints Contacts World Spec ResFacts RBase GeoSpec BodySpec ContactSpec
     BodyFacts RigidFacts GeomFacts HandlerFacts BodyReach PlaneFacts SupportFacts.
Import ListNotations.
Open Scope R_scope.

Definition edge_at (vs : list pt) (i : nat) : pt * pt := (vert vs i, next_vert vs i).
Lemma edge_at_In vs i : (i < length vs)%nat -> In (edge_at vs i) (edges vs).
Proof. intros H. apply edges_In. exists i. auto. Qed.
Lemma edge_normal_dist vs i x : v2dot (edge_normal vs i) (v2sub x (vert vs i)) = edge_dist (edge_at vs i) x.
Proof.
  unfold edge_dist, edge_normal, edge_vec, edge_at. cbn [fst snd]. rewrite v2norm_sub.
  rewrite (dist_sym (next_vert vs i)). unfold v2dot, v2div, left_orthogonal, v2sub, tri2, det2. rnum. cbn [fst snd]. unfold Rdiv. ring.
Qed.
(** the separation of edge [i], as the loop computes it *)
Definition sep_value (b1 b2 : body R) (i : nat) (sup : pt) : R :=
  v2dot (edge_normal (b_verts b1) i) (v2sub (v2sub (v2add sup (b_pos b2)) (b_pos b1)) (vert (b_verts b1) i)).
Lemma support_separation b1 b2 i sup vtx : (i < length (b_verts b1))%nat ->
  get_support (b_verts b2) (v2opp (edge_normal (b_verts b1) i)) = Ok (sup, vtx) ->
  separation (b_verts b2) (offset b1 b2) (edge_at (b_verts b1) i) (sep_value b1 b2 i sup).
Proof.
  intros Hi H. apply get_support_ok in H. destruct H as (H1 & H2 & _ & H3 & _).
  assert (E : forall v : pt, edge_dist (edge_at (b_verts b1) i) (v2add v (offset b1 b2)) =
     v2dot (edge_normal (b_verts b1) i) v + v2dot (edge_normal (b_verts b1) i) (v2sub (offset b1 b2) (vert (b_verts b1) i))).
  { intros v. rewrite <- edge_normal_dist. unfold offset, v2dot, v2sub, v2add. rnum. cbn [fst snd]. ring. }
  assert (E2 : sep_value b1 b2 i sup = edge_dist (edge_at (b_verts b1) i) (v2add sup (offset b1 b2))).
  { rewrite E. unfold sep_value, offset, v2dot, v2sub, v2add. rnum. cbn [fst snd]. ring. }
  split.
  - exists sup. split; [|auto]. subst sup. now apply In_vert.
  - intros v Hv. rewrite E2, !E. pose proof (H3 v Hv) as L. unfold v2dot, v2opp in L |- *. rnum. cbn [fst snd] in *. lra.
Qed.
Lemma separation_unique vs d e m m' : separation vs d e m -> separation vs d e m' -> m = m'.
Proof. intros ((a & Ha & E) & H) ((a' & Ha' & E') & H'). pose proof (H a' Ha'). pose proof (H' a Ha). lra. Qed.

(** loop invariant: [l] the edge numbers visited *)
Definition best_ok (b1 b2 : body R) (st : sep_state R) (q : pt * pt * pt * nat * R * nat) : Prop :=
  let '(normal, pt1, pt2, vtx, en, idx) := q in
  (idx < length (b_verts b1))%nat /\ normal = edge_normal (b_verts b1) idx /\
  en = v2norm (edge_vec (b_verts b1) idx) /\
  exists sup, get_support (b_verts b2) (v2opp normal) = Ok (sup, vtx) /\ st_dist st = sep_value b1 b2 idx sup /\
    pt1 = v2add (v2sub (v2add sup (b_pos b2)) (b_pos b1)) (v2scale (- st_dist st) normal) /\
    pt2 = v2sub (v2add pt1 (b_pos b1)) (b_pos b2).
Definition sep_inv (b1 b2 : body R) (eps : R) (l : list nat) (st : sep_state R) : Prop :=
  match st_ret st with
  | Some (d, idx) => (idx < length (b_verts b1))%nat /\ eps < d /\
      exists sup vtx, get_support (b_verts b2) (v2opp (edge_normal (b_verts b1) idx)) = Ok (sup, vtx) /\ d = sep_value b1 b2 idx sup
  | None =>
      (forall i, In i l -> exists sup vtx, get_support (b_verts b2) (v2opp (edge_normal (b_verts b1) i)) = Ok (sup, vtx) /\
                                           sep_value b1 b2 i sup <= st_dist st) /\
      match st_best st with
      | None => st_dist st = - 10 ^ 10
      | Some q => best_ok b1 b2 st q /\ st_dist st <= eps
      end
  end.
Lemma sep_step_inv b1 b2 eps l st i st' : (0 < length (b_verts b1))%nat -> sep_inv b1 b2 eps l st ->
  sep_step b1 b2 eps (Ok st) i = Ok st' -> sep_inv b1 b2 eps (l ++ [(i mod length (b_verts b1))%nat]) st'.
Proof.
  intros Hn Hi H. unfold sep_step in H. cbn [bind] in H. unfold sep_inv in Hi. destruct (st_ret st) as [[d idx]|] eqn:Er.
  - inversion H; subst st'. unfold sep_inv. rewrite Er. exact Hi.
  - set (k := (i mod length (b_verts b1))%nat) in *. assert (Hk : (k < length (b_verts b1))%nat) by (apply Nat.mod_upper_bound; lia).
    bind_inv H as sup Es. destruct sup as [sup vtx]. cbn [fst snd] in H. rnum. destruct Hi as [H1 H2].
    fold (sep_value b1 b2 k sup) in H. destruct (Rltb_spec (st_dist st) (sep_value b1 b2 k sup)) as [L|L].
    + destruct (Rltb_spec eps (sep_value b1 b2 k sup)) as [L2|L2]; inversion H; subst st'; clear H; unfold sep_inv; cbn [st_ret st_best st_dist].
      * split; [exact Hk|]. split; [exact L2|]. eauto.
      * split.
        -- intros j Hj. apply in_app_or in Hj. destruct Hj as [Hj|[<-|[]]].
           ++ destruct (H1 j Hj) as (s & v & E & B). exists s, v. split; [exact E|]. lra.
           ++ exists sup, vtx. split; [exact Es|]. lra.
        -- split; [|exact L2]. split; [exact Hk|]. split; [reflexivity|]. split; [reflexivity|]. exists sup.
           split; [exact Es|]. split; [reflexivity|]. split; reflexivity.
    + inversion H; subst st'; clear H. unfold sep_inv. rewrite Er. split; [|exact H2].
      intros j Hj. apply in_app_or in Hj. destruct Hj as [Hj|[<-|[]]]; [now apply H1|]. exists sup, vtx. split; [exact Es|exact L].
Qed.
Lemma sep_fold_err b1 b2 eps l e : fold_left (sep_step b1 b2 eps) l (Err e) = Err e.
Proof. induction l; cbn; auto. Qed.
Lemma sep_fold_inv b1 b2 eps l : (0 < length (b_verts b1))%nat -> forall done st st', sep_inv b1 b2 eps done st ->
  fold_left (sep_step b1 b2 eps) l (Ok st) = Ok st' ->
  sep_inv b1 b2 eps (done ++ map (fun i => (i mod length (b_verts b1))%nat) l) st'.
Proof.
  intros Hn. induction l as [|i l IH]; intros done st st' Hi H; cbn [fold_left map] in *.
  - inversion H; subst. rewrite app_nil_r. exact Hi.
  - destruct (sep_step b1 b2 eps (Ok st) i) as [st1|e] eqn:E; [|rewrite sep_fold_err in H; discriminate].
    rewrite <- (app_assoc done [_] _) || replace (done ++ (i mod length (b_verts b1))%nat :: map (fun i => (i mod length (b_verts b1))%nat) l)
      with ((done ++ [(i mod length (b_verts b1))%nat]) ++ map (fun i => (i mod length (b_verts b1))%nat) l) by (rewrite <- app_assoc; reflexivity).
    eapply IH; [|exact H]. eapply sep_step_inv; eauto.
Qed.
(** a window of n consecutive numbers meets every residue *)
Lemma window_mod n s k : (k < n)%nat -> In k (map (fun i => (i mod n)%nat) (seq s n)).
Proof.
  intros Hk. apply in_map_iff. pose proof (Nat.div_mod s n ltac:(lia)) as E. pose proof (Nat.mod_upper_bound s n ltac:(lia)) as B.
  destruct (le_lt_dec (s mod n) k) as [L|L].
  - exists (n * (s / n) + k)%nat. split; [|apply in_seq; lia].
    rewrite Nat.add_comm, Nat.mul_comm, Nat.mod_add by lia. now apply Nat.mod_small.
  - exists (n * (s / n) + n + k)%nat. split; [|apply in_seq; lia].
    replace (n * (s / n) + n + k)%nat with (k + (s / n + 1) * n)%nat by lia. rewrite Nat.mod_add by lia. now apply Nat.mod_small.
Qed.
Lemma test_separations_inv b1 b2 eps s : (0 < length (b_verts b1))%nat -> test_separations b1 b2 eps = Ok s ->
  (sep_idx s < length (b_verts b1))%nat /\
  (exists sup vtx, get_support (b_verts b2) (v2opp (edge_normal (b_verts b1) (sep_idx s))) = Ok (sup, vtx) /\ sep_dist s = sep_value b1 b2 (sep_idx s) sup /\
    match sep_info s with
    | None => True
    | Some (pt1, pt2, nn, v, en) => nn = v2opp (edge_normal (b_verts b1) (sep_idx s)) /\ en = v2norm (edge_vec (b_verts b1) (sep_idx s)) /\ v = vtx
    end) /\
  (sep_info s = None -> eps < sep_dist s) /\
  (sep_info s <> None -> sep_dist s <= eps /\ forall i, (i < length (b_verts b1))%nat ->
     exists sup vtx, get_support (b_verts b2) (v2opp (edge_normal (b_verts b1) i)) = Ok (sup, vtx) /\ sep_value b1 b2 i sup <= sep_dist s).
Proof.
  intros Hn H. unfold test_separations in H. bind_inv H as st E.
  assert (I0 : sep_inv b1 b2 eps [] (mkSepSt (- ncst C_1e10)%num None None)) by (unfold sep_inv; cbn; split; [intros i []|reflexivity]).
  pose proof (sep_fold_inv b1 b2 eps _ Hn _ _ _ I0 E) as I. cbn [app] in I. unfold sep_inv in I.
  destruct (st_ret st) as [[d idx]|].
  - inversion H; subst s; clear H. cbn. destruct I as (I1 & I2 & sup & vtx & I3 & I4). split; [exact I1|]. split; [exists sup, vtx; auto|]. split; [auto|congruence].
  - destruct I as [I1 I2]. destruct (st_best st) as [[[[[[normal pt1] pt2] vtx] en] idx]|]; [|discriminate]. inversion H; subst s; clear H. cbn [sep_idx sep_dist sep_info].
    destruct I2 as [(Q1 & Q2 & Q3 & sup & Q4 & Q5 & Q6 & Q7) Le]. split; [exact Q1|]. split.
    + exists sup, vtx. subst normal. split; [exact Q4|]. split; [exact Q5|]. split; [reflexivity|]. split; [exact Q3|reflexivity].
    + split; [discriminate|]. intros _. split; [exact Le|]. intros i Hi. apply I1. now apply window_mod.
Qed.
(** *** consequences *)
(** the value returned: the largest separation, or one above eps *)
Lemma sat_value b1 b2 eps s : (0 < length (b_verts b1))%nat -> test_separations b1 b2 eps = Ok s ->
  separation (b_verts b2) (offset b1 b2) (edge_at (b_verts b1) (sep_idx s)) (sep_dist s) /\ (sep_idx s < length (b_verts b1))%nat /\
  (eps < sep_dist s \/ forall e m, In e (edges (b_verts b1)) -> separation (b_verts b2) (offset b1 b2) e m -> m <= sep_dist s).
Proof.
  intros Hn H. destruct (test_separations_inv _ _ _ _ Hn H) as (H1 & (sup & vtx & H2 & H3 & _) & H4 & H5). split; [|split; [exact H1|]].
  - rewrite H3. eapply support_separation; eauto.
  - destruct (sep_info s) as [q|] eqn:Ei; [right|left; apply H4; reflexivity]. destruct H5 as [H5 H6]; [discriminate|].
    intros [a b] m Hin Hm. apply edges_In in Hin. destruct Hin as (i & Hi & -> & ->). destruct (H6 i Hi) as (su & v & Hs & L).
    rewrite (separation_unique _ _ _ _ _ Hm (support_separation _ _ _ _ _ Hi Hs)). exact L.
Qed.
Lemma sat_info_le b1 b2 eps s : (0 < length (b_verts b1))%nat -> test_separations b1 b2 eps = Ok s ->
  (sep_dist s <= eps <-> sep_info s <> None).
Proof.
  intros Hn H. destruct (test_separations_inv _ _ _ _ Hn H) as (_ & _ & H4 & H5). split.
  - intros L E. pose proof (H4 E). lra.
  - intros L. now apply H5.
Qed.
Lemma edge_dist_aff e d : exists k c1 c2, forall v, edge_dist e (v2add v d) = aff k c1 c2 v.
Proof.
  exists (edge_dist e d), ((snd (snd e) - snd (fst e)) / dist (fst e) (snd e)), (- (fst (snd e) - fst (fst e)) / dist (fst e) (snd e)).
  intros v. unfold aff, edge_dist, tri2, det2, v2add. rnum. cbn [fst snd]. unfold Rdiv. ring.
Qed.
Lemma v2add_0 (v : pt) : v2add v (0, 0) = v.
Proof. destruct v. unfold v2add. rnum. cbn. apply f_equal2; ring. Qed.
(** distance of two points is at least the difference of their signed distances from a line *)
Lemma edge_dist_lipschitz e x y : fst e <> snd e -> edge_dist e y - edge_dist e x <= dist x y.
Proof.
  intros Hne. apply dist_pos in Hne. destruct e as [p q]. unfold edge_dist. cbn [fst snd] in *.
  set (D := dist p q) in *. pose proof (dist_sq p q) as DS. fold D in DS.
  replace (- tri2 p q y / D - - tri2 p q x / D) with ((tri2 p q x - tri2 p q y) / D) by (field; lra).
  apply (Rmult_le_reg_r D); [lra|]. unfold Rdiv. rewrite Rmult_assoc, Rinv_l, Rmult_1_r by lra.
  pose proof (dist_nonneg x y) as N. pose proof (dist_sq x y) as E.
  destruct (Rle_lt_dec (tri2 p q x - tri2 p q y) 0) as [L|L]; [assert (0 <= dist x y * D) by (apply Rmult_le_pos; lra); lra|].
  apply Rsqr_incr_0_var; [|apply Rmult_le_pos; lra]. unfold Rsqr.
  replace (dist x y * D * (dist x y * D)) with ((dist x y * dist x y) * (D * D)) by ring. rewrite E, DS.
  unfold tri2, det2. cbn [fst snd].
  set (ex := fst q - fst p). set (ey := snd q - snd p). set (dx := fst x - fst y). set (dy := snd x - snd y).
  replace (ex * (snd x - snd p) - ey * (fst x - fst p) - (ex * (snd y - snd p) - ey * (fst y - fst p))) with (ex * dy - ey * dx) by (unfold dx, dy; ring).
  replace ((fst p - fst q) * (fst p - fst q)) with (ex * ex) by (unfold ex; ring). replace ((snd p - snd q) * (snd p - snd q)) with (ey * ey) by (unfold ey; ring).
  pose proof (sq0 (ex * dx + ey * dy)). nra.
Qed.
Lemma convex_inside vs e x : convex vs -> In e (edges vs) -> fst e <> snd e -> in_hull vs x -> edge_dist e x <= 0.
Proof.
  intros Hc He Hne Hx. destruct (edge_dist_aff e (0, 0)) as (k & c1 & c2 & A). specialize (A).
  assert (B : forall v, edge_dist e v = aff k c1 c2 v) by (intros v; rewrite <- A, v2add_0; reflexivity).
  rewrite B. apply (in_hull_aff vs); [exact Hx|]. intros v Hv. rewrite <- B. unfold edge_dist. destruct e as [p q]. cbn [fst snd] in *.
  pose proof (Hc p q He v Hv) as P. apply dist_pos in Hne. unfold Rdiv. pose proof (Rinv_0_lt_compat _ Hne). nra.
Qed.
Lemma separation_outside vs d e m x : separation vs d e m -> in_hull vs x -> m <= edge_dist e (v2add x d).
Proof.
  intros [_ H] Hx. destruct (edge_dist_aff e d) as (k & c1 & c2 & A).
  assert (L : aff (- k) (- c1) (- c2) x <= - m).
  { apply (in_hull_aff vs); [exact Hx|]. intros v Hv. pose proof (H v Hv) as B. cbv beta in B. rewrite A in B. unfold aff in *. lra. }
  rewrite A. unfold aff in *. lra.
Qed.
Lemma polygon_points (b : body R) q : is_circle b = false -> body_points b q <-> in_hull (b_verts b) (v2sub q (b_pos b)).
Proof. unfold is_circle, body_points. destruct (b_kind b); [discriminate|tauto|tauto]. Qed.
Lemma sat_disjoint b1 b2 eps s q1 q2 :
  is_circle b1 = false -> is_circle b2 = false -> convex (b_verts b1) -> proper_edges (b_verts b1) -> (0 < length (b_verts b1))%nat ->
  test_separations b1 b2 eps = Ok s -> body_points b1 q1 -> body_points b2 q2 -> sep_dist s <= dist q1 q2.
Proof.
  intros C1 C2 Hc Hp Hn H P1 P2. apply polygon_points in P1, P2; auto.
  destruct (sat_value _ _ _ _ Hn H) as (S & Hi & _). pose proof (edge_at_In _ _ Hi) as He. set (e := edge_at (b_verts b1) (sep_idx s)) in *.
  assert (Hne : fst e <> snd e) by (apply Hp; exact He).
  pose proof (convex_inside _ _ _ Hc He Hne P1) as B1. pose proof (separation_outside _ _ _ _ _ S P2) as B2.
  pose proof (edge_dist_lipschitz e (v2sub q1 (b_pos b1)) (v2add (v2sub q2 (b_pos b2)) (offset b1 b2)) Hne) as L.
  assert (D : dist (v2sub q1 (b_pos b1)) (v2add (v2sub q2 (b_pos b2)) (offset b1 b2)) = dist q1 q2).
  { unfold dist, offset, v2sub, v2add. rnum. cbn [fst snd]. f_equal. ring. }
  rewrite D in L. lra.
Qed.
(** independence of the warm start *)
Lemma sat_warm_start b1 b2 eps i s s' : (0 < length (b_verts b1))%nat ->
  test_separations b1 b2 eps = Ok s -> test_separations (set_last b1 i) b2 eps = Ok s' ->
  (eps < sep_dist s <-> eps < sep_dist s') /\ (sep_dist s <= eps -> sep_dist s' = sep_dist s).
Proof.
  intros Hn H H'.
  assert (V : b_verts (set_last b1 i) = b_verts b1) by (unfold b_verts, set_last; destruct b1 as [? k]; destruct k; reflexivity).
  assert (O : offset (set_last b1 i) b2 = offset b1 b2) by (unfold offset, b_pos, set_last; destruct b1 as [? k]; destruct k; reflexivity).
  assert (Hn' : (0 < length (b_verts (set_last b1 i)))%nat) by (rewrite V; exact Hn).
  destruct (sat_value _ _ _ _ Hn H) as (S1 & I1 & D1). destruct (sat_value _ _ _ _ Hn' H') as (S2 & I2 & D2). rewrite V, O in *.
  pose proof (edge_at_In _ _ I1) as E1. pose proof (edge_at_In _ _ I2) as E2.
  assert (A : eps < sep_dist s <-> eps < sep_dist s').
  { split; intros L.
    - destruct D2 as [D2|D2]; [exact D2|]. pose proof (D2 _ _ E1 S1). lra.
    - destruct D1 as [D1|D1]; [exact D1|]. pose proof (D1 _ _ E2 S2). lra. }
  split; [exact A|]. intros L. destruct D1 as [D1|D1]; [lra|]. destruct D2 as [D2|D2]; [apply A in D2; lra|].
  pose proof (D1 _ _ E2 S2). pose proof (D2 _ _ E1 S1). lra.
Qed.
(** it returns *)
Lemma sep_step_total b1 b2 eps : (forall i, (i < length (b_verts b1))%nat -> exists r, get_support (b_verts b2) (v2opp (edge_normal (b_verts b1) i)) = Ok r) ->
  (0 < length (b_verts b1))%nat -> forall l st, exists st', fold_left (sep_step b1 b2 eps) l (Ok st) = Ok st'.
Proof.
  intros Hs Hn. induction l as [|i l IH]; intros st; cbn [fold_left]; [eauto|].
  assert (exists st1, sep_step b1 b2 eps (Ok st) i = Ok st1) as [st1 ->]; [|apply IH].
  unfold sep_step. cbn [bind]. destruct (st_ret st); [eauto|].
  destruct (Hs (i mod length (b_verts b1))%nat) as [r ->]; [apply Nat.mod_upper_bound; lia|]. cbn [bind].
  destruct (nltb _ _); [|eauto]. destruct (nltb _ _); eauto.
Qed.
Lemma sat_total b1 b2 eps e m : (0 < length (b_verts b1))%nat ->
  (forall d, exists r, get_support (b_verts b2) d = Ok r) ->
  In e (edges (b_verts b1)) -> separation (b_verts b2) (offset b1 b2) e m -> - 10 ^ 10 < m ->
  exists s, test_separations b1 b2 eps = Ok s.
Proof.
  intros Hn Hs He Hm Hlt. unfold test_separations.
  destruct (sep_step_total b1 b2 eps (fun i _ => Hs _) Hn (seq (b_last b1) (length (b_verts b1))) (mkSepSt (- ncst C_1e10)%num None None)) as [st E].
  rewrite E. cbn [bind].
  assert (I0 : sep_inv b1 b2 eps [] (mkSepSt (- ncst C_1e10)%num None None)) by (unfold sep_inv; cbn; split; [intros i []|reflexivity]).
  pose proof (sep_fold_inv b1 b2 eps _ Hn _ _ _ I0 E) as I. cbn [app] in I. unfold sep_inv in I.
  destruct (st_ret st) as [[d idx]|]; [eauto|]. destruct (st_best st) as [[[[[[normal pt1] pt2] vtx] en] idx]|]; [eauto|].
  destruct I as [I1 I2]. destruct e as [a b]. apply edges_In in He. destruct He as (i & Hi & -> & ->).
  destruct (I1 i (window_mod _ _ _ Hi)) as (sup & vtx & Hs' & L).
  rewrite (separation_unique _ _ _ _ _ Hm (support_separation _ _ _ _ _ Hi Hs')) in Hlt. lra.
Qed.
