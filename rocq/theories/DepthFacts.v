(** How deep the contacts of two rectangles are (proofs for C96) *)
From Coq Require Import List Arith ZArith Bool Reals Lra Lia Psatz.
From Verif Require Import Num Tensor Utils Bodies Forces Constraints Contacts World Spec ResFacts RBase GeoSpec BodySpec ContactSpec StrictSpec
     BodyFacts RigidFacts GeomFacts HandlerFacts BodyReach PlaneFacts SupportFacts SatFacts ClipFacts GjkFacts GjkLoop GjkTerm HellyFacts ContactFacts OverlapFacts StrictFacts.
Import ListNotations.
Open Scope R_scope.

(** corners are right, and every vertex lies beyond the foot of every edge *)
Definition squared (vs : list pt) : Prop :=
  (forall u v w, In (u, v) (edges vs) -> In (v, w) (edges vs) -> (fst u - fst v) * (fst w - fst v) + (snd u - snd v) * (snd w - snd v) = 0) /\
  (forall p q, In (p, q) (edges vs) -> forall v, In v vs -> 0 <= (fst q - fst p) * (fst v - fst p) + (snd q - snd p) * (snd v - snd p)).

(** *** the depth of the separating-axis test *)
Lemma sat_depth (b1 b2 : body R) s t : is_circle b1 = false -> is_circle b2 = false -> strictly_convex (b_verts b1) -> strictly_convex (b_verts b2) -> s <= 0 ->
  (forall e m, In e (edges (b_verts b1)) -> separation (b_verts b2) (offset b1 b2) e m -> m <= s) ->
  (forall e m, In e (edges (b_verts b2)) -> separation (b_verts b1) (v2opp (offset b1 b2)) e m -> m <= s) ->
  overlap_at_most t b1 b2 -> - s <= t.
Proof.
  intros C1 C2 HP HQ Hneg MP MQ (n & Hn & Hov). set (P := b_verts b1) in *. set (Q := b_verts b2) in *. set (d := offset b1 b2) in *.
  assert (NP : P <> []) by (intros Z; destruct HP as (_ & H & _); fold P in H; rewrite Z in H; cbn in H; lia). assert (NQ : Q <> []) by (intros Z; destruct HQ as (_ & H & _); fold Q in H; rewrite Z in H; cbn in H; lia).
  set (d' := v2add d (v2scale (- - s) n)).
  destruct (sat_complete P Q d' HP HQ) as (x & X1 & X2).
  - intros e m Hin Hm. destruct (separation_exists Q d e NQ) as (m0 & Hm0). pose proof (MP e m0 Hin Hm0) as L. destruct Hm0 as ((v & Hv & Ev) & _). destruct Hm as [_ Hm]. pose proof (Hm v Hv) as L2. cbv beta in L2, Ev.
    assert (Hne : fst e <> snd e) by (destruct e; now apply (strictly_proper _ HP)).
    pose proof (edge_dist_lipschitz e (v2add v d) (v2add v d') Hne) as L3.
    replace (v2add v d') with (v2add (v2add v d) (v2scale (- - s) n)) in * by (unfold d', v2add, v2scale; rnum; cbn [fst snd]; apply f_equal2; ring).
    rewrite dist_push' in L3 by (auto; lra). lra.
  - intros e m Hin Hm. destruct (separation_exists P (v2opp d) e NP) as (m0 & Hm0). pose proof (MQ e m0 Hin Hm0) as L. destruct Hm0 as ((v & Hv & Ev) & _). destruct Hm as [_ Hm]. pose proof (Hm v Hv) as L2. cbv beta in L2, Ev.
    assert (Hne : fst e <> snd e) by (destruct e; now apply (strictly_proper _ HQ)).
    pose proof (edge_dist_lipschitz e (v2add v (v2opp d)) (v2add v (v2opp d')) Hne) as L3.
    replace (v2add v (v2opp d')) with (v2add (v2add v (v2opp d)) (v2scale (- s) n)) in * by (unfold d', v2add, v2opp, v2scale; rnum; cbn [fst snd]; apply f_equal2; ring).
    rewrite dist_push in L3 by (auto; lra). lra.
  - specialize (Hov (v2add x (b_pos b1)) (v2add (v2sub x d') (b_pos b2))).
    assert (P1 : body_points b1 (v2add x (b_pos b1))).
    { apply polygon_points; [exact C1|]. replace (v2sub (v2add x (b_pos b1)) (b_pos b1)) with x; [exact X1|]. unfold v2sub, v2add. rnum. destruct x. cbn [fst snd]. apply f_equal2; ring. }
    assert (P2 : body_points b2 (v2add (v2sub x d') (b_pos b2))).
    { apply polygon_points; [exact C2|]. replace (v2sub (v2add (v2sub x d') (b_pos b2)) (b_pos b2)) with (v2sub x d'); [exact X2|]. generalize (v2sub x d'). intros [u v]. unfold v2sub, v2add. rnum. cbn [fst snd]. apply f_equal2; ring. }
    specialize (Hov P1 P2). unfold d', d, offset, v2add, v2sub, v2scale in Hov. rnum. cbn [fst snd] in Hov. unfold unit_vec in Hn.
    set (n1 := fst n) in *. set (n2 := snd n) in *.
    assert (E : n1 * (fst x - (fst (b_pos b2) - fst (b_pos b1) + - - s * n1) + fst (b_pos b2) - (fst x + fst (b_pos b1))) + n2 * (snd x - (snd (b_pos b2) - snd (b_pos b1) + - - s * n2) + snd (b_pos b2) - (snd x + snd (b_pos b1))) = - s * (n1 * n1 + n2 * n2)) by ring.
    rewrite E, Hn in Hov. lra.
Qed.

(** *** a right corner *)
Lemma corner_dist (u k w : pt) : (fst u - fst k) * (fst w - fst k) + (snd u - snd k) * (snd w - snd k) = 0 -> 0 < tri2 u k w ->
  (forall x, edge_dist (u, k) x = - ((fst x - fst k) * (fst w - fst k) + (snd x - snd k) * (snd w - snd k)) / dist k w) /\
  (forall x, edge_dist (k, w) x = - ((fst x - fst k) * (fst u - fst k) + (snd x - snd k) * (snd u - snd k)) / dist k u).
Proof.
  intros Hp Ht. destruct u as [u1 u2], k as [k1 k2], w as [w1 w2]. unfold tri2, det2 in Ht. cbn [fst snd] in *.
  set (f1 := u1 - k1) in *. set (f2 := u2 - k2) in *. set (h1 := w1 - k1) in *. set (h2 := w2 - k2) in *.
  assert (Ht' : 0 < h1 * f2 - h2 * f1) by (replace (h1 * f2 - h2 * f1) with ((k1 - u1) * (w2 - u2) - (k2 - u2) * (w1 - u1)) by (unfold h1, h2, f1, f2; ring); exact Ht). clear Ht.
  assert (Hh : 0 < h1 * h1 + h2 * h2) by nra. assert (Hf : 0 < f1 * f1 + f2 * f2) by nra.
  assert (Q : (h1 * f2 - h2 * f1) * (h1 * f2 - h2 * f1) = (h1 * h1 + h2 * h2) * (f1 * f1 + f2 * f2)) by (transitivity ((h1 * h1 + h2 * h2) * (f1 * f1 + f2 * f2) - (f1 * h1 + f2 * h2) * (f1 * h1 + f2 * h2)); [ring|rewrite Hp; ring]).
  pose proof (dist_sq (k1, k2) (w1, w2)) as DH. pose proof (dist_nonneg (k1, k2) (w1, w2)) as PH. pose proof (dist_sq (k1, k2) (u1, u2)) as DF. pose proof (dist_nonneg (k1, k2) (u1, u2)) as PF.
  cbn [fst snd] in *. set (H := dist (k1, k2) (w1, w2)) in *. rewrite (dist_sym (k1, k2) (u1, u2)) in DF, PF |- *. set (F := dist (u1, u2) (k1, k2)) in *.
  assert (DH' : H * H = h1 * h1 + h2 * h2) by (rewrite DH; unfold h1, h2; ring). assert (DF' : F * F = f1 * f1 + f2 * f2) by (rewrite DF; unfold f1, f2; ring).
  assert (PHF : 0 <= H * F) by (apply Rmult_le_pos; assumption).
  assert (HF : H * F = h1 * f2 - h2 * f1). { apply Rsqr_inj; [exact PHF|lra|]. unfold Rsqr. rewrite Q, <- DH', <- DF'. ring. }
  assert (0 < H) by (destruct PH as [|Z]; [assumption|rewrite <- Z in DH'; lra]). assert (0 < F) by (destruct PF as [|Z]; [assumption|rewrite <- Z in DF'; lra]).
  assert (E1 : f2 * H = h1 * F).
  { apply (Rmult_eq_reg_r F); [|lra]. replace (f2 * H * F) with (f2 * (H * F)) by ring. replace (h1 * F * F) with (h1 * (F * F)) by ring. rewrite HF, DF'.
    transitivity (h1 * (f1 * f1 + f2 * f2) - f1 * (f1 * h1 + f2 * h2)); [ring|rewrite Hp; ring]. }
  assert (E2 : f1 * H = - h2 * F).
  { apply (Rmult_eq_reg_r F); [|lra]. replace (f1 * H * F) with (f1 * (H * F)) by ring. replace (- h2 * F * F) with (- h2 * (F * F)) by ring. rewrite HF, DF'.
    transitivity (- h2 * (f1 * f1 + f2 * f2) + f2 * (f1 * h1 + f2 * h2)); [ring|rewrite Hp; ring]. }
  split; intros [x1 x2]; unfold edge_dist, tri2, det2; cbn [fst snd].
  - fold F. replace ((k1 - u1) * (x2 - u2) - (k2 - u2) * (x1 - u1)) with (- f1 * (x2 - k2) + f2 * (x1 - k1)) by (unfold f1, f2; ring).
    set (y1 := x1 - k1). set (y2 := x2 - k2). apply (Rmult_eq_reg_r (H * F)); [|nra].
    transitivity (- (- f1 * y2 + f2 * y1) * H); [field; lra|]. transitivity (- (y1 * h1 + y2 * h2) * F); [|field; lra].
    apply (Rmult_eq_reg_r (H * F)); [|nra]. transitivity (- (- f1 * y2 + f2 * y1) * F * (H * H)); [ring|]. transitivity (- (y1 * h1 + y2 * h2) * H * (F * F)); [|ring]. rewrite DH', DF'.
    rewrite <- DH', <- DF'. transitivity (- (- (f1 * H) * y2 + (f2 * H) * y1) * F * H); [ring|]. rewrite E1, E2. ring.
  - fold H. replace ((w1 - k1) * (x2 - k2) - (w2 - k2) * (x1 - k1)) with (h1 * (x2 - k2) - h2 * (x1 - k1)) by (unfold h1, h2; ring).
    set (y1 := x1 - k1). set (y2 := x2 - k2).
    apply (Rmult_eq_reg_r (H * F)); [|nra]. transitivity (- ((h1 * F) * y2 + (- h2 * F) * y1)); [field; lra|]. rewrite <- E1, <- E2. field. lra.
Qed.
(** *** the extrapolated point *)
Lemma low_point g gm s wN W r : 0 < g -> 0 < gm -> 0 < s -> 0 <= wN -> 0 <= W -> W * W = (gm - g) * (gm - g) + wN * wN -> gm <> g ->
  (g * (gm - g) + s * wN <= s * W) -> g + r * (gm - g) = 0 -> 0 <= s + r * wN.
Proof.
  intros Hg Hgm Hs HN HW E Hne HK Hr. set (wT := gm - g) in *. assert (wT <> 0) by (unfold wT; lra). clearbody wT.
  destruct (Rlt_le_dec wT 0) as [L|L].
  - assert (0 < r) by nra. nra.
  - assert (0 < wT) by lra. assert (WN : wN < W) by nra.
    apply (Rmult_le_reg_r wT); [lra|]. replace (0 * wT) with 0 by ring. replace ((s + r * wN) * wT) with (s * wT - g * wN) by (replace (r * wT) with (- g) by lra; nra).
    apply (Rmult_le_reg_r wT); [lra|]. replace (0 * wT) with 0 by ring.
    assert (A : g * wT * wN <= s * (W - wN) * wN) by (apply Rmult_le_compat_r; lra).
    assert (B : s * (W - wN) * wN <= s * (wT * wT)). { replace (wT * wT) with ((W - wN) * (W + wN)) by lra. rewrite Rmult_assoc. apply Rmult_le_compat_l; [lra|]. apply Rmult_le_compat_l; lra. }
    lra.
Qed.
(** *** overlapping polygons: the incident edge meets the slab over the reference edge *)
Definition seen (ref inc : body R) (v : pt) : pt := v2sub (v2add v (b_pos inc)) (b_pos ref).
Lemma incident_over ref inc i sup vtx s : strictly_convex (b_verts ref) -> strictly_convex (b_verts inc) -> inscribed (b_verts ref) ->
  (i < length (b_verts ref))%nat -> get_support (b_verts inc) (v2opp (edge_normal (b_verts ref) i)) = Ok (sup, vtx) ->
  s = sep_value ref inc i sup -> s <= 0 ->
  (forall e m, In e (edges (b_verts ref)) -> separation (b_verts inc) (offset ref inc) e m -> m <= s) ->
  (forall e m, In e (edges (b_verts inc)) -> separation (b_verts ref) (v2opp (offset ref inc)) e m -> m <= s) ->
  let n := edge_normal (b_verts ref) i in let half := v2norm (edge_vec (b_verts ref) i) / 2 in let ie := get_incident_edge n (b_verts inc) vtx in
  exists y, on_segment (seen ref inc (vert (b_verts inc) ie)) (seen ref inc (next_vert (b_verts inc) ie)) y /\ half_plane (v2opp (left_orthogonal n)) half y.
Proof.
  intros HP HQ Hins Hi Hsup Es Hneg MP MQ. set (vs := b_verts ref) in *. set (n := edge_normal vs i). set (L := v2norm (edge_vec vs i)).
  set (a := vert vs i). set (c := next_vert vs i). pose proof (strictly_proper _ HP) as Hp.
  destruct (face_L ref i Hi Hp) as [HL EL]. fold vs L a c in HL, EL. pose proof (face_normal ref i Hi Hp) as En. fold vs n a c in En.
  pose proof (edge_at_In vs i Hi) as He. unfold edge_at in He. fold a c in He.
  pose proof (support_separation ref inc i sup vtx Hi Hsup) as Hsep. rewrite <- Es in Hsep. fold vs in Hsep. unfold edge_at in Hsep. fold a c in Hsep.
  destruct (push_out vs (b_verts inc) (offset ref inc) a c s HP HQ He Hsep Hneg MP MQ) as (x & (t & Ht & Ex) & Hz).
  rewrite <- En in Hz. set (y := v2add x (v2scale s n)) in *. set (z := v2sub y (offset ref inc)) in *.
  assert (Hn : unit_vec n) by (apply edge_normal_unit; auto).
  apply get_support_ok in Hsup as Hs. destruct Hs as (Hk & Esup & _ & Hmin & _).
  assert (Dn : forall k : R, v2dot n (v2scale k n) = k) by (intros k; unfold unit_vec, v2dot, v2scale in *; rnum; cbn [fst snd]; transitivity (k * (fst n * fst n + snd n * snd n)); [ring|rewrite Hn; ring]).
  assert (Dadd : forall u v : pt, v2dot n (v2add u v) = v2dot n u + v2dot n v) by (intros; unfold v2dot, v2add; rnum; cbn [fst snd]; ring).
  assert (Dsub : forall u v : pt, v2dot n (v2sub u v) = v2dot n u - v2dot n v) by (intros; unfold v2dot, v2sub; rnum; cbn [fst snd]; ring).
  assert (Dx : v2dot n x = v2dot n a).
  { rewrite Ex. pose proof (edge_normal_perp vs i) as P. fold n a c in P. transitivity (v2dot n a + t * v2dot n (v2sub c a)); [unfold v2dot, along, v2sub; rnum; cbn [fst snd]; ring|rewrite P; ring]. }
  assert (Dy : v2dot n (v2sub y a) = s) by (unfold y; rewrite Dsub, Dadd, Dn, Dx; ring).
  assert (Dz : v2dot n z = v2dot n (vert (b_verts inc) vtx)).
  { rewrite <- Esup. unfold sep_value in Es. fold vs n a in Es. rewrite !Dsub, Dadd in Es. unfold z. rewrite Dsub. unfold offset. rewrite !Dsub. rewrite Dsub in Dy. lra. }
  pose proof (min_on_incident (b_verts inc) n vtx z HQ Hn Hk) as Hie. cbv zeta in Hie. set (ie := get_incident_edge n (b_verts inc) vtx) in *.
  destruct Hie as (r & Hr & Ez).
  { intros v Hv. pose proof (Hmin v Hv) as M. rewrite Esup in M. change (edge_normal vs i) with n in M. assert (O : forall u : pt, v2dot u (v2opp n) = - v2dot n u) by (intros; unfold v2dot, v2opp; rnum; cbn [fst snd]; ring). rewrite !O in M. lra. }
  { apply hull_inside; [now apply strictly_convex_convex|exact Hz]. }
  { exact Dz. }
  set (w0 := v2sub (v2add (vert (b_verts inc) ie) (b_pos inc)) (b_pos ref)). set (w1 := v2sub (v2add (next_vert (b_verts inc) ie) (b_pos inc)) (b_pos ref)).
  assert (Hy : on_segment w0 w1 y).
  { exists r. split; [exact Hr|]. assert (Ey : y = v2add z (offset ref inc)) by (unfold z; now rewrite v2sub_add).
    rewrite Ey, Ez. unfold w0, w1, offset, along, v2add, v2sub. rnum. cbn [fst snd]. apply f_equal2; ring. }
  assert (Slab : pd (left_orthogonal n) (L / 2) y = L * (1 - t)).
  { pose proof (face_slab ref i Hi Hp y) as S. fold vs n L a c in S. rewrite S. unfold y. rewrite Ex, En. unfold outward. rewrite <- EL. unfold v2add, v2scale, along. rnum. cbn [fst snd].
    pose proof (dist_sq a c) as DS. rewrite <- EL in DS. pose proof (Hins _ _ He) as Heq.
    set (ex := fst c - fst a) in *. set (ey := snd c - snd a) in *.
    assert (Q : L * L = ex * ex + ey * ey) by (rewrite DS; unfold ex, ey; ring).
    assert (EA : ex * fst a + ey * snd a = - (L * L) / 2) by (rewrite Q; unfold ex, ey; lra).
    apply (Rmult_eq_reg_r L); [|lra].
    transitivity (L * L / 2 - (ex * fst a + ey * snd a + t * (ex * ex + ey * ey))); [field; lra|]. rewrite EA, <- Q. field. }
  assert (H1 : half_plane (left_orthogonal n) (L / 2) y) by (apply half_plane_pd; rewrite Slab; apply Rmult_le_pos; destruct Ht; lra).
  assert (H2 : half_plane (v2opp (left_orthogonal n)) (L / 2) y).
  { apply half_plane_pd. rewrite pd_opp, Slab. replace (2 * (L / 2) - L * (1 - t)) with (L * t) by field. apply Rmult_le_pos; lra. }
  cbv zeta. exists y. split; [exact Hy|exact H2].
Qed.
Lemma on_seg_affine (f : pt -> R) p q x s : (forall t, f (along p q t) = (1 - t) * f p + t * f q) -> s <= f p -> s <= f q -> on_segment p q x -> s <= f x.
Proof. intros A P Q (t & Ht & ->). rewrite A. nra. Qed.
Lemma on_seg_l p q : on_segment p q p.
Proof. exists 0. split; [lra|]. now rewrite along_0. Qed.
Lemma on_seg_r p q : on_segment p q q.
Proof. exists 1. split; [lra|]. now rewrite along_1. Qed.
Lemma clip_inside va vb n off v : 0 <= pd n off va \/ 0 <= pd n off vb -> In v (clip_segment_to_line va vb n off) -> on_segment va vb v.
Proof.
  intros H Hv. destruct (clip_two va vb n off H) as (c0 & c1 & E & S1). rewrite E in Hv. destruct Hv as [<-|[<-|[]]]; [apply (S1 c0), on_seg_l|apply (S1 c1), on_seg_r].
Qed.
(** the clipped points: on the incident edge, or the one extrapolated when all of it is beyond the
    start of the reference edge *)
Lemma clips w0 w1 n half v c0 c1 l : 0 < half -> clip_segment_to_line w0 w1 n half = c0 :: c1 :: l -> In v (clip_segment_to_line c0 c1 (v2opp n) half) ->
  on_segment w0 w1 v \/ pd (v2opp n) half w0 < 0 /\ pd (v2opp n) half w1 < 0 /\ v = along w0 w1 (pd (v2opp n) half w0 / (pd (v2opp n) half w0 - pd (v2opp n) half w1)).
Proof.
  intros Hh E Hv.
  assert (G : (0 <= pd n half w0 \/ 0 <= pd n half w1) -> (0 <= pd (v2opp n) half c0 \/ 0 <= pd (v2opp n) half c1) -> on_segment w0 w1 v).
  { intros H1 H2. destruct (clip_two w0 w1 n half H1) as (d0 & d1 & E' & S1). rewrite E in E'. injection E' as <- <- _. apply (clip_inside _ _ _ _ _ H2) in Hv. now apply S1. }
  destruct (Rle_lt_dec 0 (pd n half w0)) as [L0|L0], (Rle_lt_dec 0 (pd n half w1)) as [L1|L1].
  - rewrite clip_in_in in E by auto. injection E as <- <- _.
    destruct (Rle_lt_dec 0 (pd (v2opp n) half w0)) as [K0|K0]; [left; auto|]. destruct (Rle_lt_dec 0 (pd (v2opp n) half w1)) as [K1|K1]; [left; auto|].
    right. split; [exact K0|]. split; [exact K1|]. rewrite clip_out_out in Hv by auto. destruct Hv as [<-|[]]. reflexivity.
  - left. apply G; [auto|]. right. rewrite clip_in_out in E by auto. injection E as <- <- _. rewrite pd_opp, cross_zero by lra. lra.
  - left. apply G; [auto|]. right. rewrite clip_out_in in E by auto. injection E as <- <- _. rewrite pd_opp, cross_zero by lra. lra.
  - rewrite clip_out_out in E by auto. discriminate.
Qed.
Section Depth.
Variables (ref inc : body R) (i vtx : nat) (sup : pt) (s : R).
Let vs := b_verts ref.
Let us := b_verts inc.
Let n := edge_normal vs i.
Let L := v2norm (edge_vec vs i).
Let a := vert vs i.
Let c := next_vert vs i.
Hypothesis HP : strictly_convex vs.
Hypothesis HQ : strictly_convex us.
Hypothesis Hins : inscribed vs.
Hypothesis SP : squared vs.
Hypothesis SQ : squared us.
Hypothesis Hi : (i < length vs)%nat.
Hypothesis Hsup : get_support us (v2opp n) = Ok (sup, vtx).
Hypothesis Es : s = sep_value ref inc i sup.
Hypothesis MP : forall e m, In e (edges vs) -> separation us (offset ref inc) e m -> m <= s.
Hypothesis MQ : forall e m, In e (edges us) -> separation vs (v2opp (offset ref inc)) e m -> m <= s.
Definition Nn (x : pt) : R := v2dot n (v2sub x a).
Definition Tt (x : pt) : R := - pd (v2opp (left_orthogonal n)) (L / 2) x.
Let Hp := strictly_proper vs HP.
Lemma d_unit : unit_vec n.
Proof. apply edge_normal_unit; auto. Qed.
Lemma d_frame x y z : (fst x - fst y) * (fst z - fst y) + (snd x - snd y) * (snd z - snd y) = (Nn x - Nn y) * (Nn z - Nn y) + (Tt x - Tt y) * (Tt z - Tt y).
Proof.
  pose proof d_unit as U. unfold Nn, Tt, pd, v2dot, v2opp, v2sub, left_orthogonal. unfold unit_vec in U. rnum. cbn [fst snd]. set (n1 := fst n) in *. set (n2 := snd n) in *.
  transitivity ((n1 * n1 + n2 * n2) * ((fst x - fst y) * (fst z - fst y) + (snd x - snd y) * (snd z - snd y))); [rewrite U; ring|ring].
Qed.
Lemma N_along p q t : Nn (along p q t) = (1 - t) * Nn p + t * Nn q.
Proof. unfold Nn, along, v2dot, v2sub. rnum. cbn [fst snd]. ring. Qed.
Lemma T_along p q t : Tt (along p q t) = (1 - t) * Tt p + t * Tt q.
Proof. unfold Tt. rewrite pd_along. ring. Qed.
Lemma N_edge x : Nn x = edge_dist (a, c) x.
Proof. apply (edge_normal_dist vs i x). Qed.
Lemma N_ref x : In x vs -> Nn x <= 0.
Proof.
  intros Hx. rewrite N_edge. pose proof (edge_at_In vs i Hi) as He. unfold edge_at in He. fold a c in He. apply edge_dist_neg; [now apply Hp|]. apply (strictly_convex_convex _ HP); auto.
Qed.
Lemma T_ref x : In x vs -> Tt x <= 0.
Proof.
  intros Hx. destruct (face_L ref i Hi Hp) as [HL EL]. fold vs L a c in HL, EL. pose proof (edge_at_In vs i Hi) as He. unfold edge_at in He. fold a c in He.
  destruct SP as [_ F]. specialize (F _ _ He x Hx). unfold Tt. rewrite pd_opp. pose proof (face_slab ref i Hi Hp x) as S1. fold vs n L a c in S1. rewrite S1.
  pose proof (dist_sq a c) as DS. rewrite <- EL in DS. pose proof (Hins _ _ He) as Heq. set (ex := fst c - fst a) in *. set (ey := snd c - snd a) in *.
  assert (Q : L * L = ex * ex + ey * ey) by (rewrite DS; unfold ex, ey; ring).
  assert (EA : ex * fst a + ey * snd a = - (L * L) / 2) by (rewrite Q; unfold ex, ey; lra).
  assert (G : - (L * L) / 2 <= ex * fst x + ey * snd x) by lra.
  assert (K : - L / 2 <= (ex * fst x + ey * snd x) / L). { apply (Rmult_le_reg_r L); [lra|]. unfold Rdiv at 2. rewrite Rmult_assoc, Rinv_l by lra. lra. }
  lra.
Qed.
Lemma N_inc u : In u us -> s <= Nn (seen ref inc u).
Proof.
  intros Hu. pose proof (support_separation ref inc i sup vtx Hi Hsup) as [_ S1]. specialize (S1 u Hu). cbv beta in S1. rewrite <- Es in S1. rewrite N_edge.
  replace (seen ref inc u) with (v2add u (offset ref inc)); [exact S1|]. unfold seen, offset, v2add, v2sub. rnum. cbn [fst snd]. apply f_equal2; ring.
Qed.
Lemma N_sup : Nn (seen ref inc (vert us vtx)) = s.
Proof.
  apply get_support_ok in Hsup as (_ & E & _). rewrite <- E, Es. unfold sep_value. fold vs n a. unfold Nn, seen, v2dot, v2sub, v2add. rnum. cbn [fst snd]. reflexivity.
Qed.
Lemma seen_diff u v : fst (seen ref inc u) - fst (seen ref inc v) = fst u - fst v /\ snd (seen ref inc u) - snd (seen ref inc v) = snd u - snd v.
Proof. unfold seen, v2sub, v2add. rnum. cbn [fst snd]. split; ring. Qed.
(** the point where the line K M crosses the end of the slab *)
Lemma beyond K M r : 0 < s -> 0 < Tt K -> 0 < Tt M -> Nn K = s -> s <= Nn M -> Tt M <> Tt K ->
  (exists x, In x vs /\ - ((fst x - fst K) * (fst M - fst K) + (snd x - snd K) * (snd M - snd K)) / dist K M <= s) ->
  Tt (along K M r) = 0 -> 0 <= Nn (along K M r).
Proof.
  intros Hs TK TM NK NM Hne (x & Hx & HX) Hr. rewrite N_along, NK. rewrite T_along in Hr.
  replace ((1 - r) * s + r * Nn M) with (s + r * (Nn M - s)) by ring.
  pose proof (dist_sq K M) as DS. pose proof (dist_nonneg K M) as PD. set (W := dist K M) in *.
  assert (DS' : W * W = (Tt M - Tt K) * (Tt M - Tt K) + (Nn M - s) * (Nn M - s)).
  { rewrite DS. pose proof (d_frame M K M) as Fr. rewrite NK in Fr. transitivity ((fst M - fst K) * (fst M - fst K) + (snd M - snd K) * (snd M - snd K)); [ring|]. rewrite Fr. ring. }
  apply (low_point (Tt K) (Tt M) s (Nn M - s) W r); auto; [lra| |lra].
  destruct (Rlt_le_dec (Tt M) (Tt K)) as [A|A].
  - assert (Nn M - s <= W). { destruct (Rle_lt_dec (Nn M - s) W) as [|B]; [assumption|exfalso]. nra. }
    nra.
  - rewrite (d_frame x K M), NK in HX. pose proof (N_ref x Hx) as NX. pose proof (T_ref x Hx) as TX. set (wT := Tt M - Tt K) in *. set (wN := Nn M - s) in *.
    assert (0 < wT) by (unfold wT; lra). assert (0 <= wN) by (unfold wN; lra). assert (PW : 0 < W) by nra.
    apply (Rmult_le_compat_r W) in HX; [|lra]. unfold Rdiv in HX. rewrite Rmult_assoc, Rinv_l, Rmult_1_r in HX by lra.
    assert (Nn x * wN <= 0) by nra. assert (Tt x * wT <= 0) by nra. lra.
Qed.
Lemma turn K M O : (fst O - fst K) * (fst M - fst K) + (snd O - snd K) * (snd M - snd K) = 0 -> K <> M -> Nn K <= Nn M ->
  - (Nn O - Nn K) / dist K O <= - (Nn M - Nn K) / dist K M -> Tt M <> Tt K.
Proof.
  intros Hpe Hne NM Hle E. rewrite (d_frame O K M), E in Hpe. apply dist_pos in Hne. pose proof (dist_sq K M) as DS. set (W := dist K M) in *.
  assert (DS' : W * W = (Nn M - Nn K) * (Nn M - Nn K)).
  { rewrite DS. pose proof (d_frame M K M) as Fr. rewrite E in Fr. transitivity ((fst M - fst K) * (fst M - fst K) + (snd M - snd K) * (snd M - snd K)); [ring|]. rewrite Fr. ring. }
  assert (W = Nn M - Nn K) by (apply Rsqr_inj; [lra|lra|exact DS']). assert (Z : Nn O - Nn K = 0) by nra. rewrite Z in Hle.
  replace (- 0 / dist K O) with 0 in Hle by (unfold Rdiv; ring). replace (- (Nn M - Nn K) / W) with (-1) in Hle by (rewrite <- H; field; lra). lra.
Qed.
Lemma dist_seen u v : dist (seen ref inc u) (seen ref inc v) = dist u v.
Proof. unfold dist. destruct (seen_diff u v) as [E1 E2]. now rewrite E1, E2. Qed.
Lemma normal_at j : (j < length us)%nat -> v2dot n (edge_normal us j) = edge_dist (vert us j, next_vert us j) (v2add (vert us j) n).
Proof.
  intros Hj. rewrite <- (edge_normal_dist us j). unfold v2dot, v2sub, v2add. rnum. cbn [fst snd]. ring.
Qed.
Lemma N_diff u v : Nn (seen ref inc u) - Nn (seen ref inc v) = fst n * (fst u - fst v) + snd n * (snd u - snd v).
Proof. unfold Nn, seen, v2dot, v2sub, v2add. rnum. cbn [fst snd]. ring. Qed.
Lemma seen_vertex x k : (fst (v2add x (v2opp (offset ref inc))) - fst k) = fst x - fst (seen ref inc k) /\ (snd (v2add x (v2opp (offset ref inc))) - snd k) = snd x - snd (seen ref inc k).
Proof. unfold offset, seen, v2add, v2sub, v2opp. rnum. cbn [fst snd]. split; ring. Qed.
(** every point the clipping keeps is as high as the deepest vertex, or not below the edge *)
Lemma face_depth eps x : In x (clip_face ref inc n L i vtx eps) -> s <= snd x \/ 0 <= snd x.
Proof.
  intros H. destruct (face_L ref i Hi Hp) as [HL _]. fold vs L in HL. apply get_support_ok in Hsup as Hs'. destruct Hs' as (Hk & _). pose proof d_unit as U.
  pose proof (strictly_proper us HQ) as Hpu. destruct (incident_edge n us vtx Hk Hpu U) as (Hie & Hlt & I1 & I2).
  unfold clip_face in H. fold us in H. set (ie := get_incident_edge n us vtx) in *. fold (seen ref inc (vert us ie)) in H. fold (seen ref inc (next_vert us ie)) in H.
  set (w0 := seen ref inc (vert us ie)) in *. set (w1 := seen ref inc (next_vert us ie)) in *. change (L / nofZ 2)%num with (L / 2)%R in H.
  destruct (clip_segment_to_line w0 w1 (left_orthogonal n) (L / 2)) as [|c0 [|c1 l]] eqn:Ec; try (destruct H; fail).
  apply in_flat_map in H. destruct H as (v & Hv & H). fold vs a in H. fold (Nn v) in H. rnum. destruct (Rleb (Nn v) eps); [|destruct H]. destruct H as [<-|[]]. cbn [snd].
  assert (Iv : forall j, (j < length us)%nat -> In (vert us j) us) by (intros; now apply In_vert).
  assert (N0 : s <= Nn w0) by (apply N_inc, Iv; exact Hlt). assert (N1 : s <= Nn w1) by (apply N_inc; unfold next_vert; apply Iv; apply Nat.mod_upper_bound; lia).
  destruct (clips w0 w1 (left_orthogonal n) (L / 2) v c0 c1 l ltac:(lra) Ec Hv) as [Sg|(B0 & B1 & Ev)].
  { left. apply (on_seg_affine Nn w0 w1); auto. intros; apply N_along. }
  destruct (Rle_lt_dec s 0) as [Z|Z].
  { exfalso. destruct (incident_over ref inc i sup vtx s HP HQ Hins Hi Hsup Es Z MP MQ) as (y & Hy & Hh). fold vs n L in Hy, Hh. fold us ie w0 w1 in Hy.
    apply (proj1 (half_plane_pd _ _ _)) in Hh. destruct Hy as (t & Ht & ->). rewrite pd_along in Hh. nra. }
  right. set (D0 := pd (v2opp (left_orthogonal n)) (L / 2) w0) in *. set (D1 := pd (v2opp (left_orthogonal n)) (L / 2) w1) in *.
  assert (T0 : Tt w0 = - D0) by reflexivity. assert (T1 : Tt w1 = - D1) by reflexivity.
  destruct (corner_prev us vtx HQ Hk) as (Iu & Eu & Ew & Iw & Tri). set (prev := ((vtx + (length us - 1)) mod length us)%nat) in *.
  assert (Hprev : (prev < length us)%nat) by (apply Nat.mod_upper_bound; lia). pose proof (next_of_prev us vtx Hk : next_vert us prev = _) as Np.
  set (u := vert us prev) in *. set (k := vert us vtx) in *. set (w := next_vert us vtx) in *.
  pose proof (proj1 SQ u k w Eu Ew) as Perp. destruct (corner_dist u k w Perp Tri) as [CD1 CD2].
  pose proof N_sup as NK. fold k in NK.
  assert (A1 : v2dot n (edge_normal us prev) = - (Nn (seen ref inc w) - Nn (seen ref inc k)) / dist (seen ref inc k) (seen ref inc w)).
  { rewrite (normal_at prev Hprev). fold u. rewrite Np, CD1, N_diff, dist_seen. unfold v2add. rnum. cbn [fst snd]. f_equal. lra. }
  assert (A2 : v2dot n (edge_normal us vtx) = - (Nn (seen ref inc u) - Nn (seen ref inc k)) / dist (seen ref inc k) (seen ref inc u)).
  { rewrite (normal_at vtx Hk). fold k w. rewrite CD2, N_diff, dist_seen. unfold v2add. rnum. cbn [fst snd]. f_equal. ring. }
  assert (NPv : vs <> []) by (intros Q; rewrite Q in Hi; cbn in Hi; lia).
  destruct (seen_diff u k) as [Duk1 Duk2]. destruct (seen_diff w k) as [Dwk1 Dwk2].
  destruct Hie as [Hie|Hie].
  - (* the edge that ends at the deepest vertex *)
    assert (W0 : w0 = seen ref inc u) by (unfold w0, u; now rewrite Hie). assert (W1 : w1 = seen ref inc k) by (unfold w1; now rewrite Hie, Np).
    assert (Tn : Tt (seen ref inc u) <> Tt (seen ref inc k)).
    { apply (turn _ _ (seen ref inc w)).
      - rewrite Duk1, Duk2, Dwk1, Dwk2. rewrite <- Perp. ring.
      - intros Q. pose proof (Hpu _ _ Eu) as X. apply X. apply (f_equal (fun p => dist p (seen ref inc u))) in Q. rewrite !dist_seen in Q. rewrite (proj2 (dist_zero u u) eq_refl) in Q. symmetry. now apply dist_zero.
      - rewrite NK, <- W0. exact N0.
      - rewrite <- A1, <- A2. rewrite Hie in I2. exact I2. }
    assert (NE : D0 - D1 <> 0) by (rewrite <- W0, <- W1, T0, T1 in Tn; lra).
    replace v with (along w1 w0 (1 - D0 / (D0 - D1))) by (rewrite Ev; unfold along; apply f_equal2; ring).
    rewrite W1, W0 in *. apply beyond; auto; try lra.
    + destruct (separation_exists vs (v2opp (offset ref inc)) (k, w) NPv) as (m & Hm). pose proof (MQ _ _ Ew Hm) as Lm. destruct Hm as ((y & Hy & Ey) & _). cbv beta in Ey.
      exists y. split; [exact Hy|]. rewrite CD2 in Ey. destruct (seen_vertex y k) as (X1 & X2). rewrite X1, X2 in Ey. rewrite Duk1, Duk2, dist_seen. lra.
    + rewrite T_along. rewrite T0, T1. field. exact NE.
  - assert (W0 : w0 = seen ref inc k) by (unfold w0, k; now rewrite Hie). assert (W1 : w1 = seen ref inc w) by (unfold w1, w; now rewrite Hie).
    assert (Tn : Tt (seen ref inc w) <> Tt (seen ref inc k)).
    { apply (turn _ _ (seen ref inc u)).
      - rewrite Duk1, Duk2, Dwk1, Dwk2. exact Perp.
      - intros Q. pose proof (Hpu _ _ Ew) as X. apply X. apply (f_equal (fun p => dist p (seen ref inc w))) in Q. rewrite !dist_seen in Q. rewrite (proj2 (dist_zero w w) eq_refl) in Q. now apply dist_zero.
      - rewrite NK, <- W1. exact N1.
      - rewrite <- A1, <- A2. rewrite Hie in I1. exact I1. }
    assert (NE : D0 - D1 <> 0) by (rewrite <- W0, <- W1, T0, T1 in Tn; lra).
    rewrite Ev. rewrite W1, W0 in *. apply beyond; auto; try lra.
    + destruct (separation_exists vs (v2opp (offset ref inc)) (u, k) NPv) as (m & Hm). pose proof (MQ _ _ Eu Hm) as Lm. destruct Hm as ((y & Hy & Ey) & _). cbv beta in Ey.
      exists y. split; [exact Hy|]. rewrite CD1 in Ey. destruct (seen_vertex y k) as (X1 & X2). rewrite X1, X2 in Ey. rewrite Dwk1, Dwk2, dist_seen. lra.
    + rewrite T_along. rewrite T0, T1. field. exact NE.
Qed.
End Depth.
Lemma hull_hull_depth b1 b2 eps ps b1' b2' t n p1 p2 pen : is_circle b1 = false -> is_circle b2 = false ->
  strictly_convex (b_verts b1) -> strictly_convex (b_verts b2) -> inscribed (b_verts b1) -> inscribed (b_verts b2) -> squared (b_verts b1) -> squared (b_verts b2) -> 0 <= t ->
  hull_hull b1 b2 eps = Ok (ps, b1', b2') -> overlap_at_most t b1 b2 -> In (n, p1, p2, pen) ps -> pen <= t.
Proof.
  intros C1 C2 S1 S2 I1 I2 F1 F2 Ht H Hov Hin.
  assert (N1 : (0 < length (b_verts b1))%nat) by (destruct S1 as (_ & S1 & _); lia). assert (N2 : (0 < length (b_verts b2))%nat) by (destruct S2 as (_ & S2 & _); lia).
  unfold hull_hull in H. bind_inv H as c1 E1. cbv zeta in H. rnum.
  destruct (sat_value _ _ _ _ N1 E1) as (_ & J1 & M1). destruct (Rltb_spec eps (sep_dist c1)) as [X|X1]; [inversion H; subst ps; destruct Hin|]. bind_inv H as c2 E2.
  destruct (sat_value _ _ _ _ N2 E2) as (_ & J2 & M2). rewrite verts_set_last in M2.
  assert (Off : offset b2 (set_last b1 (sep_idx c1)) = offset b2 b1) by (unfold offset; now rewrite pos_set_last). rewrite Off in M2.
  assert (Off2 : offset b2 b1 = v2opp (offset b1 b2)) by (unfold offset, v2sub, v2opp; rnum; cbn [fst snd]; apply f_equal2; ring).
  assert (Off3 : offset b1 b2 = v2opp (offset b2 b1)) by (unfold offset, v2sub, v2opp; rnum; cbn [fst snd]; apply f_equal2; ring).
  destruct (Rltb_spec eps (sep_dist c2)) as [X|X2]; [inversion H; subst ps; destruct Hin|].
  destruct M1 as [M1|M1]; [lra|]. destruct M2 as [M2|M2]; [lra|].
  destruct (test_separations_inv _ _ _ _ N1 E1) as (_ & (s1 & v1 & G1 & D1 & K1) & _).
  destruct (test_separations_inv _ _ _ _ N2 E2) as (_ & (s2 & v2 & G2 & D2 & K2) & _). rewrite verts_set_last in G2.
  destruct (Rltb_spec (sep_dist c1) (sep_dist c2)) as [X|X].
  - destruct (sep_info c2) as [[[[[pa pb] nn] v] en]|]; [|discriminate]. destruct K2 as (-> & -> & ->). inversion H; subst ps b1' b2'; clear H.
    rewrite clip_face_last, !v2opp2 in Hin. apply in_map_iff in Hin. destruct Hin as ([[q1 q2] d] & Eq & Hin). inversion Eq; subst; clear Eq.
    assert (A1 : forall e m, In e (edges (b_verts b2)) -> separation (b_verts b1) (offset b2 b1) e m -> m <= sep_dist c2) by (intros e m; apply M2).
    assert (A2 : forall e m, In e (edges (b_verts b1)) -> separation (b_verts b2) (v2opp (offset b2 b1)) e m -> m <= sep_dist c2).
    { intros e m He Hm. assert (m <= sep_dist c1); [|lra]. apply (M1 e m He). now rewrite Off3. }
    assert (L : sep_dist c2 <= d \/ 0 <= d).
    { apply (face_depth b2 b1 (sep_idx c2) v2 s2 (sep_dist c2) S2 S1 I2 F2 F1 J2 G2) with (eps := eps) (x := (p2, p1, d)); auto. rewrite D2. unfold sep_value. now rewrite pos_set_last. }
    destruct L as [L|L]; [|lra].
    destruct (Rle_lt_dec (sep_dist c2) 0) as [Z|Z]; [|lra]. pose proof (sat_depth b2 b1 (sep_dist c2) t C2 C1 S2 S1 Z A1 A2 (overlap_sym _ _ _ Hov)). lra.
  - destruct (sep_info c1) as [[[[[pa pb] nn] v] en]|]; [|discriminate]. destruct K1 as (-> & -> & ->). inversion H; subst ps b1' b2'; clear H.
    rewrite clip_face_last, !v2opp2 in Hin. apply in_map_iff in Hin. destruct Hin as ([[q1 q2] d] & Eq & Hin). inversion Eq; subst; clear Eq.
    assert (A2 : forall e m, In e (edges (b_verts b2)) -> separation (b_verts b1) (v2opp (offset b1 b2)) e m -> m <= sep_dist c1).
    { intros e m He Hm. assert (m <= sep_dist c2); [|lra]. apply (M2 e m He). now rewrite Off2. }
    assert (L : sep_dist c1 <= d \/ 0 <= d) by (apply (face_depth b1 b2 (sep_idx c1) v1 s1 (sep_dist c1) S1 S2 I1 F1 F2 J1 G1 D1 M1 A2) with (eps := eps) (x := (p1, p2, d)); auto).
    destruct L as [L|L]; [|lra].
    destruct (Rle_lt_dec (sep_dist c1) 0) as [Z|Z]; [|lra]. pose proof (sat_depth b1 b2 (sep_dist c1) t C1 C2 S1 S2 Z M1 A2 Hov). lra.
Qed.
