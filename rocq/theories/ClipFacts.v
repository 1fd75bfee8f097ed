(** Clipping and hull-hull contact points *)
From Coq Require Import List Arith ZArith Bool Reals Lra Lia Psatz.
From Verif Require Import Num Tensor Utils Bodies Forces Constraints Contacts World Spec ResFacts RBase GeoSpec BodySpec ContactSpec
     BodyFacts RigidFacts GeomFacts HandlerFacts BodyReach PlaneFacts SupportFacts SatFacts.
Import ListNotations.
Open Scope R_scope.

Definition pd (n : pt) (off : R) (x : pt) : R := v2dot n x + off.
Lemma pd_along n off a b t : pd n off (along a b t) = (1 - t) * pd n off a + t * pd n off b.
Proof. unfold pd, along, v2dot. rnum. cbn [fst snd]. ring. Qed.
Lemma half_plane_pd n off x : half_plane n off x <-> 0 <= pd n off x.
Proof. unfold half_plane, pd, v2dot. rnum. tauto. Qed.
Lemma clip_eq va vb n off : clip_segment_to_line va vb n off =
  let d0 := pd n off va in let d1 := pd n off vb in
  let cl := (if Rleb 0 d0 then [va] else []) ++ (if Rleb 0 d1 then [vb] else []) in
  if (Rltb (d0 * d1) 0 || Nat.ltb (length cl) 2)%bool then cl ++ [along va vb (d0 / (d0 - d1))] else cl.
Proof. reflexivity. Qed.
Lemma along_along a b s t u : along (along a b s) (along a b t) u = along a b ((1 - u) * s + u * t).
Proof. unfold along. cbn [fst snd]. apply f_equal2; ring. Qed.
Lemma along_l a b f t : along a (along a b f) t = along a b (t * f).
Proof. unfold along. cbn [fst snd]. apply f_equal2; ring. Qed.
Lemma along_r a b f t : along b (along a b f) t = along a b ((1 - t) + t * f).
Proof. unfold along. cbn [fst snd]. apply f_equal2; ring. Qed.
(** the four cases *)
Lemma clip_in_in va vb n off : 0 <= pd n off va -> 0 <= pd n off vb -> clip_segment_to_line va vb n off = [va; vb].
Proof.
  intros H0 H1. rewrite clip_eq. cbv zeta. rewrite (proj2 (Rleb_true _ _) H0), (proj2 (Rleb_true _ _) H1).
  replace (Rltb (pd n off va * pd n off vb) 0) with false by (symmetry; apply Rltb_false; nra). reflexivity.
Qed.
Lemma clip_in_out va vb n off : 0 <= pd n off va -> pd n off vb < 0 ->
  clip_segment_to_line va vb n off = [va; along va vb (pd n off va / (pd n off va - pd n off vb))].
Proof.
  intros H0 H1. rewrite clip_eq. cbv zeta. rewrite (proj2 (Rleb_true _ _) H0), (proj2 (Rleb_false _ _) H1). cbn [app length].
  replace (Nat.ltb 1 2) with true by reflexivity. rewrite orb_true_r. reflexivity.
Qed.
Lemma clip_out_in va vb n off : pd n off va < 0 -> 0 <= pd n off vb ->
  clip_segment_to_line va vb n off = [vb; along va vb (pd n off va / (pd n off va - pd n off vb))].
Proof.
  intros H0 H1. rewrite clip_eq. cbv zeta. rewrite (proj2 (Rleb_false _ _) H0), (proj2 (Rleb_true _ _) H1). cbn [app length].
  replace (Nat.ltb 1 2) with true by reflexivity. rewrite orb_true_r. reflexivity.
Qed.
Lemma clip_out_out va vb n off : pd n off va < 0 -> pd n off vb < 0 ->
  clip_segment_to_line va vb n off = [along va vb (pd n off va / (pd n off va - pd n off vb))].
Proof.
  intros H0 H1. rewrite clip_eq. cbv zeta. rewrite (proj2 (Rleb_false _ _) H0), (proj2 (Rleb_false _ _) H1). cbn [app length].
  replace (Nat.ltb 0 2) with true by reflexivity. rewrite orb_true_r. reflexivity.
Qed.
Lemma cross_frac d0 d1 : 0 <= d0 -> d1 < 0 -> 0 <= d0 / (d0 - d1) <= 1.
Proof.
  intros. split; [apply Rmult_le_pos; [lra|left; apply Rinv_0_lt_compat; lra]|]. apply (Rmult_le_reg_r (d0 - d1)); [lra|].
  unfold Rdiv. rewrite Rmult_assoc, Rinv_l by lra. lra.
Qed.
Lemma cross_zero n off va vb : pd n off va - pd n off vb <> 0 ->
  pd n off (along va vb (pd n off va / (pd n off va - pd n off vb))) = 0.
Proof. intros H. rewrite pd_along. field. exact H. Qed.
Lemma cross_frac' d0 d1 : d0 < 0 -> 0 <= d1 -> 0 <= d0 / (d0 - d1) <= 1.
Proof.
  intros. replace (d0 / (d0 - d1)) with (1 - d1 / (d1 - d0)) by (field; lra). pose proof (cross_frac d1 d0 ltac:(lra) ltac:(lra)). lra.
Qed.
(** two points returned: exactly the part of the segment in the half plane *)
Lemma clip_two va vb n off : (0 <= pd n off va \/ 0 <= pd n off vb) ->
  exists c0 c1, clip_segment_to_line va vb n off = [c0; c1] /\
    forall q, on_segment c0 c1 q <-> on_segment va vb q /\ half_plane n off q.
Proof.
  intros H. destruct (Rle_lt_dec 0 (pd n off va)) as [L0|L0], (Rle_lt_dec 0 (pd n off vb)) as [L1|L1].
  - exists va, vb. split; [now apply clip_in_in|]. intros q. split; [|tauto]. intros (t & Ht & ->). split; [exists t; auto|].
    apply half_plane_pd. rewrite pd_along. nra.
  - rewrite clip_in_out by auto. set (d0 := pd n off va) in *. set (d1 := pd n off vb) in *. set (f := d0 / (d0 - d1)).
    pose proof (cross_frac d0 d1 L0 L1) as F. fold f in F. assert (E : f * (d0 - d1) = d0) by (unfold f; field; lra).
    eexists. eexists. split; [reflexivity|]. intros q. split.
    + intros (t & Ht & ->). rewrite along_l. split; [eexists; split; [|reflexivity]; nra|].
      apply half_plane_pd. rewrite pd_along. fold d0 d1. nra.
    + intros [(t & Ht & ->) Hp]. apply (proj1 (half_plane_pd _ _ _)) in Hp. rewrite pd_along in Hp. fold d0 d1 in Hp.
      assert (Lt : t <= f). { apply (Rmult_le_reg_r (d0 - d1)); [lra|]. lra. }
      destruct (Req_dec f 0) as [Ef|Ef].
      * exists 0. split; [lra|]. assert (t = 0) by lra. subst t. now rewrite !along_0.
      * exists (t / f). split.
        -- split; [apply Rmult_le_pos; [lra|left; apply Rinv_0_lt_compat; lra]|]. apply (Rmult_le_reg_r f); [lra|]. unfold Rdiv. rewrite Rmult_assoc, Rinv_l by lra. lra.
        -- rewrite along_l. f_equal. field. exact Ef.
  - rewrite clip_out_in by auto. set (d0 := pd n off va) in *. set (d1 := pd n off vb) in *. set (f := d0 / (d0 - d1)).
    pose proof (cross_frac' d0 d1 L0 L1) as F. fold f in F. assert (E : f * (d0 - d1) = d0) by (unfold f; field; lra).
    eexists. eexists. split; [reflexivity|]. intros q. split.
    + intros (t & Ht & ->). rewrite along_r. split; [eexists; split; [|reflexivity]; nra|].
      apply half_plane_pd. rewrite pd_along. fold d0 d1. nra.
    + intros [(t & Ht & ->) Hp]. apply (proj1 (half_plane_pd _ _ _)) in Hp. rewrite pd_along in Hp. fold d0 d1 in Hp.
      assert (Lt : f <= t). { apply (Rmult_le_reg_r (d1 - d0)); [lra|]. lra. }
      destruct (Req_dec f 1) as [Ef|Ef].
      * exists 0. split; [lra|]. assert (t = 1) by lra. subst t. now rewrite !along_1, along_0.
      * exists ((1 - t) / (1 - f)). split.
        -- split; [apply Rmult_le_pos; [lra|left; apply Rinv_0_lt_compat; lra]|]. apply (Rmult_le_reg_r (1 - f)); [lra|]. unfold Rdiv. rewrite Rmult_assoc, Rinv_l by lra. lra.
        -- rewrite along_r. f_equal. field. lra.
  - lra.
Qed.
Lemma segment_meets va vb n off : (exists q, on_segment va vb q /\ half_plane n off q) <-> 0 <= pd n off va \/ 0 <= pd n off vb.
Proof.
  split.
  - intros (q & (t & Ht & ->) & Hp). apply (proj1 (half_plane_pd _ _ _)) in Hp. rewrite pd_along in Hp.
    destruct (Rle_lt_dec 0 (pd n off va)); [left; auto|]. destruct (Rle_lt_dec 0 (pd n off vb)); [right; auto|]. nra.
  - intros [H|H]; [exists va|exists vb]; (split; [|now apply half_plane_pd]).
    + exists 0. split; [lra|]. now rewrite along_0.
    + exists 1. split; [lra|]. now rewrite along_1.
Qed.
(** outside: one point, extrapolated onto the line *)
Lemma clip_one va vb n off : pd n off va < 0 -> pd n off vb < 0 -> pd n off va <> pd n off vb ->
  exists c t, clip_segment_to_line va vb n off = [c] /\ c = along va vb t /\ ~ (0 <= t <= 1) /\ pd n off c = 0.
Proof.
  intros H0 H1 Hne. rewrite clip_out_out by auto. set (d0 := pd n off va) in *. set (d1 := pd n off vb) in *. set (f := d0 / (d0 - d1)).
  assert (E : f * (d0 - d1) = d0) by (unfold f; field; lra).
  exists (along va vb f), f. split; [reflexivity|]. split; [reflexivity|]. split.
  - intros F. nra.
  - unfold f, d0, d1. apply cross_zero. fold d0 d1. lra.
Qed.
(** all points returned are on the line through the segment *)
Lemma clip_on_line va vb n off c : In c (clip_segment_to_line va vb n off) -> exists t, c = along va vb t.
Proof.
  rewrite clip_eq. cbv zeta. intros H.
  assert (A : forall l1 l2 : list pt, (forall x, In x l1 -> exists t, x = along va vb t) -> (forall x, In x l2 -> exists t, x = along va vb t) ->
     forall x, In x (l1 ++ l2) -> exists t, x = along va vb t).
  { intros l1 l2 P1 P2 x Hx. apply in_app_or in Hx. destruct Hx; auto. }
  assert (B : forall x, In x ((if Rleb 0 (pd n off va) then [va] else []) ++ (if Rleb 0 (pd n off vb) then [vb] else [])) -> exists t, x = along va vb t).
  { apply A; intros x Hx; [destruct (Rleb 0 (pd n off va))|destruct (Rleb 0 (pd n off vb))]; try (destruct Hx; fail); (destruct Hx as [<-|Hx]; [|destruct Hx]); [exists 0|exists 1]; now rewrite ?along_0, ?along_1. }
  destruct (_ || _)%bool; [|auto]. eapply A; [exact B| |exact H]. intros x [<-|[]]. eauto.
Qed.

(** *** incident edges *)
Lemma unit_dot_bound n m : unit_vec n -> unit_vec m -> -1 <= v2dot n m <= 1.
Proof.
  unfold unit_vec, v2dot. rnum. destruct n as [a b], m as [c d]. cbn. intros H1 H2.
  pose proof (sumsq (a - c) (b - d)). pose proof (sumsq (a + c) (b + d)). lra.
Qed.
Lemma edge_normal_unit vs i : (i < length vs)%nat -> proper_edges vs -> unit_vec (edge_normal vs i).
Proof.
  intros Hi Hp. pose proof (Hp _ _ (edge_at_In vs i Hi)) as Hne.
  unfold edge_normal. assert (E : v2norm (edge_vec vs i) = v2norm (left_orthogonal (edge_vec vs i))).
  { unfold v2norm. f_equal. unfold v2dot, left_orthogonal. rnum. cbn [fst snd]. ring. }
  rewrite E. apply unit_div. intros C. apply Hne. unfold left_orthogonal, edge_vec, v2sub in C. rnum. cbn [fst snd] in C.
  destruct (vert vs i) as [a b], (next_vert vs i) as [c d]. cbn [fst snd] in *. inversion C. apply f_equal2; lra.
Qed.
Lemma big_10 : 1 < 10 ^ 10.
Proof. cbn [pow]. lra. Qed.
Lemma incident_edge n vs k : (k < length vs)%nat -> proper_edges vs -> unit_vec n ->
  let prev := ((k + (length vs - 1)) mod length vs)%nat in
  let i := get_incident_edge n vs k in
  (i = prev \/ i = k) /\ (i < length vs)%nat /\
  v2dot n (edge_normal vs i) <= v2dot n (edge_normal vs prev) /\ v2dot n (edge_normal vs i) <= v2dot n (edge_normal vs k).
Proof.
  intros Hk Hp Hu prev. cbv zeta. assert (Hprev : (prev < length vs)%nat) by (apply Nat.mod_upper_bound; lia).
  pose proof (unit_dot_bound _ _ Hu (edge_normal_unit vs prev Hprev Hp)) as B1. pose proof (unit_dot_bound _ _ Hu (edge_normal_unit vs k Hk Hp)) as B2.
  unfold get_incident_edge. fold prev. cbn [fold_left]. rnum. change (Rcst C_1e10) with (10 ^ 10)%R. pose proof big_10.
  replace (Rltb (v2dot n (edge_normal vs prev)) (10 ^ 10)) with true by (symmetry; apply Rltb_true; lra).
  destruct (Rltb_spec (v2dot n (edge_normal vs k)) (v2dot n (edge_normal vs prev))) as [L|L]; cbn [snd].
  - split; [right; reflexivity|]. split; [exact Hk|]. split; lra.
  - split; [left; reflexivity|]. split; [exact Hprev|]. split; lra.
Qed.

Lemma det2_frame n u v : unit_vec n -> det2 u v = v2dot n u * det2 n v - det2 n u * v2dot n v.
Proof.
  unfold unit_vec, det2, v2dot. rnum. intros H.
  transitivity ((fst n * fst n + snd n * snd n) * (fst u * snd v - snd u * fst v)); [rewrite H; ring|ring].
Qed.
(** if all points lie on one line the area vanishes *)
Lemma flat_area vs (o n : pt) : (forall v, In v vs -> v2dot n (v2sub v o) = 0) -> unit_vec n -> area vs = 0.
Proof.
  intros H Hu. rewrite (area_fan vs o). transitivity (esum (fun _ _ => 0) vs).
  - apply esum_ext. intros a b Hab. apply edges_In_l in Hab. destruct Hab as [Ha Hb].
    unfold tri2. rewrite (det2_frame n _ _ Hu). pose proof (H a Ha) as Ea. pose proof (H b Hb) as Eb.
    unfold v2sub in Ea, Eb. rnum. rewrite Ea, Eb. lra.
  - unfold esum. generalize (edges vs). induction l; cbn [map]; [reflexivity|]. rewrite Rsum_cons, IHl. ring.
Qed.
Lemma next_of_prev (vs : list pt) k : (k < length vs)%nat -> next_vert vs ((k + (length vs - 1)) mod length vs) = vert vs k.
Proof.
  intros H. unfold next_vert. f_equal. rewrite Nat.add_mod_idemp_l by lia.
  replace (k + (length vs - 1) + 1)%nat with (k + 1 * length vs)%nat by lia. rewrite Nat.mod_add by lia. now apply Nat.mod_small.
Qed.
(** at the vertex extreme in direction -n, one of the two edges faces -n *)
Lemma facing_edge vs n k : convex vs -> proper_edges vs -> 0 < area vs -> unit_vec n -> (k < length vs)%nat ->
  (forall v, In v vs -> v2dot n (vert vs k) <= v2dot n v) ->
  v2dot n (edge_normal vs ((k + (length vs - 1)) mod length vs)) < 0 \/ v2dot n (edge_normal vs k) < 0.
Proof.
  intros Hc Hp Ha Hu Hk Hmin. set (m := ((k + (length vs - 1)) mod length vs)%nat).
  assert (Hm : (m < length vs)%nat) by (apply Nat.mod_upper_bound; lia).
  destruct (Rlt_le_dec (v2dot n (edge_normal vs m)) 0) as [L1|L1]; [left; exact L1|].
  destruct (Rlt_le_dec (v2dot n (edge_normal vs k)) 0) as [L2|L2]; [right; exact L2|exfalso].
  pose proof (edge_at_In vs m Hm) as E1. pose proof (edge_at_In vs k Hk) as E2. unfold edge_at in E1, E2.
  pose proof (next_of_prev vs k Hk) as Enext. fold m in Enext. rewrite Enext in E1.
  assert (D : forall i, (i < length vs)%nat -> 0 <= v2dot n (edge_normal vs i) -> 0 <= det2 n (v2sub (next_vert vs i) (vert vs i))).
  { intros i Hi L. pose proof (Hp _ _ (edge_at_In vs i Hi)) as Hne. apply dist_pos in Hne.
    unfold edge_normal, edge_vec in L. rewrite v2norm_sub, dist_sym in L.
    replace (v2dot n (v2div (left_orthogonal (v2sub (next_vert vs i) (vert vs i))) (dist (vert vs i) (next_vert vs i))))
      with (det2 n (v2sub (next_vert vs i) (vert vs i)) / dist (vert vs i) (next_vert vs i)) in L
      by (unfold v2dot, v2div, left_orthogonal, det2; rnum; cbn [fst snd]; field; lra).
    apply (Rmult_le_reg_r (/ dist (vert vs i) (next_vert vs i))); [now apply Rinv_0_lt_compat|]. rewrite Rmult_0_l. exact L. }
  apply D in L1; [|exact Hm]. apply D in L2; [|exact Hk]. rewrite Enext in L1.
  set (a := vert vs m) in *. set (b := vert vs k) in *. set (c := next_vert vs k) in *.
  assert (Ia : In a vs) by (now apply In_vert). assert (Ic : In c vs) by (apply (edges_In_l _ _ _ E2)). assert (Ib : In b vs) by (now apply In_vert).
  pose proof (Hp _ _ E1) as N1. pose proof (Hp _ _ E2) as N2.
  assert (T : forall p q v : pt, tri2 p q v = det2 (v2sub q p) (v2sub v p)) by reflexivity.
  pose proof (Hc _ _ E1 c Ic) as K. rewrite T, (det2_frame n _ _ Hu) in K.
  assert (X1 : v2dot n (v2sub b a) <= 0). { pose proof (Hmin a Ia). unfold v2dot, v2sub in *. rnum. cbn [fst snd]. lra. }
  assert (X2 : 0 <= v2dot n (v2sub c b)). { pose proof (Hmin c Ic). unfold v2dot, v2sub in *. rnum. cbn [fst snd]. lra. }
  assert (S1 : v2dot n (v2sub c a) = v2dot n (v2sub c b) + v2dot n (v2sub b a)) by (unfold v2dot, v2sub; rnum; cbn [fst snd]; ring).
  assert (S2 : det2 n (v2sub c a) = det2 n (v2sub c b) + det2 n (v2sub b a)) by (unfold det2, v2sub; rnum; cbn [fst snd]; ring).
  rewrite S1, S2 in K.
  set (x1 := v2dot n (v2sub b a)) in *. set (y1 := det2 n (v2sub b a)) in *. set (x2 := v2dot n (v2sub c b)) in *. set (y2 := det2 n (v2sub c b)) in *.
  assert (Z1 : x1 * y2 = 0) by nra. assert (Z2 : y1 * x2 = 0) by nra.
  assert (NZ : forall u : pt, v2dot n u = 0 -> det2 n u = 0 -> fst u = 0 /\ snd u = 0).
  { intros u H1 H2. unfold unit_vec, v2dot, det2 in *. rnum.
    assert (fst u = fst n * (fst n * fst u + snd n * snd u) - snd n * (fst n * snd u - snd n * fst u)) by (transitivity ((fst n * fst n + snd n * snd n) * fst u); [rewrite Hu; ring|ring]).
    assert (snd u = snd n * (fst n * fst u + snd n * snd u) + fst n * (fst n * snd u - snd n * fst u)) by (transitivity ((fst n * fst n + snd n * snd n) * snd u); [rewrite Hu; ring|ring]).
    rewrite H1, H2 in *. lra. }
  assert (P2 : x2 <> 0 \/ y2 <> 0).
  { destruct (Req_dec x2 0) as [A|A]; [|left; exact A]. destruct (Req_dec y2 0) as [B|B]; [|right; exact B]. exfalso.
    destruct (NZ _ A B) as [U1 U2]. apply N2. unfold v2sub in U1, U2. rnum. cbn [fst snd] in U1, U2.
    destruct b as [b1 b2], c as [c1 c2]. cbn [fst snd] in *. apply f_equal2; lra. }
  assert (P1 : x1 <> 0 \/ y1 <> 0).
  { destruct (Req_dec x1 0) as [A|A]; [|left; exact A]. destruct (Req_dec y1 0) as [B|B]; [|right; exact B]. exfalso.
    destruct (NZ _ A B) as [U1 U2]. apply N1. unfold v2sub in U1, U2. rnum. cbn [fst snd] in U1, U2.
    destruct b as [b1 b2], a as [a1 a2]. cbn [fst snd] in *. apply f_equal2; lra. }
  assert (G : forall v, In v vs -> 0 <= x2 * det2 n (v2sub v b) - y2 * v2dot n (v2sub v b)).
  { intros v Hv. pose proof (Hc _ _ E2 v Hv) as Q. rewrite T, (det2_frame n _ _ Hu) in Q. exact Q. }
  assert (G1 : forall v, In v vs -> 0 <= x1 * det2 n (v2sub v a) - y1 * v2dot n (v2sub v a)).
  { intros v Hv. pose proof (Hc _ _ E1 v Hv) as Q. rewrite T, (det2_frame n _ _ Hu) in Q. exact Q. }
  assert (M : forall v, In v vs -> 0 <= v2dot n (v2sub v b)).
  { intros v Hv. pose proof (Hmin v Hv). unfold v2dot, v2sub in *. rnum. cbn [fst snd]. lra. }
  destruct (Req_dec y2 0) as [Y|Y].
  - (* spike: both edges along n *)
    assert (x2 <> 0) by (destruct P2; [auto|lra]). assert (y1 = 0) by nra. assert (x1 <> 0) by (destruct P1; [auto|lra]).
    assert (HN : unit_vec (- snd n, fst n)) by (unfold unit_vec in *; cbn; lra).
    assert (area vs = 0); [|lra]. apply (flat_area vs b (- snd n, fst n)); [|exact HN].
    intros v Hv. pose proof (G v Hv) as Q1. pose proof (G1 v Hv) as Q2. rewrite Y in Q1. rewrite H0 in Q2.
    assert (det2 n (v2sub v a) = det2 n (v2sub v b) + y1) by (unfold y1, det2, v2sub; rnum; cbn [fst snd]; ring).
    assert (det2 n (v2sub v b) = 0) by nra.
    unfold v2dot, det2 in *. rnum. cbn [fst snd]. lra.
  - assert (x1 = 0) by nra. assert (y1 <> 0) by (destruct P1; [lra|auto]). assert (x2 = 0) by nra.
    assert (area vs = 0); [|lra]. apply (flat_area vs b n); [|exact Hu].
    intros v Hv. pose proof (G v Hv) as Q1. pose proof (M v Hv). rewrite H1 in Q1. nra.
Qed.

(** *** the clipped face *)
(** [x] is at parameter within the slab of the edge a b: |e . x| <= |e|^2 / 2 *)
Lemma clip_face_pts ref inc n en ri iv eps ptr pti d :
  In (ptr, pti, d) (clip_face ref inc n en ri iv eps) ->
  pti = v2sub (v2add ptr (b_pos ref)) (b_pos inc) /\ d <= eps /\
  exists v, d = v2dot n (v2sub v (vert (b_verts ref) ri)) /\ ptr = v2add v (v2scale (- d) n).
Proof.
  unfold clip_face. intros H.
  match type of H with In _ (match ?c with _ => _ end) => destruct c as [|c0 [|c1 l]] end; try (destruct H; fail).
  apply in_flat_map in H. destruct H as (v & Hv & H). rnum.
  destruct (Rleb_spec (v2dot n (v2sub v (vert (b_verts ref) ri))) eps) as [L|L]; [|destruct H].
  destruct H as [H|[]]. inversion H; subst. split; [reflexivity|]. split; [exact L|]. exists v. split; reflexivity.
Qed.
(** both clips keep a point of the incident line within the slab, provided that the incident edge is not perpendicular to the reference edge *)
Lemma pd_opp n off x : pd (v2opp n) off x = 2 * off - pd n off x.
Proof. unfold pd, v2dot, v2opp. rnum. cbn [fst snd]. ring. Qed.
Lemma clip_twice w0 w1 n half v c0 c1 l : 0 < half -> pd n half w0 <> pd n half w1 ->
  clip_segment_to_line w0 w1 n half = c0 :: c1 :: l -> In v (clip_segment_to_line c0 c1 (v2opp n) half) ->
  0 <= pd n half v <= 2 * half.
Proof.
  intros Hh Hne E Hv.
  assert (Hc : 0 <= pd n half c0 /\ 0 <= pd n half c1 /\ (pd n half c0 <> pd n half c1 \/ pd n half c1 = 0)).
  { destruct (Rle_lt_dec 0 (pd n half w0)) as [L0|L0], (Rle_lt_dec 0 (pd n half w1)) as [L1|L1].
    - rewrite clip_in_in in E by auto. inversion E; subst. auto.
    - rewrite clip_in_out in E by auto. inversion E; subst. rewrite cross_zero by lra. split; [auto|]. split; [lra|]. now right.
    - rewrite clip_out_in in E by auto. inversion E; subst. rewrite cross_zero by lra. split; [auto|]. split; [lra|]. now right.
    - rewrite clip_out_out in E by auto. discriminate. }
  destruct Hc as (P0 & P1 & D). clear E Hne w0 w1 l.
  assert (B : forall t, 0 <= t <= 1 -> 0 <= pd n half (along c0 c1 t)) by (intros t Ht; rewrite pd_along; nra).
  assert (U : forall x, 0 <= pd (v2opp n) half x -> pd n half x <= 2 * half) by (intros x; rewrite pd_opp; lra).
  destruct (Rle_lt_dec 0 (pd (v2opp n) half c0)) as [L0|L0], (Rle_lt_dec 0 (pd (v2opp n) half c1)) as [L1|L1].
  - rewrite clip_in_in in Hv by auto. destruct Hv as [<-|[<-|[]]]; auto.
  - rewrite clip_in_out in Hv by auto. destruct Hv as [<-|[<-|[]]]; auto. split; [apply B; now apply cross_frac|].
    apply U. rewrite cross_zero by lra. lra.
  - rewrite clip_out_in in Hv by auto. destruct Hv as [<-|[<-|[]]]; auto. split; [apply B; now apply cross_frac'|].
    apply U. rewrite cross_zero by lra. lra.
  - rewrite clip_out_out in Hv by auto. destruct Hv as [<-|[]].
    assert (pd (v2opp n) half c0 - pd (v2opp n) half c1 <> 0).
    { rewrite !pd_opp in *. destruct D as [D|D]; lra. }
    pose proof (cross_zero _ _ _ _ H) as Z. rewrite pd_opp in Z. lra.
Qed.

Section Faces.
Variables (ref inc : body R) (i vtx : nat) (sup : pt) (eps : R).
Let vs := b_verts ref.
Let n := edge_normal vs i.
Let L := v2norm (edge_vec vs i).
Let a := vert vs i.
Let c := next_vert vs i.
Hypothesis Hi : (i < length vs)%nat.
Hypothesis Hp : proper_edges vs.
Lemma face_L : 0 < L /\ L = dist a c.
Proof.
  pose proof (Hp _ _ (edge_at_In vs i Hi)) as Hne. apply dist_pos in Hne. unfold L, edge_vec. rewrite v2norm_sub, dist_sym.
  split; [exact Hne|reflexivity].
Qed.
Lemma face_normal : n = outward a c.
Proof.
  destruct face_L as [_ E]. unfold n, edge_normal. fold L. rewrite E. unfold edge_vec. fold a c. unfold outward, v2div, left_orthogonal, v2sub. rnum. cbn [fst snd]. reflexivity.
Qed.
(** the offset of the foot of v on the edge, in units of the edge *)
Definition foot (v : pt) : R := ((fst c - fst a) * (fst v - fst a) + (snd c - snd a) * (snd v - snd a)) / (L * L).
Lemma face_foot v : v2add v (v2scale (- v2dot n (v2sub v a)) n) = along a c (foot v).
Proof.
  destruct face_L as [HL E]. rewrite face_normal. pose proof (dist_sq a c) as DS. rewrite <- E in DS.
  unfold foot, outward, along. rewrite <- E. unfold v2add, v2scale, v2dot, v2sub. rnum. cbn [fst snd].
  set (ex := fst c - fst a). set (ey := snd c - snd a).
  assert (Q : L * L = ex * ex + ey * ey) by (rewrite DS; unfold ex, ey; ring).
  set (x := fst v - fst a). set (y := snd v - snd a).
  replace (fst v) with (fst a + x) by (unfold x; ring). replace (snd v) with (snd a + y) by (unfold y; ring).
  apply f_equal2.
  - apply (Rmult_eq_reg_r (L * L)); [|nra]. transitivity (fst a * (L * L) + x * (L * L) - (x * ey - y * ex) * ey); [field; lra|].
    transitivity (fst a * (L * L) + (ex * x + ey * y) * ex); [rewrite Q; ring|field; lra].
  - apply (Rmult_eq_reg_r (L * L)); [|nra]. transitivity (snd a * (L * L) + y * (L * L) + (x * ey - y * ex) * ex); [field; lra|].
    transitivity (snd a * (L * L) + (ex * x + ey * y) * ey); [rewrite Q; ring|field; lra].
Qed.
Lemma face_slab v : pd (left_orthogonal n) (L / 2) v = L / 2 - ((fst c - fst a) * fst v + (snd c - snd a) * snd v) / L.
Proof.
  destruct face_L as [HL E]. rewrite face_normal. unfold outward. rewrite <- E. unfold pd, v2dot, left_orthogonal. rnum. cbn [fst snd]. field. lra.
Qed.
Hypothesis Hsup : get_support (b_verts inc) (v2opp n) = Ok (sup, vtx).
Hypothesis Hins : inscribed vs.
Hypothesis Hconv : convex (b_verts inc).
Hypothesis Hpi : proper_edges (b_verts inc).
Hypothesis Harea : 0 < area (b_verts inc).
Lemma face_within ptr pti d : In (ptr, pti, d) (clip_face ref inc n L i vtx eps) -> on_segment a c ptr.
Proof.
  destruct face_L as [HL E]. intros H.
  unfold clip_face in H. set (ie := get_incident_edge n (b_verts inc) vtx) in *.
  set (w0 := v2sub (v2add (vert (b_verts inc) ie) (b_pos inc)) (b_pos ref)) in *.
  set (w1 := v2sub (v2add (next_vert (b_verts inc) ie) (b_pos inc)) (b_pos ref)) in *.
  change (L / nofZ 2)%num with (L / 2)%R in H.
  destruct (clip_segment_to_line w0 w1 (left_orthogonal n) (L / 2)) as [|c0 [|c1 l]] eqn:Ec; try (destruct H; fail).
  apply in_flat_map in H. destruct H as (v & Hv & H). rnum. fold vs a in H.
  destruct (Rleb_spec (v2dot n (v2sub v a)) eps) as [Le|Le]; [|destruct H]. destruct H as [H|[]]. inversion H; subst d ptr; clear H.
  rewrite face_foot.
  assert (Hn : unit_vec n) by (apply edge_normal_unit; auto).
  apply get_support_ok in Hsup. destruct Hsup as (Hk & Es & _ & Hmin & _).
  destruct (incident_edge n (b_verts inc) vtx Hk Hpi Hn) as (Hie & Hlt & I1 & I2). fold ie in Hie, Hlt, I1, I2.
  assert (F : v2dot n (edge_normal (b_verts inc) ie) < 0).
  { destruct (facing_edge (b_verts inc) n vtx Hconv Hpi Harea Hn Hk) as [G|G]; [|lra|lra].
    intros v' Hv'. pose proof (Hmin v' Hv') as M. rewrite Es in M. unfold v2dot, v2opp in *. rnum. cbn [fst snd] in *. lra. }
  assert (Hne : pd (left_orthogonal n) (L / 2) w0 <> pd (left_orthogonal n) (L / 2) w1).
  { intros C. assert (Z : v2dot (left_orthogonal n) (v2sub w1 w0) = 0).
    { unfold pd in C. unfold v2dot, v2sub in *. rnum. cbn [fst snd] in *. lra. }
    assert (Z2 : v2dot n (left_orthogonal (edge_vec (b_verts inc) ie)) = 0).
    { transitivity (- v2dot (left_orthogonal n) (v2sub w1 w0)); [|lra].
      unfold w0, w1, edge_vec, v2dot, left_orthogonal, v2sub, v2add. rnum. cbn [fst snd]. ring. }
    unfold edge_normal in F. set (M := v2norm (edge_vec (b_verts inc) ie)) in F.
    replace (v2dot n (v2div (left_orthogonal (edge_vec (b_verts inc) ie)) M)) with (v2dot n (left_orthogonal (edge_vec (b_verts inc) ie)) / M) in F
      by (unfold v2dot, v2div; rnum; cbn [fst snd]; unfold Rdiv; ring).
    rewrite Z2 in F. unfold Rdiv in F. rewrite Rmult_0_l in F. lra. }
  pose proof (clip_twice w0 w1 (left_orthogonal n) (L / 2) v c0 c1 l ltac:(lra) Hne Ec Hv) as S. rewrite face_slab in S.
  pose proof (dist_sq a c) as DS. rewrite <- E in DS.
  pose proof (Hins _ _ (edge_at_In vs i Hi)) as Heq. fold a c in Heq.
  exists (foot v). split; [|reflexivity]. unfold foot.
  set (ex := fst c - fst a) in *. set (ey := snd c - snd a) in *.
  assert (Q : L * L = ex * ex + ey * ey) by (rewrite DS; unfold ex, ey; ring).
  assert (EA : ex * fst a + ey * snd a = - (L * L) / 2).
  { rewrite Q. unfold ex, ey. lra. }
  set (g := ex * fst v + ey * snd v) in *.
  assert (G : ex * (fst v - fst a) + ey * (snd v - snd a) = g + L * L / 2) by (unfold g; lra).
  rewrite G.
  assert (S1 : g / L <= L / 2) by lra. assert (S2 : - (L / 2) <= g / L) by lra.
  assert (T1 : g <= L * L / 2). { apply (Rmult_le_compat_r L) in S1; [|lra]. unfold Rdiv in *. rewrite Rmult_assoc, Rinv_l, Rmult_1_r in S1 by lra. lra. }
  assert (T2 : - (L * L / 2) <= g). { apply (Rmult_le_compat_r L) in S2; [|lra]. unfold Rdiv in *. rewrite Rmult_assoc, Rinv_l, Rmult_1_r in S2 by lra. lra. }
  assert (LL : 0 < L * L) by nra. split.
  - apply Rmult_le_pos; [lra|left; now apply Rinv_0_lt_compat].
  - apply (Rmult_le_reg_r (L * L)); [lra|]. unfold Rdiv. rewrite Rmult_assoc, Rinv_l, Rmult_1_r by lra. lra.
Qed.
End Faces.
