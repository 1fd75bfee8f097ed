(** Two squares on top of each other, for C87 *)
From Coq Require Import List Arith ZArith Bool Reals Lra Lia Permutation.
From Verif Require Import Num Tensor Utils Bodies Forces Constraints Contacts World Spec ResFacts RBase GeoSpec BodySpec ContactSpec FreshSpec DetectSpec
     WorldFacts BodyFacts RigidFacts FreshFacts HandlerFacts CollideFacts DetectFacts FloatEx RealEx ContactEx.
Import ListNotations.
Open Scope R_scope.

Lemma edge_h x y z v : edge_dist ((x, y), (z, y)) v = - ((z - x) * (snd v - y)) / Rabs (x - z).
Proof. unfold edge_dist, dist, tri2, det2. cbn [fst snd]. replace ((x - z) * (x - z) + (y - y) * (y - y)) with (Rsqr (x - z)) by (unfold Rsqr; ring). rewrite sqrt_Rsqr_abs. f_equal. ring. Qed.
Lemma edge_v x y z v : edge_dist ((x, y), (x, z)) v = (z - y) * (fst v - x) / Rabs (y - z).
Proof. unfold edge_dist, dist, tri2, det2. cbn [fst snd]. replace ((x - x) * (x - x) + (y - z) * (y - z)) with (Rsqr (y - z)) by (unfold Rsqr; ring). rewrite sqrt_Rsqr_abs. f_equal. ring. Qed.
Lemma box_edges e : In e (edges (corners 2 2)) ->
  (e = ((1, 1), (-1, 1)) /\ forall v, edge_dist e v = snd v - 1) \/ (e = ((-1, 1), (-1, -1)) /\ forall v, edge_dist e v = - fst v - 1) \/
  (e = ((-1, -1), (1, -1)) /\ forall v, edge_dist e v = - snd v - 1) \/ (e = ((1, -1), (1, 1)) /\ forall v, edge_dist e v = fst v - 1).
Proof.
  unfold corners. replace (2 / 2) with 1 by field. replace (- (1)) with (-1) by ring. cbn [edges combine app]. intros [<-|[<-|[<-|[<-|[]]]]]; [left|right; left|right; right; left|right; right; right]; (split; [reflexivity|]); intros v.
  - rewrite edge_h, Rabs_pos_eq by lra. field.
  - rewrite edge_v, Rabs_pos_eq by lra. field.
  - rewrite edge_h, Rabs_left by lra. field.
  - rewrite edge_v, Rabs_left by lra. field.
Qed.
(** separations of a square moved by (dx, dy) *)
Lemma box_separation e dx dy m : In e (edges (corners 2 2)) -> separation (corners 2 2) (dx, dy) e m ->
  (e = ((1, 1), (-1, 1)) /\ m = dy - 2) \/ (e = ((-1, 1), (-1, -1)) /\ m = - dx - 2) \/ (e = ((-1, -1), (1, -1)) /\ m = - dy - 2) \/ (e = ((1, -1), (1, 1)) /\ m = dx - 2).
Proof.
  intros He ((a & Ha & Em) & Hm). unfold corners in Ha, Hm. replace (2 / 2) with 1 in * by field.
  pose proof (Hm (1, 1) ltac:(cbn; auto)) as M1. pose proof (Hm (- (1), - (1)) ltac:(cbn; auto)) as M2. cbn beta in Em, M1, M2.
  assert (Ba : (fst a = 1 \/ fst a = -1) /\ (snd a = 1 \/ snd a = -1)) by (repeat (destruct Ha as [<-|Ha]; [cbn; lra|]); destruct Ha).
  destruct (box_edges e He) as [[E F]|[[E F]|[[E F]|[E F]]]]; rewrite F in Em, M1, M2; unfold v2add in *; rnum; cbn [fst snd] in *; [left|right; left|right; right; left|right; right; right]; (split; [exact E|]); destruct Ba as [[B|B] [C|C]]; lra.
Qed.
Lemma has_separation vs d e : vs <> [] -> exists m, separation vs d e m.
Proof.
  unfold separation, is_min. induction vs as [|v vs IH]; [congruence|]. intros _. destruct vs as [|u vs].
  - exists (edge_dist e (v2add v d)). split; [exists v; cbn; auto|]. intros a [<-|[]]. lra.
  - destruct IH as (m & (a & Ha & Ea) & Hm); [discriminate|]. destruct (Rle_lt_dec m (edge_dist e (v2add v d))) as [L|L].
    + exists m. split; [exists a; split; [now right|exact Ea]|]. intros b [<-|Hb]; auto.
    + exists (edge_dist e (v2add v d)). split; [exists v; split; [now left|reflexivity]|]. intros b [<-|Hb]; [lra|]. pose proof (Hm b Hb). lra.
Qed.
Lemma boxes_one_face b1 b2 x1 y1 x2 y2 i j : plain_rect i x1 y1 2 2 b1 -> plain_rect j x2 y2 2 2 b2 -> Rabs (x2 - x1) < Rabs (y2 - y1) -> one_face b1 b2.
Proof.
  intros H1 H2 L. unfold one_face. rewrite (plain_verts _ _ _ _ _ _ H1), (plain_verts _ _ _ _ _ _ H2). unfold offset. rewrite (pr_pos _ _ _ _ _ _ H1), (pr_pos _ _ _ _ _ _ H2).
  unfold v2sub. rnum. cbn [fst snd]. set (dx := x2 - x1) in *. set (dy := y2 - y1) in *. intros e e' m He He' S S' Hmax.
  assert (T : In ((1, 1), (-1, 1)) (edges (corners 2 2)) /\ In ((-1, -1), (1, -1)) (edges (corners 2 2))).
  { unfold corners. replace (2 / 2) with 1 by field. replace (- (1)) with (-1) by ring. cbn. auto. }
  destruct T as [T1 T2]. assert (Nv : corners 2 2 <> []) by discriminate.
  destruct (has_separation (corners 2 2) (dx, dy) _ Nv : exists m, separation _ _ ((1, 1), (-1, 1)) m) as [m1 M1]. destruct (has_separation (corners 2 2) (dx, dy) _ Nv : exists m, separation _ _ ((-1, -1), (1, -1)) m) as [m2 M2].
  pose proof (Hmax _ _ T1 M1) as G1. pose proof (Hmax _ _ T2 M2) as G2.
  assert (V1 : m1 = dy - 2). { destruct (box_separation _ _ _ _ T1 M1) as [[_ E]|[[E _]|[[E _]|[E _]]]]; [exact E|inversion E; lra..]. }
  assert (V2 : m2 = - dy - 2). { destruct (box_separation _ _ _ _ T2 M2) as [[E _]|[[E _]|[[_ E]|[E _]]]]; [inversion E; lra|inversion E; lra|exact E|inversion E; lra]. }
  assert (A : Rabs dy <= m + 2) by (unfold Rabs; destruct (Rcase_abs dy); lra). assert (B : dx < m + 2 /\ - dx < m + 2) by (unfold Rabs in L at 1; destruct (Rcase_abs dx); lra).
  assert (P : 0 < Rabs dy) by (pose proof (Rabs_pos dx); lra). assert (Q : dy <> 0) by (intros ->; rewrite Rabs_R0 in P; lra).
  destruct (box_separation _ _ _ _ He S) as [[-> E]|[[-> E]|[[-> E]|[-> E]]]]; destruct (box_separation _ _ _ _ He' S') as [[-> E']|[[-> E']|[[-> E']|[-> E']]]]; try reflexivity; exfalso; try lra; apply Q; lra.
Qed.
Lemma stacked_clear b1 b2 x1 y1 x2 y2 i j : plain_rect i x1 y1 2 2 b1 -> plain_rect j x2 y2 2 2 b2 -> Rabs (x2 - x1) < Rabs (y2 - y1) -> clear_cut b1 b2.
Proof.
  intros H1 H2 L. unfold clear_cut. rewrite (plain_circle _ _ _ _ _ _ H1), (plain_circle _ _ _ _ _ _ H2). rewrite (plain_verts _ _ _ _ _ _ H1) at 1. rewrite (plain_verts _ _ _ _ _ _ H2) at 1.
  split; [discriminate|]. split; [discriminate|]. split; [eapply boxes_one_face; eauto|]. eapply boxes_one_face; eauto. rewrite (Rabs_minus_sym x1), (Rabs_minus_sym y1). exact L.
Qed.
