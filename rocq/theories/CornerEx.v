(** Two squares, corner to corner (the finding of C101) *)
From Coq Require Import List Arith ZArith Lia Bool Reals Lra.
From Verif Require Import Num Tensor Utils Bodies Forces Constraints Contacts World
     Spec GeoSpec BodySpec ContactSpec EngineSpec ResFacts RBase HandlerFacts LinAlg LayoutFacts EngineFacts LayoutFacts GeomFacts BodyFacts RigidFacts FloatEx RealEx ContactEx SlopeEx.
Import ListNotations.
Open Scope R_scope.

Definition sq0 last : body R := box 0 0 0 2 2 0 0 last [].
(** the second square is to the right, at height [y] *)
Definition sq1 y last : body R := box 1 (209 / 100) y 2 2 0 0 last [].
Lemma sq_sep01 : test_separations (sq0 0) (sq1 (- (205 / 100)) 0) (1 / 10) = Ok (mkSep (9 / 100) 3 (Some ((1, - (305 / 100)), (- (109 / 100), -1), (-1, 0), 2%nat, 2))).
Proof.
  unfold test_separations. change (b_last (sq0 0)) with 0%nat. change (length (b_verts (sq0 0))) with 4%nat. cbn [seq fold_left].
  assert (St : forall st k, (k < 4)%nat -> st_ret st = None -> _) by
    (intros st k Hk Hr; exact (box_step 2 2 2 2 (sq0 0) (sq1 (- (205 / 100)) 0) (1/10) st k 0 0 (209 / 100) (- (205 / 100)) ltac:(lra) ltac:(lra) ltac:(lra) ltac:(lra) Hk Hr eq_refl eq_refl eq_refl eq_refl)).
  cbv zeta in St. rnum. unfold Rcst.
  do 4 (rewrite St; [|lia|reflexivity]; cbn [nth st_dist]; decide_all).
  cbn [bind st_ret st_best st_dist]. unfold normals, v2sub, v2add, v2scale, v2opp. cbn. rnum.
  repeat (f_equal; try field).
Qed.
Lemma sq_sep10 : test_separations (sq1 (- (205 / 100)) 0) (sq0 3) (1 / 10) = Ok (mkSep (9 / 100) 1 (Some ((-1, 105 / 100), (109 / 100, -1), (1, 0), 3%nat, 2))).
Proof.
  unfold test_separations. change (b_last (sq1 (- (205 / 100)) 0)) with 0%nat. change (length (b_verts (sq1 (- (205 / 100)) 0))) with 4%nat. cbn [seq fold_left].
  assert (St : forall st k, (k < 4)%nat -> st_ret st = None -> _) by
    (intros st k Hk Hr; exact (box_step 2 2 2 2 (sq1 (- (205 / 100)) 0) (sq0 3) (1/10) st k (209 / 100) (- (205 / 100)) 0 0 ltac:(lra) ltac:(lra) ltac:(lra) ltac:(lra) Hk Hr eq_refl eq_refl eq_refl eq_refl)).
  cbv zeta in St. rnum. unfold Rcst.
  do 4 (rewrite St; [|lia|reflexivity]; cbn [nth st_dist]; decide_all).
  cbn [bind st_ret st_best st_dist]. unfold normals, v2sub, v2add, v2scale, v2opp. cbn. rnum.
  repeat (f_equal; try field).
Qed.
Lemma sq_touch : hull_hull (sq0 0) (sq1 (- (205 / 100)) 0) (1/10) = Ok ([((-1, 0), (1, -1), (- (109 / 100), 105 / 100), - (9 / 100))], sq0 3, sq1 (- (205 / 100)) 1).
Proof.
  unfold hull_hull. rewrite sq_sep01. cbn [bind sep_dist sep_idx sep_info]. change (set_last (sq0 0) 3) with (sq0 3). rnum. decide_all.
  rewrite sq_sep10. cbn [bind sep_dist sep_idx sep_info]. change (set_last (sq1 (- (205 / 100)) 0) 1) with (sq1 (- (205 / 100)) 1). rnum. decide_all.
  assert (En : v2opp (-1, 0) = (1, 0)) by v2eq. rewrite En.
  unfold clip_face. change (b_verts (sq0 3)) with (corners 2 2). change (b_verts (sq1 (- (205 / 100)) 1)) with (corners 2 2).
  change (b_pos (sq0 3)) with (0, 0). change (b_pos (sq1 (- (205 / 100)) 1)) with (209 / 100, - (205 / 100)).
  assert (Ei : get_incident_edge (1, 0) (corners 2 2) 2 = 1%nat).
  { unfold get_incident_edge. change (length (corners 2 2)) with 4%nat. cbn [Nat.add Nat.sub Nat.modulo Nat.divmod fst snd fold_left].
    rewrite (proj1 (box_edge 2 2 1 ltac:(lra) ltac:(lra) ltac:(lia))). cbn [nth]. unfold v2dot. rnum. unfold Rcst. decide_all.
    rewrite (proj1 (box_edge 2 2 2 ltac:(lra) ltac:(lra) ltac:(lia))). cbn [nth]. decide_all. reflexivity. }
  rewrite Ei. cbn [corners vert next_vert nth length Nat.modulo Nat.divmod Nat.add Nat.sub fst snd].
  unfold left_orthogonal, v2sub, v2add, v2scale, v2opp, clip_segment_to_line, v2dot. cbn -[Rltb Rleb]. rnum.
  do 6 (decide_all; cbn -[Rltb Rleb]; rnum).
  repeat (f_equal; try field).
Qed.
Lemma sq_sep01' : test_separations (sq0 0) (sq1 (205 / 100) 0) (1 / 10) = Ok (mkSep (9 / 100) 3 (Some ((1, 105 / 100), (- (109 / 100), -1), (-1, 0), 2%nat, 2))).
Proof.
  unfold test_separations. change (b_last (sq0 0)) with 0%nat. change (length (b_verts (sq0 0))) with 4%nat. cbn [seq fold_left].
  assert (St : forall st k, (k < 4)%nat -> st_ret st = None -> _) by
    (intros st k Hk Hr; exact (box_step 2 2 2 2 (sq0 0) (sq1 (205 / 100) 0) (1/10) st k 0 0 (209 / 100) (205 / 100) ltac:(lra) ltac:(lra) ltac:(lra) ltac:(lra) Hk Hr eq_refl eq_refl eq_refl eq_refl)).
  cbv zeta in St. rnum. unfold Rcst.
  do 4 (rewrite St; [|lia|reflexivity]; cbn [nth st_dist]; decide_all).
  cbn [bind st_ret st_best st_dist]. unfold normals, v2sub, v2add, v2scale, v2opp. cbn. rnum.
  repeat (f_equal; try field).
Qed.
Lemma sq_sep10' : test_separations (sq1 (205 / 100) 0) (sq0 3) (1 / 10) = Ok (mkSep (9 / 100) 1 (Some ((-1, - (305 / 100)), (109 / 100, -1), (1, 0), 3%nat, 2))).
Proof.
  unfold test_separations. change (b_last (sq1 (205 / 100) 0)) with 0%nat. change (length (b_verts (sq1 (205 / 100) 0))) with 4%nat. cbn [seq fold_left].
  assert (St : forall st k, (k < 4)%nat -> st_ret st = None -> _) by
    (intros st k Hk Hr; exact (box_step 2 2 2 2 (sq1 (205 / 100) 0) (sq0 3) (1/10) st k (209 / 100) (205 / 100) 0 0 ltac:(lra) ltac:(lra) ltac:(lra) ltac:(lra) Hk Hr eq_refl eq_refl eq_refl eq_refl)).
  cbv zeta in St. rnum. unfold Rcst.
  do 4 (rewrite St; [|lia|reflexivity]; cbn [nth st_dist]; decide_all).
  cbn [bind st_ret st_best st_dist]. unfold normals, v2sub, v2add, v2scale, v2opp. cbn. rnum.
  repeat (f_equal; try field).
Qed.
Lemma sq_free : hull_hull (sq0 0) (sq1 (205 / 100) 0) (1/10) = Ok ([], sq0 3, sq1 (205 / 100) 1).
Proof.
  unfold hull_hull. rewrite sq_sep01'. cbn [bind sep_dist sep_idx sep_info]. change (set_last (sq0 0) 3) with (sq0 3). rnum. decide_all.
  rewrite sq_sep10'. cbn [bind sep_dist sep_idx sep_info]. change (set_last (sq1 (205 / 100) 0) 1) with (sq1 (205 / 100) 1). rnum. decide_all.
  assert (En : v2opp (-1, 0) = (1, 0)) by v2eq. rewrite En.
  unfold clip_face. change (b_verts (sq0 3)) with (corners 2 2). change (b_verts (sq1 (205 / 100) 1)) with (corners 2 2).
  change (b_pos (sq0 3)) with (0, 0). change (b_pos (sq1 (205 / 100) 1)) with (209 / 100, 205 / 100).
  assert (Ei : get_incident_edge (1, 0) (corners 2 2) 2 = 1%nat).
  { unfold get_incident_edge. change (length (corners 2 2)) with 4%nat. cbn [Nat.add Nat.sub Nat.modulo Nat.divmod fst snd fold_left].
    rewrite (proj1 (box_edge 2 2 1 ltac:(lra) ltac:(lra) ltac:(lia))). cbn [nth]. unfold v2dot. rnum. unfold Rcst. decide_all.
    rewrite (proj1 (box_edge 2 2 2 ltac:(lra) ltac:(lra) ltac:(lia))). cbn [nth]. decide_all. reflexivity. }
  rewrite Ei. cbn [corners vert next_vert nth length Nat.modulo Nat.divmod Nat.add Nat.sub fst snd].
  unfold left_orthogonal, v2sub, v2add, v2scale, v2opp, clip_segment_to_line, v2dot. cbn -[Rltb Rleb]. rnum.
  do 6 (decide_all; cbn -[Rltb Rleb]; rnum).
  repeat (f_equal; try field).
Qed.
(** the worlds *)
Definition corner_touch : contact R := mkContact (-1, 0) (1, -1) (- (109 / 100), 105 / 100) (- (9 / 100)) 0 1.
Lemma corner_starts y cs l0 l1 : hull_hull (sq0 0) (sq1 y 0) (1/10) = Ok (map (fun c => (c_normal c, c_p1 c, c_p2 c, c_pen c)) cs, sq0 l0, sq1 y l1) -> (cs = [] \/ cs = [corner_touch]) ->
  exists w, world_init pair_oracle (diff_handler 18 pair_oracle) [] [sq0 0; sq1 y 0] [] (1/30) (1/10) (1/100) 2 true true = Ok w /\ w_contacts w = cs /\ w_bodies w = [sq0 l0; sq1 y l1].
Proof.
  intros Hh Hc. unfold world_init. cbn [mapM bind forallb fold_left]. change (nofZ 0) with (IZR 0).
  unfold set_v. rewrite cat3_length, map_length. cbn [w_bodies length Nat.eqb Nat.mul Nat.add bind].
  unfold find_contacts. cbn [w_bodies with_state w_clk w_eps o_collide pair_oracle].
  change (all_pairs _) with [(0, 1)]%nat. cbn [fold_left].
  unfold diff_handler. cbn -[hull_hull world_M].
  match goal with |- context[hull_hull ?a ?b ?e] => change (hull_hull a b e) with (hull_hull (sq0 0) (sq1 y 0) (1/10)) end.
  rewrite Hh. destruct Hc as [-> | ->]; cbn -[world_M Rle_dec Rlt_dec Rltb Rleb]; rnum; unfold Rcst; decide_all; eexists; repeat split; reflexivity.
Qed.
Lemma corner_far y q1 q2 : Rabs y = 205 / 100 -> body_points (sq0 0) q1 -> body_points (sq1 y 0) q2 -> 1 / 10 < dist q1 q2.
Proof.
  intros Hy P1 P2. unfold body_points in *. cbn [b_kind sq0 sq1 box] in P1, P2. change (b_pos (box 0 0 0 2 2 0 0 0 [])) with ((0, 0) : pt) in P1. change (b_pos (box 1 (209 / 100) y 2 2 0 0 0 [])) with ((209 / 100, y) : pt) in P2.
  assert (B : forall q, in_hull (b_verts (sq0 0)) q -> Rabs (fst q) <= 1 /\ Rabs (snd q) <= 1).
  { intros q H. change (b_verts (sq0 0)) with (corners 2 2) in H. split; [apply (in_hull_bound fst _ _ 1 (or_introl eq_refl) H)|apply (in_hull_bound snd _ _ 1 (or_intror eq_refl) H)]; intros v Hv; apply Rabs_le; destruct Hv as [<-|[<-|[<-|[<-|[]]]]]; cbn [fst snd]; lra. }
  destruct (B _ P1) as [X1 Y1]. destruct (B _ P2) as [X2 Y2]. clear P1 P2 B. unfold v2sub in *. cbn [fst snd] in *. rnum.
  assert (A : forall u k, Rabs u <= k -> - k <= u <= k) by (intros u k H; unfold Rabs in H; destruct (Rcase_abs u); lra).
  apply A in X1, Y1, X2, Y2. unfold b_pos in *. cbn [sq0 sq1 box b_p fst snd] in *. unfold dist. set (a := fst q1 - fst q2). set (b := snd q1 - snd q2). assert (a <= - (9 / 100)) by (unfold a; lra).
  assert (E : b <= - (5 / 100) \/ 5 / 100 <= b) by (unfold b, Rabs in *; destruct (Rcase_abs y); [right|left]; lra).
  apply Rlt_le_trans with (sqrt (106 / 10000)); [|apply sqrt_le_1_alt; destruct E; nra].
  replace (1 / 10) with (sqrt (1 / 10 * (1 / 10))) by (apply sqrt_square; lra). apply sqrt_lt_1_alt. lra.
Qed.
Theorem corners_miss :
  exists b1 b2 w q,
    rect_init 0 [0; 0] (2, 2) [0; 0; 0] 1 (1/2) 0 (1/10) = Ok b1 /\ rect_init 1 [209/100; - (205/100)] (2, 2) [0; 0; 0] 1 (1/2) 0 (1/10) = Ok b2 /\
    world_init pair_oracle (diff_handler 18 pair_oracle) [] [b1; b2] [] (1/30) (1/10) (1/100) 2 true true = Ok w /\
    (forall q1 q2, body_points b1 q1 -> body_points b2 q2 -> w_eps w < dist q1 q2) /\ map c_pen (w_contacts w) = [q] /\ - w_eps w < q.
Proof.
  exists (sq0 0), (sq1 (- (205 / 100)) 0). destruct (corner_starts (- (205 / 100)) [corner_touch] 3 1 sq_touch (or_intror eq_refl)) as (w & Hw & Hc & _). exists w, (- (9 / 100)).
  assert (Ee : w_eps w = 1 / 10) by (destruct (WorldFacts.world_init_inv _ _ _ _ _ _ _ _ _ _ _ _ Hw) as (_ & -> & _); reflexivity).
  split; [apply box_init; lra|]. split; [apply box_init; lra|]. split; [exact Hw|]. rewrite Ee, Hc. split; [|split; [reflexivity|lra]].
  intros q1 q2. apply corner_far. rewrite Rabs_Ropp. apply Rabs_right. lra.
Qed.
Theorem corners_mirrored :
  exists b1 b2 w,
    rect_init 0 [0; 0] (2, 2) [0; 0; 0] 1 (1/2) 0 (1/10) = Ok b1 /\ rect_init 1 [209/100; 205/100] (2, 2) [0; 0; 0] 1 (1/2) 0 (1/10) = Ok b2 /\
    world_init pair_oracle (diff_handler 18 pair_oracle) [] [b1; b2] [] (1/30) (1/10) (1/100) 2 true true = Ok w /\ w_contacts w = [].
Proof.
  exists (sq0 0), (sq1 (205 / 100) 0). destruct (corner_starts (205 / 100) [] 3 1 sq_free (or_introl eq_refl)) as (w & Hw & Hc & _). exists w.
  split; [apply box_init; lra|]. split; [apply box_init; lra|]. split; [exact Hw|exact Hc].
Qed.
