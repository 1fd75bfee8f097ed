(** Contact detection and motion of a scene turned about the origin *)
From Coq Require Import List Arith ZArith Bool Reals Lia Lra.
From Verif Require Import Num Tensor Utils Bodies Contacts World Spec GeoSpec BodySpec SceneSpec TurnSpec RBase ResFacts BodyFacts RigidFacts.
Import ListNotations.
Open Scope R_scope.

Definition on_res {A B} (f : A -> B) (r : res A) : res B := match r with Ok a => Ok (f a) | Err e => Err e end.
Section Spin.
Variable th : R.
Notation rt := (rotate th).
Notation sv := (map (rotate th)).
Lemma rt_add a b : v2add (rt a) (rt b) = rt (v2add a b).
Proof. unfold rotate, v2add. rnum. cbn [fst snd]. apply f_equal2; ring. Qed.
Lemma rt_sub a b : v2sub (rt a) (rt b) = rt (v2sub a b).
Proof. unfold rotate, v2sub. rnum. cbn [fst snd]. apply f_equal2; ring. Qed.
Lemma rt_scale k a : v2scale k (rt a) = rt (v2scale k a).
Proof. unfold rotate, v2scale. rnum. cbn [fst snd]. apply f_equal2; ring. Qed.
Lemma rt_opp a : v2opp (rt a) = rt (v2opp a).
Proof. unfold rotate, v2opp. rnum. cbn [fst snd]. apply f_equal2; ring. Qed.
Lemma rt_div a k : v2div (rt a) k = rt (v2div a k).
Proof. unfold rotate, v2div. rnum. unfold Rdiv. cbn [fst snd]. apply f_equal2; ring. Qed.
Lemma rt_left a : left_orthogonal (rt a) = rt (left_orthogonal a).
Proof. unfold rotate, left_orthogonal. rnum. cbn [fst snd]. apply f_equal2; ring. Qed.
Lemma rt_dot a b : v2dot (rt a) (rt b) = v2dot a b.
Proof. apply v2dot_rotate. Qed.
Lemma rt_norm a : v2norm (rt a) = v2norm a.
Proof. unfold v2norm. now rewrite rt_dot. Qed.
Lemma rt_zero : rt (0, 0) = (0, 0).
Proof. unfold rotate. cbn [fst snd]. apply f_equal2; ring. Qed.
Lemma rt_vert vs i : vert (sv vs) i = rt (vert vs i).
Proof. unfold vert. change (v2zero : v2 R) with ((0, 0) : v2 R). rewrite <- rt_zero at 1. apply map_nth. Qed.
Lemma rt_next vs i : next_vert (sv vs) i = rt (next_vert vs i).
Proof. unfold next_vert. rewrite map_length. apply rt_vert. Qed.
Lemma rt_edge vs i : edge_vec (sv vs) i = rt (edge_vec vs i).
Proof. unfold edge_vec. now rewrite rt_next, rt_vert, rt_sub. Qed.
Lemma rt_normal vs i : edge_normal (sv vs) i = rt (edge_normal vs i).
Proof. unfold edge_normal. now rewrite rt_edge, rt_left, rt_norm, rt_div. Qed.
Lemma rt_det3 a b c : det3 (rt a) (rt b) (rt c) = det3 a b c.
Proof.
  unfold det3, rotate. rnum. cbn [fst snd]. pose proof (sin2_cos2 th) as H. unfold Rsqr in H. set (s := sin th) in *. set (k := cos th) in *.
  transitivity ((s * s + k * k) * (fst a * (snd b - snd c) - fst b * (snd a - snd c) + fst c * (snd a - snd b))); [ring|rewrite H; ring].
Qed.
Lemma rt_bary2 p a b : bary2 (rt p) (rt a) (rt b) = bary2 p a b.
Proof. unfold bary2. cbv zeta. now rewrite !rt_sub, rt_norm, rt_div, !rt_dot. Qed.
Lemma rt_bary3 p a b c : bary3 (rt p) (rt a) (rt b) (rt c) = bary3 p a b c.
Proof. unfold bary3. now rewrite !rt_det3. Qed.
Lemma rt_mix u v a b : v2add (v2scale u (rt a)) (v2scale v (rt b)) = rt (v2add (v2scale u a) (v2scale v b)).
Proof. now rewrite !rt_scale, rt_add. Qed.
Definition on_fst (r : v2 R * list nat) : v2 R * list nat := (rt (fst r), snd r).
Lemma rt_closest p sx : get_closest (rt p) (sv sx) = on_res on_fst (get_closest p sx).
Proof.
  destruct sx as [|a [|b [|c [|]]]]; try reflexivity; cbn [map get_closest]; rewrite !rt_bary2.
  - destruct (bary2 p a b) as [u v]. rewrite rt_mix. destruct (_ <=? _)%num; [reflexivity|]. destruct (_ <=? _)%num; reflexivity.
  - destruct (bary2 p a b) as [u1 v1], (bary2 p b c) as [u2 v2], (bary2 p c a) as [u3 v3]. rewrite rt_bary3, !rt_mix. destruct (bary3 p a b c) as [[[x y] z]|]; cbn [bind]; [|reflexivity].
    repeat match goal with |- context [if ?c then _ else _] => destruct c; [reflexivity|] end. reflexivity.
Qed.
Lemma rt_support_from l start vs d best :
  fold_left (fun '(b, n) i => let p := vert (sv vs) i in let cur := v2dot p (rt d) in if (n <=? cur)%num then (Some (p, i), cur) else (b, n)) l
    (option_map (fun r : v2 R * nat => (rt (fst r), snd r)) best, start) =
  let r := fold_left (fun '(b, n) i => let p := vert vs i in let cur := v2dot p d in if (n <=? cur)%num then (Some (p, i), cur) else (b, n)) l (best, start) in
  (option_map (fun r => (rt (fst r), snd r)) (fst r), snd r).
Proof.
  revert start best. induction l as [|i l IH]; intros start best; [reflexivity|]. cbn [fold_left]. cbv zeta in *. rewrite rt_vert, rt_dot.
  destruct (_ <=? _)%num; [|apply IH]. rewrite <- IH. reflexivity.
Qed.
Lemma rt_support vs d : get_support (sv vs) (rt d) = on_res (fun r => (rt (fst r), snd r)) (get_support vs d).
Proof.
  unfold get_support, get_support_from. rewrite map_length. pose proof (rt_support_from (seq 0 (length vs)) (nofZ (-1)) vs d None) as H. cbn [option_map] in H. cbv zeta in H. rewrite H. cbn [fst].
  cbv zeta. match goal with |- context [option_map _ (fst ?f)] => destruct (fst f) as [r|] end; reflexivity.
Qed.
Lemma rt_is_zero a : ((fst (rt a) =? 0) && (snd (rt a) =? 0))%num%bool = ((fst a =? 0) && (snd a =? 0))%num%bool.
Proof.
  apply eq_true_iff_eq. rewrite !andb_true_iff. rnum. rewrite !Reqb_true. split; intros [H1 H2].
  - assert (E : rt a = (0, 0)) by (destruct (rt a); cbn in *; congruence). assert (D : v2dot a a = 0) by (rewrite <- rt_dot, E; unfold v2dot; rnum; cbn; ring).
    unfold v2dot in D. rnum. split; nra.
  - replace a with ((0, 0) : v2 R) by (destruct a; cbn in *; congruence). rewrite rt_zero. cbn. auto.
Qed.
Lemma rt_gjk fuel tp vs : forall sx, gjk fuel (rt tp) (sv vs) sx = on_res on_fst (gjk fuel tp vs sx).
Proof.
  induction fuel as [|fuel IH]; intros sx; [reflexivity|]. cbn [gjk]. replace (map (vert (sv vs)) sx) with (sv (map (vert vs) sx)) by (rewrite map_map; apply map_ext; intros i; symmetry; apply rt_vert).
  rewrite rt_closest. destruct (get_closest tp (map (vert vs) sx)) as [[cl ids]|]; cbn [on_res bind on_fst fst snd]; [|reflexivity]. cbv zeta.
  destruct (Nat.eqb (length ids) 3); [reflexivity|]. rewrite !rt_vert, !rt_sub, !rt_left, rt_opp, rt_dot.
  set (s1 := if Nat.eqb (length ids) 2 then _ else rt (v2sub tp cl)). set (s0 := if Nat.eqb (length ids) 2 then _ else v2sub tp cl).
  assert (E : s1 = rt s0) by (unfold s1, s0; destruct (Nat.eqb (length ids) 2); [destruct (_ <? _)%num; reflexivity|reflexivity]). rewrite E, rt_is_zero.
  destruct (_ && _)%bool; [reflexivity|]. rewrite rt_support. destruct (get_support vs s0) as [[q k]|]; cbn [on_res bind fst snd]; [|reflexivity]. destruct (existsb _ _); [reflexivity|apply IH].
Qed.
(** *** a circle and a polygon *)
Definition sp_sat (s : sat_state R) : sat_state R := mkSat (ss_last s) (ss_dist s) (option_map (fun q => (rt (fst q), rt (snd q))) (ss_best s)) (ss_exit s).
Lemma rt_sat_step vs c r eps s i : circle_sat_step (sv vs) (rt c) r eps (sp_sat s) i = sp_sat (circle_sat_step vs c r eps s i).
Proof.
  unfold circle_sat_step. cbn [sp_sat ss_exit ss_dist]. destruct (ss_exit s) eqn:Ex; [reflexivity|]. cbv zeta. rewrite map_length, rt_normal, rt_vert, rt_sub, rt_dot, rt_scale, rt_add.
  destruct (_ <? _)%num; [|reflexivity]. destruct (_ <? _)%num; reflexivity.
Qed.
Lemma rt_sat vs c r eps st : circle_sat (sv vs) (rt c) r eps st = sp_sat (circle_sat vs c r eps st).
Proof.
  unfold circle_sat. rewrite map_length. change (mkSat st (- ncst C_1e10)%num None false) with (sp_sat (mkSat st (- ncst C_1e10)%num None false)) at 1. generalize (mkSat st (- ncst C_1e10)%num None false) as s.
  induction (seq st (length vs)) as [|i l IH]; intros s; [reflexivity|]. cbn [fold_left]. now rewrite rt_sat_step, IH.
Qed.
Lemma spin_pos b : b_pos (turn_body (turned th) b) = rt (b_pos b).
Proof. reflexivity. Qed.
Lemma spin_verts b : b_verts (turn_body (turned th) b) = sv (b_verts b).
Proof. unfold b_verts. cbn [turn_body b_kind]. destruct (b_kind b); reflexivity. Qed.
Lemma spin_rad b : b_rad (turn_body (turned th) b) = b_rad b.
Proof. unfold b_rad. cbn [turn_body b_kind]. destruct (b_kind b); reflexivity. Qed.
Lemma spin_last b : b_last (turn_body (turned th) b) = b_last b.
Proof. unfold b_last. cbn [turn_body b_kind]. destruct (b_kind b); reflexivity. Qed.
Lemma spin_circle b : is_circle (turn_body (turned th) b) = is_circle b.
Proof. unfold is_circle. cbn [turn_body b_kind]. destruct (b_kind b); reflexivity. Qed.
Lemma spin_set_last b i : set_last (turn_body (turned th) b) i = turn_body (turned th) (set_last b i).
Proof. destruct b as [id k p v m it fr re ep fs g]. unfold set_last. cbn [turn_body b_kind]. destruct k; reflexivity. Qed.
Definition sp_point (q : mpoint (T := R)) : mpoint (T := R) := let '(n, p1, p2, pen) := q in (rt n, rt p1, rt p2, pen).
Lemma rt_cc b1 b2 eps : circle_circle (turn_body (turned th) b1) (turn_body (turned th) b2) eps = map sp_point (circle_circle b1 b2 eps).
Proof.
  unfold circle_circle. cbv zeta. rewrite !spin_rad, !spin_pos, rt_sub, rt_norm, rt_div, rt_opp, !rt_scale. destruct (_ <? _)%num; reflexivity.
Qed.
Lemma rt_ch fuel c hu eps st : circle_hull fuel (turn_body (turned th) c) (turn_body (turned th) hu) eps st = on_res (fun r => (option_map sp_point (fst r), turn_body (turned th) (snd r))) (circle_hull fuel c hu eps st).
Proof.
  unfold circle_hull. cbv zeta. rewrite !spin_pos, !spin_verts, spin_rad, spin_last, !rt_sub, rt_gjk. destruct (gjk _ _ _ _) as [[cl ids]|]; cbn [on_res bind on_fst fst snd]; [|reflexivity].
  rewrite rt_add, !rt_sub, rt_norm, rt_opp, rt_div, rt_sat. destruct (Nat.ltb _ _); [destruct (_ <? _)%num; reflexivity|]. cbn [sp_sat ss_exit ss_last ss_best ss_dist]. rewrite spin_set_last.
  destruct (ss_exit _); [reflexivity|]. destruct (ss_best _) as [[n q]|]; cbn [option_map fst snd]; [|reflexivity]. rewrite rt_add, rt_sub. reflexivity.
Qed.
(** *** two polygons *)
Definition sp_sep_st (s : sep_state R) : sep_state R :=
  mkSepSt (st_dist s) (option_map (fun '(n, p1, p2, v, e, i) => (rt n, rt p1, rt p2, v, e, i)) (st_best s)) (st_ret s).
Lemma rt_sep_step b1 b2 eps r i : sep_step (turn_body (turned th) b1) (turn_body (turned th) b2) eps (on_res sp_sep_st r) i = on_res sp_sep_st (sep_step b1 b2 eps r i).
Proof.
  destruct r as [s|]; [|reflexivity]. unfold sep_step. cbn [on_res bind sp_sep_st st_ret]. destruct (st_ret s); [reflexivity|]. cbv zeta.
  rewrite !spin_verts, !spin_pos, map_length, rt_normal, rt_opp, rt_support. destruct (get_support _ _) as [[q k]|]; cbn [on_res bind fst snd]; [|reflexivity].
  rewrite rt_edge, rt_norm, rt_vert, rt_add, !rt_sub, rt_dot, rt_scale, !rt_add, rt_sub. destruct (_ <? _)%num; [|reflexivity]. destruct (_ <? _)%num; reflexivity.
Qed.
Definition sp_sep (s : sep R) : sep R := mkSep (sep_dist s) (sep_idx s) (option_map (fun '(p1, p2, n, v, e) => (rt p1, rt p2, rt n, v, e)) (sep_info s)).
Lemma rt_test b1 b2 eps : test_separations (turn_body (turned th) b1) (turn_body (turned th) b2) eps = on_res sp_sep (test_separations b1 b2 eps).
Proof.
  unfold test_separations. rewrite spin_last, spin_verts, map_length. change (Ok (mkSepSt (- ncst C_1e10)%num None None)) with (on_res sp_sep_st (Ok (mkSepSt (- ncst C_1e10)%num None None))) at 1.
  generalize (Ok (mkSepSt (- ncst C_1e10)%num None None)) as r. induction (seq _ _) as [|i l IH]; intros r; cbn [fold_left]; [|now rewrite rt_sep_step, IH].
  destruct r as [s|]; [|reflexivity]. cbn [on_res bind sp_sep_st st_ret st_best st_dist]. destruct (st_ret s) as [[d k]|]; [reflexivity|]. destruct (st_best s) as [[[[[[n p1] p2] v] e] k]|]; cbn [option_map]; [|reflexivity]. rewrite rt_opp. reflexivity.
Qed.
Lemma rt_incident n vs v : get_incident_edge (rt n) (sv vs) v = get_incident_edge n vs v.
Proof.
  unfold get_incident_edge. cbv zeta. rewrite map_length. f_equal. generalize (ncst C_1e10, (length vs - 1)%nat) as s. induction [_; _] as [|i l IH]; intros [m k]; [reflexivity|]. cbn [fold_left]. rewrite rt_normal, rt_dot. apply IH.
Qed.
Lemma rt_clip a b n off : clip_segment_to_line (rt a) (rt b) (rt n) off = sv (clip_segment_to_line a b n off).
Proof.
  unfold clip_segment_to_line. cbv zeta. rewrite !rt_dot, rt_sub, rt_scale, rt_add. destruct (_ <=? _)%num, (_ <=? _)%num, (_ || _)%bool eqn:E; cbn [app length] in *; rewrite ?E; try reflexivity.
  all: try (match goal with |- context [(?x || ?y)%bool] => destruct (x || y)%bool end; reflexivity).
Qed.
Lemma rt_face b1 b2 n e i v eps : clip_face (turn_body (turned th) b1) (turn_body (turned th) b2) (rt n) e i v eps = map (fun '(p1, p2, d) => (rt p1, rt p2, d)) (clip_face b1 b2 n e i v eps).
Proof.
  unfold clip_face. cbv zeta. rewrite !spin_verts, !spin_pos, rt_incident, rt_vert, rt_next, !rt_add, !rt_sub, rt_left, rt_clip.
  destruct (clip_segment_to_line _ _ _ _) as [|c0 [|c1 l]]; cbn [map]; try reflexivity. rewrite rt_opp, rt_clip. induction (clip_segment_to_line c0 c1 _ _) as [|u us IH]; [reflexivity|]. cbn [map flat_map]. rewrite IH, map_app. f_equal.
  rewrite rt_vert, rt_sub, rt_dot, rt_scale, !rt_add, rt_sub. destruct (_ <=? _)%num; reflexivity.
Qed.
Lemma rt_hh b1 b2 eps : hull_hull (turn_body (turned th) b1) (turn_body (turned th) b2) eps = on_res (fun '(ps, c1, c2) => (map sp_point ps, turn_body (turned th) c1, turn_body (turned th) c2)) (hull_hull b1 b2 eps).
Proof.
  unfold hull_hull. rewrite rt_test. destruct (test_separations b1 b2 eps) as [s1|]; cbn [on_res bind]; [|reflexivity]. cbv zeta. cbn [sp_sep sep_idx sep_dist sep_info]. rewrite spin_set_last.
  destruct (_ <? _)%num; [reflexivity|]. rewrite rt_test. destruct (test_separations b2 _ eps) as [s2|]; cbn [on_res bind]; [|reflexivity]. cbn [sp_sep sep_idx sep_dist sep_info]. rewrite spin_set_last.
  destruct (_ <? _)%num; [reflexivity|]. destruct (_ <? _)%num.
  - destruct (sep_info s2) as [[[[[p1 p2] n] v] e]|]; cbn [option_map]; [|reflexivity]. rewrite rt_opp, rt_face. cbn [on_res]. rewrite !map_map. do 3 f_equal. apply map_ext. intros [[u u'] d]. reflexivity.
  - destruct (sep_info s1) as [[[[[p1 p2] n] v] e]|]; cbn [option_map]; [|reflexivity]. rewrite rt_opp, rt_face. cbn [on_res]. rewrite !map_map. do 3 f_equal. apply map_ext. intros [[u u'] d]. cbn [sp_point]. now rewrite rt_opp.
Qed.
(** *** the callback *)
Definition sp_out (r : list (contact R) * list (body R) * nat) : list (contact R) * list (body R) * nat := let '(cs, bs, k) := r in (map (turn_contact th) cs, map (turn_body (turned th)) bs, k).
Lemma spin_get bs i : get_body (map (turn_body (turned th)) bs) i = on_res (turn_body (turned th)) (get_body bs i).
Proof. unfold get_body. rewrite nth_error_map. destruct (nth_error bs i); reflexivity. Qed.
Lemma spin_contacts i j ps : mk_contacts i j (map sp_point ps) = map (turn_contact th) (mk_contacts i j ps).
Proof. unfold mk_contacts. rewrite !map_map. apply map_ext. intros [[[n p1] p2] d]. reflexivity. Qed.
Lemma spin_upd bs i b : upd (map (turn_body (turned th)) bs) i (turn_body (turned th) b) = map (turn_body (turned th)) (upd bs i b).
Proof. revert i. induction bs as [|a bs IH]; intros [|i]; cbn; try reflexivity. now rewrite IH. Qed.
Lemma sp_flip q : flip_point (sp_point q) = sp_point (flip_point q).
Proof. destruct q as [[[n p1] p2] d]. cbn [sp_point flip_point]. now rewrite rt_opp. Qed.
Lemma spin_handler gf o o' eps clk bs i j : (forall k n, o_choice o' k n = o_choice o k n) -> diff_handler gf o' eps clk (map (turn_body (turned th)) bs) i j = on_res sp_out (diff_handler gf o eps clk bs i j).
Proof.
  intros Hch. unfold diff_handler. rewrite !spin_get. destruct (get_body bs i) as [b1|]; cbn [on_res bind]; [|reflexivity]. destruct (get_body bs j) as [b2|]; cbn [on_res bind]; [|reflexivity].
  change (b_id (turn_body (turned th) b1)) with (b_id b1). assert (G : g_no_contact (b_geom (turn_body (turned th) b2)) = g_no_contact (b_geom b2)) by (cbn; apply map_id). rewrite G. destruct (existsb _ _); [reflexivity|]. rewrite !spin_circle.
  destruct (is_circle b1 && is_circle b2)%bool; [cbn [on_res sp_out]; now rewrite rt_cc, spin_contacts|]. destruct (is_circle b1 || is_circle b2)%bool.
  - destruct (is_circle b2); cbv zeta beta iota; rewrite spin_verts, map_length, Hch; (destruct (Nat.eqb _ 0); [reflexivity|]); rewrite rt_ch; destruct (circle_hull _ _ _ _ _) as [[op hu]|]; cbn [on_res bind fst snd]; try reflexivity.
    + rewrite spin_upd. cbn [sp_out]. rewrite <- spin_contacts. destruct op as [q|]; cbn [option_map map]; [now rewrite sp_flip|reflexivity].
    + rewrite spin_upd. cbn [sp_out]. rewrite <- spin_contacts. destruct op as [q|]; reflexivity.
  - rewrite rt_hh. destruct (hull_hull b1 b2 eps) as [[[ps c1] c2]|]; cbn [on_res bind]; [|reflexivity]. now rewrite !spin_upd, spin_contacts.
Qed.
End Spin.
