(** A block on a floor that is held (example for C91) *)
From Coq Require Import List Arith ZArith Lia Bool Reals Lra.
From Verif Require Import Num Tensor Utils Bodies Forces Constraints Contacts World Lapack LapackRef Pdipm Lcp Engines
     Spec GeoSpec BodySpec JointSpec FreshSpec EngineSpec WellSpec ContactSpec ImpactSpec SlopeSpec ResFacts RBase LinAlg LapackSpec PdipmSpec LuFacts HandlerFacts LayoutFacts EngineFacts ContactSys EngineBalance
     GeomFacts BodyFacts RigidFacts FloatEx RealEx ContactEx RunTotal EngineEx EngineProps EngineTotal SlopeFacts.
Import ListNotations.
Open Scope R_scope.

Definition box (id : nat) (x y w h s mu : R) (last : nat) (fs : list nat) : body R :=
  mkBody id (KRect (w, h) (corners w h) last) (0, (x, y)) (0, (s, 0)) 1 (rect_inertia (w, h) 1) mu (1/2) (1/10) fs
         (mkGeom (GBox (w + 2 * (1/10)) (h + 2 * (1/10))) (x, y) None []).
Lemma box_init id x y w h s mu : 0 < w -> 0 < h -> rect_init id [x; y] (w, h) [0; s; 0] 1 (1/2) mu (1/10) = Ok (box id x y w h s mu 0 []).
Proof.
  intros Hw Hh. unfold rect_init, hull_init_gen. rewrite rect_verts_corners. cbn [to_v3 bind fst snd].
  assert (A : 0 < area (corners w h)) by (rewrite corners_area; nra).
  assert (C : is_clockwise (corners w h) = true) by (apply is_clockwise_area; exact A).
  assert (Ecen : get_centroid (corners w h) = (0, 0)).
  { apply (centroid_unique (corners w h)); [lra|apply get_centroid_spec; lra|apply corners_centroid]. }
  rewrite C, Ecen. change (Nat.ltb 2 (length (corners w h))) with true. cbn [andb].
  assert (Ev : map (fun v : pt => v2sub v (0, 0)) (corners w h) = corners w h) by (unfold corners; cbn [map]; v2unfold; repeat (apply f_equal2; [paireq; ring|]); reflexivity).
  assert (Eadd : v2add (x, y) (0, 0) = (x, y)) by v2eq. cbv zeta. rewrite Ev, Eadd. unfold body_init. cbn [fst snd to_v3 bind length Nat.eqb]. reflexivity.
Qed.

(** the edges of a box *)
Lemma box_edge w h k : 0 < w -> 0 < h -> (k < 4)%nat ->
  edge_normal (corners w h) k = nth k [(0, 1); (-1, 0); (0, -1); (1, 0)] (0, 0) /\ v2norm (edge_vec (corners w h) k) = nth k [w; h; w; h] 0.
Proof.
  intros Hw Hh Hk. assert (Sq : forall a x, 0 <= a -> a * a = x -> sqrt x = a) by (intros a x Ha <-; apply sqrt_square; exact Ha).
  assert (E : v2norm (edge_vec (corners w h) k) = nth k [w; h; w; h] 0).
  { unfold v2norm, v2dot, edge_vec, next_vert, vert, corners. destruct k as [|[|[|[|k]]]]; [| | | |lia]; cbn; rnum; (apply Sq; [lra|field]). }
  split; [|exact E]. unfold edge_normal. rewrite E. unfold v2div, left_orthogonal, edge_vec, next_vert, vert, corners, v2sub.
  destruct k as [|[|[|[|k]]]]; [| | | |lia]; cbn; rnum; apply f_equal2; field; lra.
Qed.
Ltac decide_all := repeat (cbn [fst snd]; match goal with
  | |- context[Rltb ?a ?b] => first [rewrite (proj2 (Rltb_true a b)) by lra | rewrite (proj2 (Rltb_false a b)) by lra]
  | |- context[Rleb ?a ?b] => first [rewrite (proj2 (Rleb_true a b)) by lra | rewrite (proj2 (Rleb_false a b)) by lra | destruct (Rleb_spec a b)] end).
Lemma corner_support w h k : 0 < w -> 0 < h -> (k < 4)%nat ->
  get_support (corners w h) (nth k [(0, 1); (-1, 0); (0, -1); (1, 0)] (0, 0)) = Ok (nth k [(- (w/2), h/2); (- (w/2), - (h/2)); (w/2, - (h/2)); (w/2, - (h/2))] (0, 0), nth k [1; 2; 3; 3]%nat 0%nat).
Proof.
  intros Hw Hh Hk. unfold get_support, get_support_from. cbn [length corners seq fold_left]. unfold v2dot, vert.
  destruct k as [|[|[|[|k]]]]; [| | | |lia]; cbn [nth corners fst snd]; rnum; decide_all; reflexivity.
Qed.

(** the floor is 10 wide, the block stands on its middle *)
Definition level_floor mu last : body R := box 0 0 0 10 2 0 mu last [].
Definition block s mu last : body R := box 1 0 (-2) 2 2 s mu last [0%nat].
Definition normals : list (v2 R) := [(0, 1); (-1, 0); (0, -1); (1, 0)].
Lemma opp_normal k : (k < 4)%nat -> v2opp (nth k normals (0, 0)) = nth ((k + 2) mod 4) normals (0, 0).
Proof. intros Hk. destruct k as [|[|[|[|k]]]]; [| | | |lia]; unfold v2opp; cbn; rnum; apply f_equal2; ring. Qed.
(** one step of the search, the boxes having the centres (x, y) and (x', y') *)
Lemma box_step w h w' h' (b1 b2 : body R) eps st k x y x' y' : 0 < w -> 0 < h -> 0 < w' -> 0 < h' -> (k < 4)%nat -> st_ret st = None ->
  b_verts b1 = corners w h -> b_verts b2 = corners w' h' -> b_pos b1 = (x, y) -> b_pos b2 = (x', y') ->
  let n := nth k normals (0, 0) in
  let d := nth k [y' - y - (h + h') / 2; x - x' - (w + w') / 2; y - y' - (h + h') / 2; x' - x - (w + w') / 2] 0 in
  let vtx := nth k [3; 3; 1; 2]%nat 0%nat in
  let sp := v2sub (v2add (nth vtx (corners w' h') (0, 0)) (x', y')) (x, y) in
  let p := v2add sp (v2scale (- d) n) in
  sep_step b1 b2 eps (Ok st) k =
  if Rltb (st_dist st) d then
    if Rltb eps d then Ok (mkSepSt (st_dist st) (st_best st) (Some (d, k)))
    else Ok (mkSepSt d (Some (n, p, v2sub (v2add p (x, y)) (x', y'), vtx, nth k [w; h; w; h] 0, k)) None)
  else Ok st.
Proof.
  intros Hw Hh Hw' Hh' Hk Hr V1 V2 P1 P2 n d vtx sp p. unfold sep_step. cbn [bind]. rewrite Hr, V1, V2, P1, P2. change (length (corners w h)) with 4%nat. rewrite Nat.mod_small by exact Hk.
  destruct (box_edge w h k Hw Hh Hk) as [-> ->]. change (nth k [(0, 1); (-1, 0); (0, -1); (1, 0)] (0, 0)) with n.
  assert (Su : get_support (corners w' h') (v2opp n) = Ok (nth vtx (corners w' h') (0, 0), vtx)).
  { unfold n. rewrite opp_normal by exact Hk. unfold normals. rewrite corner_support by (try assumption; apply Nat.mod_upper_bound; lia).
    unfold vtx. destruct k as [|[|[|[|k]]]]; [| | | |lia]; reflexivity. }
  rewrite Su. cbn [bind fst snd]. fold sp.
  assert (Ed : v2dot n (v2sub sp (vert (corners w h) k)) = d).
  { unfold sp, n, d, vtx, vert, v2dot, v2sub, v2add, corners. destruct k as [|[|[|[|k]]]]; [| | | |lia]; cbn; rnum; field. }
  rewrite Ed. reflexivity.
Qed.
Lemma floor_block mu s mu' : test_separations (level_floor mu 0) (block s mu' 0) (1/10) = Ok (mkSep 0 2 (Some ((-1, -1), (-1, 1), (0, 1), 1%nat, 10))).
Proof.
  unfold test_separations. change (b_last (level_floor mu 0)) with 0%nat. change (length (b_verts (level_floor mu 0))) with 4%nat. cbn [seq fold_left].
  assert (St : forall st k, (k < 4)%nat -> st_ret st = None -> _) by
    (intros st k Hk Hr; exact (box_step 10 2 2 2 (level_floor mu 0) (block s mu' 0) (1/10) st k 0 0 0 (-2) ltac:(lra) ltac:(lra) ltac:(lra) ltac:(lra) Hk Hr eq_refl eq_refl eq_refl eq_refl)).
  cbv zeta in St. rnum. unfold Rcst.
  do 4 (rewrite St; [|lia|reflexivity]; cbn [nth st_dist]; decide_all).
  cbn [bind st_ret st_best st_dist]. unfold normals, v2sub, v2add, v2scale, v2opp. cbn. rnum.
  repeat (f_equal; try field).
Qed.
Lemma block_floor mu s mu' : test_separations (block s mu' 0) (level_floor mu 2) (1/10) = Ok (mkSep 0 0 (Some ((5, 1), (5, -1), (0, -1), 3%nat, 2))).
Proof.
  unfold test_separations. change (b_last (block s mu' 0)) with 0%nat. change (length (b_verts (block s mu' 0))) with 4%nat. cbn [seq fold_left].
  assert (St : forall st k, (k < 4)%nat -> st_ret st = None -> _) by
    (intros st k Hk Hr; exact (box_step 2 2 10 2 (block s mu' 0) (level_floor mu 2) (1/10) st k 0 (-2) 0 0 ltac:(lra) ltac:(lra) ltac:(lra) ltac:(lra) Hk Hr eq_refl eq_refl eq_refl eq_refl)).
  cbv zeta in St. rnum. unfold Rcst.
  do 4 (rewrite St; [|lia|reflexivity]; cbn [nth st_dist]; decide_all).
  cbn [bind st_ret st_best st_dist]. unfold normals, v2sub, v2add, v2scale, v2opp. cbn. rnum.
  repeat (f_equal; try field).
Qed.
(** two contacts, at the lower corners of the block *)
Lemma block_touch mu s mu' : hull_hull (level_floor mu 0) (block s mu' 0) (1/10) =
  Ok ([((0, 1), (1, -1), (1, 1), 0); ((0, 1), (-1, -1), (-1, 1), 0)], level_floor mu 2, block s mu' 0).
Proof.
  unfold hull_hull. rewrite floor_block. cbn [bind sep_dist sep_idx sep_info]. change (set_last (level_floor mu 0) 2) with (level_floor mu 2).
  rewrite block_floor. cbn [bind sep_dist sep_idx sep_info]. change (set_last (block s mu' 0) 0) with (block s mu' 0). rnum. decide_all.
  assert (En : v2opp (0, 1) = (0, -1)) by v2eq. rewrite En.
  unfold clip_face. change (b_verts (level_floor mu 2)) with (corners 10 2). change (b_verts (block s mu' 0)) with (corners 2 2).
  change (b_pos (level_floor mu 2)) with (0, 0). change (b_pos (block s mu' 0)) with (0, -2).
  assert (Ei : get_incident_edge (0, -1) (corners 2 2) 1 = 0%nat).
  { unfold get_incident_edge. change (length (corners 2 2)) with 4%nat. cbn [Nat.add Nat.sub Nat.modulo Nat.divmod fst snd fold_left].
    rewrite (proj1 (box_edge 2 2 0 ltac:(lra) ltac:(lra) ltac:(lia))). cbn [nth]. unfold v2dot. rnum. unfold Rcst. decide_all.
    rewrite (proj1 (box_edge 2 2 1 ltac:(lra) ltac:(lra) ltac:(lia))). cbn [nth]. decide_all. reflexivity. }
  rewrite Ei. cbn [corners vert next_vert nth length Nat.modulo Nat.divmod Nat.add Nat.sub fst snd].
  unfold left_orthogonal, v2sub, v2add, v2scale, v2opp, clip_segment_to_line, v2dot. cbn -[Rltb Rleb]. rnum.
  do 6 (decide_all; cbn -[Rltb Rleb]; rnum).
  repeat (f_equal; try field).
Qed.

(** the floor is held; the block is pushed with the force (p, q), y pointing down *)
Definition shove (p q : R) : fheap R := [FExt (fun _ => (0, (p, q))) 1].
Definition floor_joints (mu : R) : list (joint R) := [total_init (level_floor mu 0)].
Definition on_floor (s mu : R) (last : nat) : list (body R) := [level_floor mu last; block s mu 0].
Definition touch_r : contact R := mkContact (0, 1) (1, -1) (1, 1) 0 0 1.
Definition touch_l : contact R := mkContact (0, 1) (-1, -1) (-1, 1) 0 0 1.
Definition floor_world (p q s mu : R) : world R :=
  mkWorld (on_floor s mu 2) [(total_init (level_floor mu 0), 0%nat, None)] (shove p q) 0 (1/2) (1/10) 0 2 false false
    (cat3 (map b_v (on_floor s mu 0))) [touch_r; touch_l] true 3 (world_M (on_floor s mu 0)) None 1.
Lemma floor_init p q s mu : world_init pair_oracle disc_hd (shove p q) (on_floor s mu 0) (floor_joints mu) (1/2) (1/10) 0 2 false false = Ok (floor_world p q s mu).
Proof.
  unfold world_init, on_floor.
  match goal with |- context[mapM ?f (floor_joints mu)] => assert (Ej : mapM f (floor_joints mu) = Ok [(total_init (level_floor mu 0), 0%nat, None)]) by reflexivity; rewrite Ej; clear Ej end.
  assert (Es : forallb j_static (floor_joints mu) = true) by reflexivity. assert (En : fold_left (fun n (j : joint R) => (n + j_num j)%nat) (floor_joints mu) 0%nat = 3%nat) by reflexivity.
  rewrite Es, En. cbn [bind]. change (nofZ 0) with (IZR 0).
  unfold set_v. rewrite cat3_length, map_length. cbn [w_bodies length Nat.eqb Nat.mul Nat.add bind].
  unfold find_contacts. cbn [w_bodies with_state w_clk w_eps o_collide pair_oracle].
  change (all_pairs _) with [(0, 1)]%nat. cbn [fold_left].
  unfold disc_hd, diff_handler. cbn -[hull_hull world_M floor_joints total_init].
  match goal with |- context[hull_hull ?a ?b ?e] => change (hull_hull a b e) with (hull_hull (level_floor mu 0) (block s mu 0) (1/10)) end.
  rewrite block_touch. cbn -[world_M floor_joints total_init mixed Rle_dec Rlt_dec Rltb Rleb]. rnum. unfold Rcst. decide_all. reflexivity.
Qed.
Lemma floor_available s mu : Forall available (on_floor s mu 0).
Proof.
  apply Forall_cons; [|apply Forall_cons; [|apply Forall_nil]].
  - exists (level_floor mu 0), []. split; [|reflexivity]. right. right. exists 0%nat, [0; 0], (10, 2), [0; 0; 0], 1, (1/2), mu, (1/10). apply box_init; lra.
  - exists (box 1 0 (-2) 2 2 s mu 0 []), [BForces [0%nat]]. split; [|reflexivity]. right. right. exists 1%nat, [0; -2], (2, 2), [0; s; 0], 1, (1/2), mu, (1/10). apply box_init; lra.
Qed.
Lemma floor_session mi p q s mu : session ref_lapack mi pair_oracle disc_hd (on_floor s mu 0) (floor_joints mu) (floor_world p q s mu).
Proof.
  apply (session_history _ _ _ _ _ _ _ 0 10 (shove p q) (1/2) (1/10) 0 2 false false (floor_world p q s mu) []).
  - left; reflexivity.
  - apply pair_sane.
  - constructor; [cbn; intuition discriminate|constructor; [cbn; tauto|constructor]].
  - constructor; [|constructor]. apply built_total. cbn. tauto.
  - apply floor_available.
  - apply floor_init.
  - reflexivity.
Qed.
Lemma floor_forces p q s mu : world_apply_forces (floor_world p q s mu) (w_t (floor_world p q s mu)) = Ok [0; 0; 0; 0; p; q].
Proof. unfold world_apply_forces, floor_world. cbn. rnum. repeat (f_equal; try ring). Qed.
Lemma floor_stands p q s mu : 0 <= mu <= 1 -> stands (floor_world p q s mu) 1 (0, -1) 1 mu.
Proof.
  intros Hm. assert (A : Rabs 1 = 1) by (apply Rabs_pos_eq; lra). constructor.
  - unfold unit_vec. cbn. rnum. field.
  - unfold unjoined. cbn. intros j i1 i2 [E|[]]. inversion E; subst. split; discriminate.
  - intros c Hc _. assert (E : c_i1 c = 0%nat /\ c_i2 c = 1%nat /\ c_normal c = (0, 1) /\ snd (c_p2 c) = 1) by (cbn in Hc; destruct Hc as [<- | [<- | []]]; repeat split).
    destruct E as (E1 & E2 & En & Ep). unfold into, foot, partner, mixed. rewrite E1, E2, En. cbn [Nat.eqb]. repeat split.
    + v2eq.
    + unfold component, v2dot. cbn [fst snd]. rnum. rewrite Ep. ring.
    + cbn. rnum. field.
    + cbn. lia.
    + exists (total_init (level_floor mu 0)). split; [left; reflexivity|reflexivity].
  - exists touch_r. split; [left; reflexivity|]. split; [right; reflexivity|]. rewrite A. unfold stance, component, tangent. cbn. rnum. lra.
  - exists touch_l. split; [right; left; reflexivity|]. split; [right; reflexivity|]. rewrite A. unfold stance, component, tangent. cbn. rnum. lra.
Qed.
(** the response: the block keeps what friction leaves; the feet share the load so that it does not tip *)
Lemma floor_response p q s mu : 0 <= mu <= 1 -> 0 < q ->
  let c := clamp (mu * (q / 2)) (s + p / 2) in
  let l := (q / 2 + c) / 2 in let r := (q / 2 - c) / 2 in
  response (floor_world p q s mu) (1/2) [0; 0; 0; 0; s + p / 2 - c; 0] [(l, c * l / (q / 2)); (r, c * r / (q / 2))].
Proof.
  intros Hm Hq c l r. pose proof (clamp_cases (mu * (q / 2)) (s + p / 2) ltac:(nra)) as Hc. fold c in Hc.
  assert (Hb : - (mu * (q / 2)) <= c <= mu * (q / 2)) by (destruct Hc as [[E E']|[[E E']|[E E']]]; nra).
  assert (Hl : 0 <= l) by (unfold l; nra). assert (Hr : 0 <= r) by (unfold r; nra).
  assert (Hcc : Rabs c <= mu * (q / 2)) by (apply Rabs_le; lra).
  exists [0; 0; 0; 0; p; q], [- (2 * c); - c; - (q / 2)]. split; [apply floor_forces|]. split; [reflexivity|]. split; [|split].
  - split; [reflexivity|]. split; [reflexivity|]. intros x Lx.
    destruct x as [|x0 [|x1 [|x2 [|x3 [|x4 [|x5 [|? ?]]]]]]]; try discriminate.
    unfold kinetic, constraint_velocity, contact_power, component, relative_velocity, point_velocity, v3_at, vget, dot. cbn. rnum. unfold l, r. field. lra.
  - unfold constraint_velocity. cbn. rnum. reflexivity.
  - assert (Law : forall z cc, 0 <= z -> In cc [touch_r; touch_l] -> coulomb (floor_world p q s mu) [0; 0; 0; 0; s + p / 2 - c; 0] cc z (c * z / (q / 2))).
    { intros z cc Hz Hin. assert (Hn : normal_velocity [0; 0; 0; 0; s + p / 2 - c; 0] cc = 0 /\ normal_velocity (w_v (floor_world p q s mu)) cc = 0 /\ slip_velocity [0; 0; 0; 0; s + p / 2 - c; 0] cc = - (s + p / 2 - c) /\ mixed (floor_world p q s mu) b_fric cc = mu).
      { cbn in Hin. destruct Hin as [<- | [<- | []]]; unfold mixed, normal_velocity, slip_velocity, component, relative_velocity, point_velocity, v3_at, vget; cbn; rnum; repeat split; field. }
      destruct Hn as (N1 & N2 & N3 & N4).
      assert (Ha : Rabs (c * z / (q / 2)) = Rabs c * (z / (q / 2))) by (unfold Rdiv; rewrite !Rabs_mult, (Rabs_pos_eq z Hz), (Rabs_pos_eq (/ (q * / 2))); [ring|left; apply Rinv_0_lt_compat; lra]).
      assert (Hzq : 0 <= z / (q / 2)) by (apply Rmult_le_pos; [exact Hz|left; apply Rinv_0_lt_compat; lra]).
      assert (Hzm : mu * (q / 2) * (z / (q / 2)) = mu * z) by (field; lra).
      constructor; rewrite ?N1, ?N2, ?N3, ?N4; try lra.
      - rewrite Ha, <- Hzm. apply Rmult_le_compat_r; assumption.
      - rewrite Rabs_Ropp. replace (c * z / (q / 2) * - (s + p / 2 - c)) with (- (c * (s + p / 2 - c) * (z / (q / 2)))) by (field; lra).
        rewrite <- Hzm. replace (- (mu * (q / 2) * (z / (q / 2))) * Rabs (s + p / 2 - c)) with (- (mu * (q / 2) * Rabs (s + p / 2 - c) * (z / (q / 2)))) by ring.
        f_equal. f_equal. destruct Hc as [[E E']|[[E E']|[E E']]].
        + rewrite Rabs_pos_eq by lra. rewrite E. ring.
        + rewrite <- Rabs_Ropp, Rabs_pos_eq by lra. rewrite E. ring.
        + replace (s + p / 2 - c) with 0 by lra. rewrite Rabs_R0. ring. }
    apply Forall2_cons; [apply Law; [exact Hl|left; reflexivity]|]. apply Forall2_cons; [apply Law; [exact Hr|right; left; reflexivity]|apply Forall2_nil].
Qed.
(** without friction the solver returns a point *)
Lemma floor_independent p q s mu : EngineSpec.independent (floor_world p q s mu).
Proof.
  intros y Ly H. change (w_num_constraints (floor_world p q s mu)) with 3%nat in *. change (3 * length (w_bodies (floor_world p q s mu)))%nat with 6%nat in H.
  destruct y as [|a [|b [|c [|? ?]]]]; try discriminate.
  pose proof (H [1; 0; 0; 0; 0; 0] eq_refl) as H1. pose proof (H [0; 1; 0; 0; 0; 0] eq_refl) as H2. pose proof (H [0; 0; 1; 0; 0; 0] eq_refl) as H3.
  unfold constraint_velocity, dot in H1, H2, H3. cbn in H1, H2, H3. rnum. unfold vzeros. cbn [repeat]. rnum. repeat (f_equal; try lra).
Qed.
Lemma floor_solves p q s mi : (0 < mi)%nat -> exists v c, solve_dynamics ref_lapack mi (floor_world p q s 0) (1/2) = Ok (v, c).
Proof.
  intros Hmi. pose proof (session_world _ _ _ _ _ _ _ (floor_session mi p q s 0)) as HW. destruct (engine_world_sound _ _ _ _ _ HW) as (J0 & HS & _).
  destruct (EngineTotal.solve_total _ _ J0 _ ref_lapack mi HS ref_lapack_ok) with (dt := 1/2) (f := [0; 0; 0; 0; p; q]) as (v & c & E).
  - repeat (apply Forall_cons); [| |apply Forall_nil]; unfold rect_inertia; cbn; rnum; lra.
  - apply floor_independent.
  - exact Hmi.
  - apply floor_forces.
  - reflexivity.
  - intros c [<-|[<-|[]]]; unfold mixed; cbn; rnum; field.
  - eauto.
Qed.
Lemma floor_point p q s mi : (0 < mi)%nat -> exists it r, engine_point ref_lapack mi (floor_world p q s 0) (1/2) it r.
Proof.
  intros Hmi. pose proof (session_world _ _ _ _ _ _ _ (floor_session mi p q s 0)) as HW. destruct (floor_solves p q s mi Hmi) as (v & c & E).
  destruct (solved_point ref_lapack mi _ _ _ (1/2) ref_lapack_ok HW ltac:(discriminate) v c E) as (it & r & Hp & _). eauto.
Qed.
