(** C11-C17, C51: bodies, their geometry, mass properties and broad-phase shapes *)
From Coq Require Import List Arith ZArith Lia Bool Reals Lra Psatz.
From Verif Require Import Num Tensor Utils Bodies Forces Constraints Contacts World Spec ResFacts RBase GeoSpec BodySpec
     BodyFacts RigidFacts GeomFacts BodyReach WorldFacts HistFacts LinAlg SysFacts FloatEx RealEx.
Import ListNotations.
Open Scope R_scope.

(** C12.  Hull(ref_point, vertices): world vertices are kept, the body sits at the area centroid. *)
Theorem C12_hull_placement :
  forall id ref vs vel m rest fric eps b,
    hull_init id ref vs vel m rest fric eps = Ok b ->
    length (b_verts b) = length vs /\
    (forall i v, nth_error vs i = Some v ->
       exists u, nth_error (b_verts b) i = Some u /\ v2add (b_pos b) u = v2add ref v) /\
    is_centroid (map (fun v => v2add ref v) vs) (b_pos b) /\
    is_centroid (b_verts b) (0, 0) /\
    b_rot b = 0 /\ b_mass b = m.
Proof.
  intros id ref vs vel m rest fric eps b H. apply hull_init_inv in H.
  destruct H as (H1 & H2 & H3 & H4 & Hm & Hi & Hk & _).
  assert (Hp : b_pos b = v2add ref (get_centroid vs)) by (unfold b_pos; now rewrite H4).
  assert (Hc : is_centroid vs (get_centroid vs)) by (apply get_centroid_spec; lra).
  split; [rewrite H3; now rewrite map_length|]. split; [|split; [|split; [|split]]].
  - intros i v Hv. exists (v2sub v (get_centroid vs)). split.
    + rewrite H3. exact (map_nth_error (fun v : pt => v2sub v (get_centroid vs)) i vs Hv).
    + rewrite Hp. v2eq.
  - rewrite Hp.
    pose proof (is_centroid_translate vs _ (v2opp ref) Hc) as Ht.
    replace (v2add ref (get_centroid vs)) with (v2sub (get_centroid vs) (v2opp ref)) by v2eq.
    erewrite map_ext; [exact Ht|]. intros a. cbn. v2eq.
  - pose proof (is_centroid_translate vs _ (get_centroid vs) Hc) as Ht. rewrite H3.
    replace (0, 0) with (v2sub (get_centroid vs) (get_centroid vs)) by v2eq. exact Ht.
  - unfold b_rot. now rewrite H4.
  - exact Hm.
Qed.
Print Assumptions C12_hull_placement.

(** an L-shaped hexagon *)
Definition C12_verts : list pt := [(0, 0); (2, 0); (2, 1); (1, 1); (1, 3); (0, 3)].
Lemma C12_area : area C12_verts = 4.
Proof. unfold area, esum, edges, C12_verts, det2. cbn. field. Qed.
Example C12_case : exists b, hull_init 0 (5, 7) C12_verts [0; 0; 0] 2 1 1 (1/10) = Ok b.
Proof. apply hull_init_accepts; [cbn; lia|rewrite C12_area; lra|right; reflexivity]. Qed.

(** C13.  The assertion fires exactly for fewer than three vertices or non-positive signed area. *)
Theorem C13_orientation :
  forall id ref vs vel m rest fric eps,
    hull_init id ref vs vel m rest fric eps = Err EAssert <-> ((length vs < 3)%nat \/ area vs <= 0).
Proof. exact hull_init_assert. Qed.
Print Assumptions C13_orientation.
(** The verdict does not depend on the pose ... *)
Theorem C13_pose_independent :
  forall id ref vs vel m rest fric eps th (d : pt),
    hull_init id ref (map (fun v => v2add (rotate th v) d) vs) vel m rest fric eps = Err EAssert <->
    hull_init id ref vs vel m rest fric eps = Err EAssert.
Proof.
  intros. rewrite !hull_init_assert, map_length.
  assert (E : area (map (fun v => v2add (rotate th v) d) vs) = area vs).
  { rewrite <- (map_map (rotate th) (fun v => v2add v d)).
    erewrite map_ext with (g := fun v => v2sub v (v2opp d)) by (intros a; cbn; v2eq).
    now rewrite area_translate, area_rotate. }
  now rewrite E.
Qed.
Print Assumptions C13_pose_independent.
(** ... and the current vertices of a polygon in any world would be accepted again. *)
Theorem C13_stays_valid :
  forall b id ref vel m rest fric eps,
    reachable_body b -> is_circle b = false -> (length vel = 2 \/ length vel = 3)%nat ->
    exists b', hull_init id ref (b_verts b) vel m rest fric eps = Ok b'.
Proof.
  intros b id ref vel m rest fric eps Hr Hk Hv.
  destruct (reachable_centroid b Hr) as (H1 & H2 & _).
  - unfold is_circle in Hk. destruct (b_kind b); auto; discriminate.
  - now apply hull_init_accepts.
Qed.
Print Assumptions C13_stays_valid.
Example C13_case :
  hull_init 0 (0, 0) (rev C12_verts) [0; 0; 0] 2 1 1 (1/10) = Err EAssert /\
  exists b, hull_init 0 (5, 7) (map (fun v => v2add (rotate 3 v) (4, 4)) C12_verts) [0; 0; 0] 2 1 1 (1/10) = Ok b.
Proof.
  split.
  - apply C13_orientation. right. unfold area, esum, edges, C12_verts, det2. cbn. lra.
  - apply hull_init_accepts; [cbn; lia| |right; reflexivity].
    assert (E : area (map (fun v => v2add (rotate 3 v) (4, 4)) C12_verts) = area C12_verts).
    { rewrite <- (map_map (rotate 3) (fun v => v2add v (4, 4))).
      erewrite map_ext with (g := fun v => v2sub v (-4, -4)) by (intros a; cbn; v2eq).
      now rewrite area_translate, area_rotate. }
    rewrite E, C12_area. lra.
Qed.

(** C14.  Whatever is done to a body outside a world, its vertices are the original ones turned by
    the change of its angle, and mass and moment of inertia stay. *)
Theorem C14_rigid_body :
  forall b0 ops, available b0 ->
    let b := bexec ops b0 in
    b_verts b = map (rotate (b_rot b - b_rot b0)) (b_verts b0) /\
    b_mass b = b_mass b0 /\ b_inertia b = b_inertia b0.
Proof.
  intros b0 ops H b. destruct (bexec_rigid ops b0) as (_ & Hm & _).
  - apply shape_poly_wf. now apply available_shape.
  - split; [exact Hm|]. destruct (bexec_mass ops b0) as (A & B & _). auto.
Qed.
Print Assumptions C14_rigid_body.
(** The same for every body of a world after every history of calls. *)
Theorem C14_rigid_world :
  forall fuel (o : oracle R) (hd : handler R) (e : engine R) heap bodies constraints dt eps tol
         fric_dirs ps st w0 ops w,
    handler_frame hd -> Forall available bodies ->
    world_init o hd heap bodies constraints dt eps tol fric_dirs ps st = Ok w0 ->
    exec fuel o hd e ops w0 = Ok w ->
    length (w_bodies w) = length bodies /\
    forall i b0, nth_error bodies i = Some b0 ->
      exists b, nth_error (w_bodies w) i = Some b /\
        b_verts b = map (rotate (b_rot b - b_rot b0)) (b_verts b0) /\
        b_mass b = b_mass b0 /\ b_inertia b = b_inertia b0.
Proof.
  intros fuel o hd e heap bodies cons dt eps tol fd ps st w0 ops w Hf Hb H0 Hx.
  pose proof (world_steps _ shape_steps _ _ _ _ _ _ _ _ _ _ _ _ _ _ _ _ Hf H0 Hx) as F.
  split; [symmetry; eapply Forall2_len; eauto|].
  clear H0 Hx. intros i b0 Hi. revert i Hi Hb. induction F as [|x y l l' [Hr Hm] F IH]; intros i Hi Hb; [destruct i; discriminate|].
  inversion Hb as [|? ? Hx1 Hx2]; subst. destruct i as [|i].
  - inversion Hi; subst x. exists y. split; [reflexivity|].
    destruct Hr as (_ & Hv & _); [apply shape_poly_wf; now apply available_shape|].
    destruct Hm as (A & B & _). auto.
  - apply (IH i Hi Hx2).
Qed.
Print Assumptions C14_rigid_world.
(** So the distance of any two vertices and the area never change ... *)
Theorem C14_shape_kept :
  forall b0 ops i j, available b0 ->
    let vs0 := b_verts b0 in let vs := b_verts (bexec ops b0) in
    length vs = length vs0 /\ area vs = area vs0 /\
    ((i < length vs)%nat -> (j < length vs)%nat ->
     dist (nth i vs v2zero) (nth j vs v2zero) = dist (nth i vs0 v2zero) (nth j vs0 v2zero)).
Proof.
  intros b0 ops i j H vs0 vs. destruct (C14_rigid_body b0 ops H) as (E & _ & _).
  fold vs vs0 in E. rewrite E, map_length. split; [reflexivity|]. split; [apply area_rotate|]. intros Hi Hj.
  rewrite !(nth_indep (map _ vs0) v2zero (rotate (b_rot (bexec ops b0) - b_rot b0) v2zero)) by (now rewrite map_length).
  rewrite !map_nth. apply dist_rotate.
Qed.
Print Assumptions C14_shape_kept.
(** ... the centroid stays at the body's position, and the moment of inertia is the one of the
    current vertices. *)
Theorem C14_centroid_inertia :
  forall b, reachable_body b ->
    (is_circle b = false -> is_centroid (b_verts b) (0, 0) /\ 0 < area (b_verts b)) /\
    (forall vs last, b_kind b = KHull vs last -> b_inertia b = hull_inertia (b_verts b) (b_mass b)).
Proof.
  intros b Hr. split.
  - intros Hk. destruct (reachable_centroid b Hr) as (H1 & H2 & H3); auto.
    unfold is_circle in Hk. destruct (b_kind b); auto; discriminate.
  - intros vs last Hk. destruct (reachable_shape b Hr) as [Hi _]. rewrite Hi, Hk. unfold b_verts. rewrite Hk. reflexivity.
Qed.
Print Assumptions C14_centroid_inertia.
Example C14_case : exists b, available b /\ b_verts b <> [] /\
  b_verts (bexec [BMove 2; BSetP (1, (4, 5)); BSetV (3, (1, 1)); BMove 1] b) = map (rotate (1 + 1 * 3)) (b_verts b).
Proof.
  destruct C12_case as [b Hb]. exists b.
  assert (Ha : available b) by (exists b, []; split; [right; left; do 8 eexists; exact Hb|reflexivity]).
  split; [exact Ha|]. destruct (C12_hull_placement _ _ _ _ _ _ _ _ _ Hb) as (L & _ & _ & _ & Hr & _).
  split; [intros E; rewrite E in L; discriminate|].
  destruct (C14_rigid_body b [BMove 2; BSetP (1, (4, 5)); BSetV (3, (1, 1)); BMove 1] Ha) as (E & _).
  rewrite E, Hr. f_equal. f_equal.
  assert (R1 : forall (c : body R) p, b_rot (set_p c p) = fst p) by (intros; unfold b_rot; now rewrite LayoutFacts.set_p_p).
  unfold bexec. cbn [fold_left brun]. unfold move at 1. rewrite R1. cbn [v3add fst b_p with_v].
  rewrite LayoutFacts.set_p_p. cbn. ring.
Qed.

(** C15.  Rect(pos, dims), through any history: corners of a w x h rectangle turned by the body's
    angle about its position ... *)
Theorem C15_rect_corners :
  forall b dims vs last, reachable_body b -> b_kind b = KRect dims vs last ->
    let w := fst dims in let h := snd dims in
    b_verts b = map (rotate (b_rot b))
                    [(w / 2, h / 2); (- (w / 2), h / 2); (- (w / 2), - (h / 2)); (w / 2, - (h / 2))] /\
    is_centroid (b_verts b) (0, 0) /\ area (b_verts b) = w * h /\
    b_inertia b = b_mass b * (w * w + h * h) / 12 /\
    b_inertia b = hull_inertia (b_verts b) (b_mass b).
Proof.
  intros b dims vs last Hr Hk w h. destruct (reachable_shape b Hr) as [Hi Hs].
  destruct (reachable_centroid b Hr) as (_ & _ & Hc); [now rewrite Hk|].
  unfold b_verts in *. rewrite Hk in *. destruct Hs as [Hd Hv]. subst vs.
  split; [reflexivity|]. split; [exact Hc|]. split; [rewrite area_rotate; apply corners_area|].
  cbn [kind_inertia] in Hi. unfold rect_inertia in Hi. rnum. split; [exact Hi|].
  rewrite hull_inertia_rotate, corners_inertia; [exact Hi|]. unfold w, h in *. lra.
Qed.
Print Assumptions C15_rect_corners.
(** ... and the constructor puts it where it was asked to: position, angle if given, and the same
    body as the Hull built from the four corners. *)
Theorem C15_rect_init :
  forall id pos dims vel m rest fric eps b,
    rect_init id pos dims vel m rest fric eps = Ok b ->
    0 < fst dims * snd dims /\ b_mass b = m /\
    (pos = [fst (b_pos b); snd (b_pos b)] /\ b_rot b = 0 \/
     pos = [b_rot b; fst (b_pos b); snd (b_pos b)]) /\
    (forall h, hull_init id (b_pos b) (corners (fst dims) (snd dims)) vel m rest fric eps = Ok h ->
       b_pos h = b_pos b /\ b_inertia h = b_inertia b /\ b_v h = b_v b /\
       b_verts b = map (rotate (b_rot b)) (b_verts h)).
Proof.
  intros id pos dims vel m rest fric eps b H. pose proof (rect_init_inv _ _ _ _ _ _ _ _ _ H) as Hi.
  destruct Hi as (p & Ep & Hd & Hp & Hm & HI & Hv & Hk & _ & _ & _ & _ & Hvel).
  split; [exact Hd|]. split; [exact Hm|]. split.
  - destruct pos as [|x [|y [|z [|u l]]]]; try discriminate; cbn in Ep; injection Ep as Ep; unfold b_rot, b_pos; rewrite Hp, <- Ep; cbn; auto.
  - intros h Hh. apply hull_init_inv in Hh. destruct Hh as (_ & _ & Hv' & Hp' & Hm' & HI' & _ & _ & _ & _ & _ & Hvel').
    assert (Ecen : get_centroid (corners (fst dims) (snd dims)) = (0, 0)).
    { apply (centroid_unique (corners (fst dims) (snd dims))).
      - rewrite corners_area. lra.
      - apply get_centroid_spec. rewrite corners_area. lra.
      - apply corners_centroid. }
    assert (Ev : b_verts h = corners (fst dims) (snd dims)).
    { rewrite Hv', Ecen. rewrite <- (map_id (corners (fst dims) (snd dims))) at 2. apply map_ext. intros [x y]. v2eq. }
    split; [unfold b_pos at 1; rewrite Hp', Ecen; cbn [snd]; destruct (b_pos b); v2eq|].
    split; [|split].
    + rewrite HI', Ev, corners_inertia by lra. now rewrite HI.
    + rewrite Hvel in Hvel'. now inversion Hvel'.
    + now rewrite Ev.
Qed.
Print Assumptions C15_rect_init.
Example C15_case : exists b, rect_init 0 [1/3; 4; 5] (2, 3) [1; 0; 0] 6 1 1 (1/10) = Ok b /\ reachable_body b /\
  b_inertia b = 13 / 2 /\ b_rot b = 1/3 /\ exists h, hull_init 0 (4, 5) (corners 2 3) [1; 0; 0] 6 1 1 (1/10) = Ok h.
Proof.
  assert (E : exists b, rect_init 0 [1/3; 4; 5] (2, 3) [1; 0; 0] 6 1 1 (1/10) = Ok b).
  { unfold rect_init, hull_init_gen. rewrite rect_verts_corners. cbn [to_v3 bind length corners Nat.ltb Nat.leb andb Nat.eqb].
    assert (C : is_clockwise (corners (fst (2, 3)) (snd (2, 3))) = true).
    { apply is_clockwise_area. rewrite corners_area. cbn. lra. }
    unfold corners in *. rewrite C. cbn. eexists. reflexivity. }
  destruct E as [b Hb]. exists b. split; [exact Hb|].
  assert (Hr : reachable_body b).
  { apply RBavailable. exists b, []. split; [right; right; do 8 eexists; exact Hb|reflexivity]. }
  pose proof (rect_init_inv _ _ _ _ _ _ _ _ _ Hb) as (p & Ep & _ & Hp & Hm & HI & _).
  split; [exact Hr|]. split; [rewrite HI; cbn [fst snd]; field|]. split.
  - cbn in Ep. injection Ep as Ep. unfold b_rot. now rewrite Hp, <- Ep.
  - apply hull_init_accepts; [cbn; lia|rewrite corners_area; lra|right; reflexivity].
Qed.

(** C16.  body.M of every reachable body with positive mass and size is diagonal with positive
    entries ... *)
Theorem C16_body_mass :
  forall b, reachable_body b -> solid b -> 0 < b_mass b ->
    b_M b = [[b_inertia b; 0; 0]; [0; b_mass b; 0]; [0; 0; b_mass b]] /\ 0 < b_inertia b.
Proof. intros b Hr Hs Hm. split; [reflexivity|]. now apply reachable_inertia_pos. Qed.
Print Assumptions C16_body_mass.
(** ... and world.M() of any list of such bodies is their block diagonal: square, with these and
    only these entries, symmetric, positive definite. *)
Theorem C16_world_mass :
  forall fuel (o : oracle R) (hd : handler R) (e : engine R) heap bodies constraints dt eps tol
         fric_dirs ps st w0 ops w,
    handler_frame hd -> Forall available bodies ->
    Forall (fun b => solid b /\ 0 < b_mass b) bodies ->
    world_init o hd heap bodies constraints dt eps tol fric_dirs ps st = Ok w0 ->
    exec fuel o hd e ops w0 = Ok w ->
    let n := (3 * length (w_bodies w))%nat in
    wf n n (w_M w) /\
    (forall i j b, (i < n)%nat -> (j < n)%nat -> nth_error (w_bodies w) (i / 3) = Some b ->
       mget (w_M w) i j =
       if Nat.eqb i j then (if Nat.eqb (i mod 3) 0 then b_inertia b else b_mass b) else 0) /\
    (forall i j, (i < n)%nat -> (j < n)%nat -> mget (w_M w) i j = mget (w_M w) j i) /\
    (forall x, length x = n -> x <> vzeros n -> 0 < dot x (mv (w_M w) x)).
Proof.
  intros fuel o hd e heap bodies cons dt eps tol fd ps st w0 ops w Hf Hb Hs H0 Hx n.
  pose proof (world_steps _ shape_steps _ _ _ _ _ _ _ _ _ _ _ _ _ _ _ _ Hf H0 Hx) as F.
  pose proof (Forall2_len _ _ _ F) as HL.
  assert (HM : w_M w = world_M (w_bodies w)).
  { transitivity (world_M bodies).
    - transitivity (w_M w0).
      + apply exec_cfg in Hx. unfold cfg in Hx. congruence.
      + apply world_init_inv in H0. tauto.
    - unfold world_M. rewrite <- HL.
      assert (E : forall k M, fold_left (fun M ib => blk_put M (3 * fst ib) (3 * fst ib) (b_M (snd ib))) (combine (seq k (length bodies)) bodies) M
              = fold_left (fun M ib => blk_put M (3 * fst ib) (3 * fst ib) (b_M (snd ib))) (combine (seq k (length bodies)) (w_bodies w)) M).
      { clear -F. induction F as [|x y l l' [_ (A & B & _)] F IH]; intros k M; [reflexivity|]. cbn [length seq combine fold_left].
        cbn [fst snd]. replace (b_M y) with (b_M x) by (unfold b_M; now rewrite A, B). apply IH. }
      apply E. }
  rewrite HM. subst n.
  assert (P : Forall (fun b => 0 < b_mass b /\ 0 < b_inertia b) (w_bodies w)).
  { apply Forall_forall. intros b Hin. destruct (Forall2_In_r _ _ _ _ F Hin) as (a & Ha & Hr & Hm).
    rewrite Forall_forall in Hb, Hs. destruct (Hs a Ha) as [S1 S2]. destruct Hm as (A & B & _). rewrite A, B.
    split; auto. apply reachable_inertia_pos; auto. apply RBavailable; auto. }
  assert (G : forall i j b, (i < 3 * length (w_bodies w))%nat -> (j < 3 * length (w_bodies w))%nat ->
     nth_error (w_bodies w) (i / 3) = Some b -> mget (world_M (w_bodies w)) i j =
     if Nat.eqb i j then (if Nat.eqb (i mod 3) 0 then b_inertia b else b_mass b) else 0) by (intros; now apply mget_world_M).
  split; [apply wf_world_M|]. split; [exact G|]. split.
  - intros i j Hi Hj.
    assert (X : forall i, (i < 3 * length (w_bodies w))%nat -> exists b, nth_error (w_bodies w) (i / 3) = Some b).
    { intros i' Hi'. destruct (nth_error (w_bodies w) (i' / 3)) eqn:E; eauto. apply nth_error_None in E.
      pose proof (Nat.div_lt_upper_bound i' 3 (length (w_bodies w)) ltac:(lia) ltac:(lia)). lia. }
    destruct (X i Hi) as [b Eb], (X j Hj) as [c Ec]. rewrite (G i j b), (G j i c) by auto.
    destruct (Nat.eqb_spec i j) as [E|E], (Nat.eqb_spec j i) as [E'|E']; try congruence.
    subst j. rewrite Eb in Ec. now inversion Ec.
  - intros x Hx1 Hx2. apply mass_quad_pos; auto. now rewrite Hx1.
Qed.
Print Assumptions C16_world_mass.

Example C16_case : exists w0 w,
  Forall available [exA; exB] /\ Forall (fun b => solid b /\ 0 < b_mass b) [exA; exB] /\ handler_frame ex_hd /\
  world_init pair_oracle ex_hd [] [exA; exB] [] (1/2) (1/10) 0 2 false true = Ok w0 /\
  exec 5 pair_oracle ex_hd free_engine [OStep false] w0 = Ok w /\ b_pos (hd exB (w_bodies w)) = (0 + 4 * (1/2/2), 0).
Proof.
  destruct (ex_step_dt true 5 ltac:(lia)) as (w & E & Ew).
  exists (exw true 0 0 [] 1), w. split; [|split; [|split; [|split; [|split]]]].
  - repeat constructor.
    + exists exA, []. split; [left|reflexivity]. exists 0%nat, [0; 0], 1, [0; 4; 0], 1, (1/2), (1/2), (1/10). reflexivity.
    + exists exB, []. split; [left|reflexivity]. exists 1%nat, [3; 0], 1, [0; 0; 0], 1, (1/2), (1/2), (1/10). reflexivity.
  - repeat constructor; cbn; lra.
  - apply HandlerFacts.diff_handler_frame.
  - apply ex_init_ok.
  - cbn [exec step]. change (w_dt (exw true 0 0 [] 1)) with (1/2). rewrite E. reflexivity.
  - rewrite Ew. reflexivity.
Qed.

(** C17.  The box handed to ODE is the rectangle, inflated by eps, at the body's pose. *)
Theorem C17_box_orientation :
  forall b dims vs last, reachable_body b -> b_kind b = KRect dims vs last ->
    forall q, geom_points (b_geom b) q <->
      exists x y, Rabs x <= (fst dims + 2 * b_eps b) / 2 /\ Rabs y <= (snd dims + 2 * b_eps b) / 2 /\
                  q = v2add (b_pos b) (rotate (b_rot b) (x, y)).
Proof.
  intros b dims vs last Hr Hk q. rewrite (geom_box b dims vs last Hk (reachable_geom b Hr)). split.
  - intros (q' & (x & y & Hx & Hy & E) & Eq). exists x, y. rewrite Eq, E. auto.
  - intros (x & y & Hx & Hy & E). exists (rotate (b_rot b) (x, y)). split; [exists x, y; auto|exact E].
Qed.
Print Assumptions C17_box_orientation.
Example C17_case : exists b dims vs last, reachable_body b /\ b_kind b = KRect dims vs last /\ b_rot b = 1/3.
Proof.
  destruct C15_case as (b & Hb & Hr & _ & E & _). pose proof (rect_init_inv _ _ _ _ _ _ _ _ _ Hb) as (p & _ & _ & _ & _ & _ & _ & Hk & _).
  exists b. do 3 eexists. eauto.
Qed.

(** C11.  Two bodies with points at most world eps apart have overlapping broad-phase boxes. *)
Theorem C11_broadphase_overlap :
  forall b1 b2 eps q1 q2,
    reachable_body b1 -> reachable_body b2 -> solid b1 -> solid b2 ->
    0 <= b_eps b1 -> 0 <= b_eps b2 -> eps <= b_eps b1 + b_eps b2 ->
    body_points b1 q1 -> body_points b2 q2 -> dist q1 q2 <= eps ->
    aabb_overlap (b_geom b1) (b_geom b2).
Proof.
  intros b1 b2 eps q1 q2 R1 R2 S1 S2 E1 E2 He P1 P2 Hd.
  apply (broadphase_overlap b1 b2 eps q1 q2); auto using reachable_geom.
  - unfold solid in S1. destruct (b_kind b1); tauto.
  - unfold solid in S2. destruct (b_kind b2); tauto.
Qed.
Print Assumptions C11_broadphase_overlap.
(** So in every world, with a space that reports every overlapping pair, the callback gets every
    close pair. *)
Theorem C11_no_pair_missed :
  forall fuel (o : oracle R) (hd : handler R) (e : engine R) heap bodies constraints dt eps tol
         fric_dirs ps st w0 ops w i j b1 b2 q1 q2,
    broadphase_complete o -> handler_frame hd -> Forall available bodies ->
    world_init o hd heap bodies constraints dt eps tol fric_dirs ps st = Ok w0 ->
    exec fuel o hd e ops w0 = Ok w ->
    i <> j -> nth_error (w_bodies w) i = Some b1 -> nth_error (w_bodies w) j = Some b2 ->
    solid b1 -> solid b2 -> 0 <= b_eps b1 -> 0 <= b_eps b2 -> w_eps w <= b_eps b1 + b_eps b2 ->
    body_points b1 q1 -> body_points b2 q2 -> dist q1 q2 <= w_eps w ->
    forall k, In (i, j) (o_collide o k (map b_geom (w_bodies w))) \/
              In (j, i) (o_collide o k (map b_geom (w_bodies w))).
Proof.
  intros fuel o hd e heap bodies cons dt eps tol fd ps st w0 ops w i j b1 b2 q1 q2 Hc Hf Hb H0 Hx
    Hij H1 H2 S1 S2 E1 E2 He P1 P2 Hd k.
  apply (Hc k _ i j (b_geom b1) (b_geom b2)); auto.
  - now apply map_nth_error.
  - now apply map_nth_error.
  - apply (C11_broadphase_overlap b1 b2 (w_eps w) q1 q2); auto; eapply RBworld; eauto; eapply nth_error_In; eauto.
Qed.
Print Assumptions C11_no_pair_missed.
(** an axis-aligned unit square and a circle touching its corner region diagonally *)
Example C11_case : exists b1 b2 q1 q2,
  reachable_body b1 /\ reachable_body b2 /\ solid b1 /\ solid b2 /\
  0 <= b_eps b1 /\ 0 <= b_eps b2 /\ 1/10 <= b_eps b1 + b_eps b2 /\
  body_points b1 q1 /\ body_points b2 q2 /\ dist q1 q2 <= 1/10 /\ q1 <> q2.
Proof.
  destruct C15_case as (b & Hb & Hr & _ & _ & h & Hh).
  assert (Rh : reachable_body h).
  { apply RBavailable. exists h, []. split; [right; left; do 8 eexists; exact Hh|reflexivity]. }
  set (c := {| b_id := 1; b_kind := KCircle 1; b_p := (0, (6 + 1/20, 5)); b_v := (0, (0, 0)); b_mass := 1; b_inertia := circle_inertia 1 1;
       b_fric := 1; b_rest := 1; b_eps := 1/10; b_forces := [];
       b_geom := {| g_shape := GSphere (1 + 1/10); g_pos := (6 + 1/20, 5); g_quat := None; g_no_contact := [] |} |} : body R).
  assert (Rc : reachable_body c).
  { apply RBavailable. exists c, []. split; [|reflexivity]. left.
    exists 1%nat, [6 + 1/20; 5], 1, [0; 0], 1, 1, 1, (1/10). reflexivity. }
  apply hull_init_inv in Hh. destruct Hh as (_ & _ & Hv & Hp & _ & _ & Hk & _ & _ & _ & He & _).
  assert (Ecen : get_centroid (corners 2 3) = (0, 0)).
  { apply (centroid_unique (corners 2 3)); [rewrite corners_area; lra|apply get_centroid_spec; rewrite corners_area; lra|apply corners_centroid]. }
  exists h, c, (5, 5), (5 + 1/20, 5).
  split; [exact Rh|]. split; [exact Rc|]. split; [unfold solid; now rewrite Hk|]. split; [unfold solid; cbn; lra|].
  rewrite He. split; [lra|]. split; [cbn; lra|]. split; [cbn; lra|]. split; [|split; [|split]].
  - unfold body_points. rewrite Hk, Hv, Ecen. exists [1/2; 0; 0; 1/2]. split; [reflexivity|].
    split; [repeat constructor; lra|]. split; [cbn; lra|]. unfold b_pos. rewrite Hp, Ecen.
    unfold wsum, corners. v2unfold. cbn. split; lra.
  - unfold body_points, dist. cbn. replace ((5 + 1 / 20 - (6 + 1 / 20)) * (5 + 1 / 20 - (6 + 1 / 20)) + (5 - 5) * (5 - 5)) with (1 * 1) by field.
    rewrite sqrt_square; lra.
  - unfold dist. cbn [fst snd]. replace ((5 - (5 + 1 / 20)) * (5 - (5 + 1 / 20)) + (5 - 5) * (5 - 5)) with ((1/20) * (1/20)) by field.
    rewrite sqrt_square; lra.
  - intros E. inversion E. lra.
Qed.

(** C51.  The moment of inertia of every reachable polygon body that is convex (or only star-shaped
    about its centroid) is the true one: mass times the second moment of area about the centroid
    divided by the area. *)
Theorem C51_moment_of_inertia :
  forall b J, reachable_body b -> is_circle b = false ->
    (convex (b_verts b) \/ forall p q, In (p, q) (edges (b_verts b)) -> 0 <= tri2 (0, 0) p q) ->
    is_moment (b_verts b) J ->
    b_inertia b = b_mass b / area (b_verts b) * J.
Proof.
  intros b J Hr Hk Hs HJ.
  assert (K : match b_kind b with KCircle _ => False | _ => True end)
    by (unfold is_circle in Hk; destruct (b_kind b); auto; discriminate).
  destruct (reachable_centroid b Hr K) as (_ & HA & Hc).
  apply reachable_moment; auto. intros p q Hpq. destruct Hs as [Hs|Hs].
  - eapply convex_star0; eauto.
  - specialize (Hs p q Hpq). replace (det2 p q) with (tri2 (0, 0) p q) by (v2unfold; ring). exact Hs.
Qed.
Print Assumptions C51_moment_of_inertia.
Example C51_case : exists b J, reachable_body b /\ is_circle b = false /\ convex (b_verts b) /\ is_moment (b_verts b) J.
Proof.
  destruct C15_case as (b & Hb & Hr & _ & _ & h & Hh).
  assert (Rh : reachable_body h).
  { apply RBavailable. exists h, []. split; [right; left; do 8 eexists; exact Hh|reflexivity]. }
  apply hull_init_inv in Hh. destruct Hh as (_ & _ & Hv & Hp & _ & _ & Hk & _).
  assert (Ecen : get_centroid (corners 2 3) = (0, 0)).
  { apply (centroid_unique (corners 2 3)); [rewrite corners_area; lra|apply get_centroid_spec; rewrite corners_area; lra|apply corners_centroid]. }
  destruct (is_moment_exists (b_verts h)) as [J HJ]. exists h, J. split; [exact Rh|]. split; [unfold is_circle; now rewrite Hk|].
  split; [|exact HJ]. rewrite Hv, Ecen. unfold convex, corners, edges. cbn [map combine app In].
  intros p q [E|[E|[E|[E|[]]]]] v [V|[V|[V|[V|[]]]]]; inversion E; subst; v2unfold; lra.
Qed.
