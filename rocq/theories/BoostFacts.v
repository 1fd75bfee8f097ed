(** Frames of reference: bodies, joints, contact detection and the stepping loop *)
From Coq Require Import List Arith ZArith Bool Reals Lra Lia.
From Verif Require Import Num Tensor Utils Bodies Forces Constraints Contacts World Lapack Pdipm Lcp Engines Spec GeoSpec JointSpec EngineSpec BoostSpec
     RBase ResFacts LinAlg LapackSpec WorldFacts HandlerFacts LayoutFacts LcpBoost.
Import ListNotations.
Open Scope R_scope.

Ltac pairs := unfold shift3, v2add, v2sub, v2opp, v2scale, v3add, v3scale; cbn [fst snd]; rnum.

(** *** bodies *)
Lemma v2add_0 d : v2add d (0, 0) = d :> v2 R.
Proof. destruct d. pairs. f_equal; ring. Qed.
Lemma rel_shift (x p q d : v2 R) : v2sub (v2add x (v2add p d)) (v2add q d) = v2sub (v2add x p) q.
Proof. pairs. f_equal; ring. Qed.
Lemma sub_shift (p q d : v2 R) : v2sub (v2add p d) (v2add q d) = v2sub p q.
Proof. pairs. f_equal; ring. Qed.
Lemma boost_set_p U d d' b np : set_p (boost_body U d' b) (shift3 d np) = boost_body U d (set_p b np).
Proof.
  unfold set_p. cbn [boost_body b_kind b_p shift3 fst]. destruct (b_kind b) as [r|vs l|dm vs l] eqn:K; [reflexivity| |]; destruct (neqb _ _); reflexivity.
Qed.
Lemma boost_move U d b dt : move (boost_body U d b) dt = boost_body U (v2add d (v2scale dt U)) (move b dt).
Proof.
  unfold move. rewrite <- (boost_set_p U _ d). f_equal. cbn [boost_body b_p b_v]. unfold v3add, v3scale, shift3, v2add, v2scale. cbn [fst snd]. rnum. do 2 f_equal; ring.
Qed.
Lemma boost_with_v U U' d b v : with_v (boost_body U' d b) (shift3 U v) = boost_body U d (with_v b v).
Proof. reflexivity. Qed.
Lemma boost_set_last U d b i : set_last (boost_body U d b) i = boost_body U d (set_last b i).
Proof. unfold set_last. cbn [boost_body b_kind]. destruct (b_kind b); reflexivity. Qed.
Lemma boost_verts U d b : b_verts (boost_body U d b) = b_verts b. Proof. reflexivity. Qed.
Lemma boost_pos U d b : b_pos (boost_body U d b) = v2add (b_pos b) d. Proof. reflexivity. Qed.

(** *** constraints *)
Lemma boost_j_move U d d' j b1 ob2 dt : j_move (shift_joint d j) (boost_body U d' b1) (option_map (boost_body U d') ob2) dt = shift_joint d' (j_move j b1 ob2 dt).
Proof.
  unfold j_move, j_update_pos, j_with_rots. cbn [shift_joint j_kind]. destruct (j_kind j); destruct ob2 as [b2|]; cbn [option_map shift_joint j_kind j_b1 j_b2 j_pos j_pos1 j_pos2 j_r1 j_rot1 j_rot2];
    unfold shift_joint; cbn [j_kind j_b1 j_b2 j_pos j_pos1 j_pos2 j_r1 j_rot1 j_rot2]; f_equal; rewrite ?boost_pos; cbn [boost_body b_v shift3 fst]; pairs; try reflexivity; f_equal; try ring.
Qed.
Lemma boost_j_update U d d' j b1 ob2 : j_update_pos (shift_joint d j) (boost_body U d' b1) (option_map (boost_body U d') ob2) = shift_joint d' (j_update_pos j b1 ob2).
Proof.
  unfold j_update_pos. cbn [shift_joint j_kind]. destruct (j_kind j); destruct ob2 as [b2|]; cbn [option_map shift_joint j_kind j_b1 j_b2 j_pos j_pos1 j_pos2 j_r1 j_rot1 j_rot2];
    unfold shift_joint; cbn [j_kind j_b1 j_b2 j_pos j_pos1 j_pos2 j_r1 j_rot1 j_rot2]; f_equal; rewrite ?boost_pos; cbn [boost_body b_v shift3 fst]; pairs; try reflexivity; f_equal; try ring.
Qed.
Lemma boost_get_body U d bs i : get_body (map (boost_body U d) bs) i = rmap (boost_body U d) (get_body bs i).
Proof. unfold get_body. rewrite nth_error_map. destruct (nth_error bs i); reflexivity. Qed.
Lemma boost_joint_bodies U d bs i1 i2 : joint_bodies (map (boost_body U d) bs) i1 i2 =
  rmap (fun p => (boost_body U d (fst p), option_map (boost_body U d) (snd p))) (joint_bodies bs i1 i2).
Proof.
  unfold joint_bodies. rewrite boost_get_body. destruct (get_body bs i1) as [b1|]; [|reflexivity]. cbn [rmap bind]. destruct i2 as [i|]; [|reflexivity].
  rewrite boost_get_body. destruct (get_body bs i) as [b2|]; reflexivity.
Qed.

(** *** flat vectors *)
Lemma uniform_length U n : length (uniform U n) = (3 * n)%nat.
Proof. unfold uniform. now rewrite cat3_length, repeat_length. Qed.
Lemma v3_at_uniform U n i : (i < n)%nat -> v3_at (uniform U n) i = (0, U).
Proof. intros H. unfold uniform. rewrite (v3_at_cat3 _ i v3zero) by (now rewrite repeat_length). rewrite (nth_indep _ _ (0, U)) by (now rewrite repeat_length). apply nth_repeat. Qed.
Lemma v3_at_vadd (x y : vecR) i n : length x = (3 * n)%nat -> length y = (3 * n)%nat -> (i < n)%nat -> v3_at (vadd x y) i = v3add (v3_at x i) (v3_at y i).
Proof. intros Hx Hy Hi. unfold v3_at, v3add, v2add. cbn [fst snd]. rnum. rewrite !vget_vadd by lia. reflexivity. Qed.
Lemma v3_at_shift (x : vecR) d i n : length x = (3 * n)%nat -> (i < n)%nat -> v3_at (vadd x (uniform d n)) i = shift3 d (v3_at x i).
Proof. intros Hx Hi. rewrite (v3_at_vadd _ _ _ n) by (auto using uniform_length). rewrite v3_at_uniform by auto. unfold v3add, shift3. cbn [fst snd]. rnum. f_equal. ring. Qed.
Lemma cat3_shift (l : list (v3 R)) d : cat3 (map (shift3 d) l) = vadd (cat3 l) (uniform d (length l)).
Proof.
  induction l as [|p l IH]; [reflexivity|]. cbn [map cat3 flat_map length repeat uniform]. unfold uniform in *. cbn [repeat cat3 flat_map] in *. unfold cat3 in IH. rewrite IH.
  unfold shift3, v3list, v2add. cbn [fst snd app vadd vmap2]. rnum. f_equal. ring.
Qed.
Lemma uniform_0 n : uniform (0, 0) n = vzeros (3 * n).
Proof. unfold uniform. induction n as [|n IH]; [reflexivity|]. replace (3 * S n)%nat with (S (S (S (3 * n)))) by lia. cbn [repeat cat3 flat_map v3list fst snd app vzeros]. unfold cat3, vzeros in *. now rewrite IH. Qed.
Lemma mapi_map_ext {A B C} (f : nat -> B -> C) (g : nat -> A -> C) (h : A -> B) (l : list A) :
  (forall i a, nth_error l i = Some a -> f i (h a) = g i a) -> mapi f (map h l) = mapi g l.
Proof.
  intros H. unfold mapi. assert (K : forall k, (forall i a, nth_error l i = Some a -> f (k + i)%nat (h a) = g (k + i)%nat a) -> mapi_from k f (map h l) = mapi_from k g l).
  { clear. induction l as [|a l IH]; intros k H; [reflexivity|]. cbn [map mapi_from]. f_equal.
    - specialize (H 0%nat a eq_refl). now rewrite Nat.add_0_r in H.
    - apply IH. intros i b Hb. specialize (H (S i) b Hb). now rewrite Nat.add_succ_r in H. }
  apply K. exact H.
Qed.
Lemma map_mapi {A B C} (f : nat -> A -> B) (h : B -> C) l : map h (mapi f l) = mapi (fun i a => h (f i a)) l.
Proof. unfold mapi. generalize 0%nat. induction l as [|a l IH]; intros k; cbn; [reflexivity|]. now rewrite IH. Qed.

(** *** setting velocities, moving, rewinding *)
Notation bjs d := (map (fun '(j, i1, i2) => (shift_joint d j, i1, i2))).
Lemma boost_set_v U U' d w v w' : set_v w v = Ok w' -> set_v (boost_world U' d w) (vadd v (uniform U (length (w_bodies w)))) = Ok (boost_world U d w').
Proof.
  unfold set_v. intros H. destruct (Nat.eqb (length v) (3 * length (w_bodies w))) eqn:E; [|discriminate]. injection H as <-. apply Nat.eqb_eq in E.
  cbn [boost_world with_state w_bodies]. rewrite map_length, vadd_length, uniform_length, E, Nat.min_id, Nat.eqb_refl. f_equal.
  unfold boost_world, with_state. cbn [w_bodies w_joints w_heap w_t w_dt w_eps w_tol w_fric_dirs w_post_stab w_strict w_v w_contacts w_static_inverse w_num_constraints w_M w_cache w_clk].
  rewrite mapi_length', map_mapi. f_equal. apply mapi_map_ext. intros i b Hb. rewrite v3_at_shift by (auto; apply nth_error_Some; congruence). apply boost_with_v.
Qed.
Lemma boost_set_v0 U d w v w' : set_v w v = Ok w' -> set_v (boost_world U d w) v = Ok (boost_world (0, 0) d w').
Proof.
  intros H. pose proof (boost_set_v (0, 0) U d w v w' H) as K. rewrite uniform_0, vadd_zeros_r in K; [exact K|].
  unfold set_v in H. destruct (Nat.eqb _ _) eqn:E; [now apply Nat.eqb_eq in E|discriminate].
Qed.
Lemma boost_move_all U d w dt : move_all (boost_world U d w) dt = rmap (boost_world U (v2add d (v2scale dt U))) (move_all w dt).
Proof.
  unfold move_all. cbn [boost_world with_state w_bodies w_joints]. set (d' := v2add d (v2scale dt U)).
  assert (E : map (fun b => move b dt) (map (boost_body U d) (w_bodies w)) = map (boost_body U d') (map (fun b => move b dt) (w_bodies w))).
  { rewrite !map_map. apply map_ext. intros b. apply boost_move. }
  rewrite E. rewrite (mapM_rmap (fun '(j, i1, i2) => do jb <- joint_bodies (map (fun b => move b dt) (w_bodies w)) i1 i2; Ok (j_move j (fst jb) (snd jb) dt, i1, i2)) _ _ (fun '(j, i1, i2) => (shift_joint d' j, i1, i2))).
  2:{ intros [[j i1] i2] _. rewrite boost_joint_bodies. destruct (joint_bodies _ i1 i2) as [[b1 ob2]|er]; [|reflexivity]. cbn [rmap bind fst snd]. now rewrite boost_j_move. }
  destruct (mapM _ (w_joints w)) as [js|er]; [|reflexivity]. cbn [rmap bind]. unfold boost_world, with_joints, with_bodies, with_state.
  cbn [w_bodies w_joints w_heap w_t w_dt w_eps w_tol w_fric_dirs w_post_stab w_strict w_v w_contacts w_static_inverse w_num_constraints w_M w_cache w_clk]. now rewrite map_length.
Qed.
Lemma boost_rewind U d d' w sp sr : length sp = (3 * length (w_bodies w))%nat ->
  rewind (boost_world U d' w) (vadd sp (uniform d (length (w_bodies w)))) sr = rmap (boost_world U d) (rewind w sp sr).
Proof.
  intros Hl. unfold rewind, world_set_p. cbn [boost_world with_bodies with_state w_bodies w_joints].
  assert (E : mapi (fun i b => set_p b (v3_at (vadd sp (uniform d (length (w_bodies w)))) i)) (map (boost_body U d') (w_bodies w)) = map (boost_body U d) (mapi (fun i b => set_p b (v3_at sp i)) (w_bodies w))).
  { rewrite map_mapi. apply mapi_map_ext. intros i b Hb. rewrite v3_at_shift by (auto; apply nth_error_Some; congruence). apply boost_set_p. }
  rewrite E. set (bs := mapi _ (w_bodies w)).
  assert (Ec : combine (bjs d' (w_joints w)) sr = map (fun '((j, i1, i2), c) => ((shift_joint d' j, i1, i2), c)) (combine (w_joints w) sr)).
  { clear. revert sr. induction (w_joints w) as [|[[j i1] i2] js IH]; intros [|c sr]; cbn [map combine]; auto. now rewrite IH. }
  rewrite Ec. rewrite (mapM_rmap (fun '((j, i1, i2), c) => do jb <- joint_bodies bs i1 i2; Ok (j_update_pos (j_with_rots j (fst c) (j_rot2 j)) (fst jb) (snd jb), i1, i2)) _ _ (fun '(j, i1, i2) => (shift_joint d j, i1, i2))).
  2:{ intros [[[j i1] i2] c] _. rewrite boost_joint_bodies. destruct (joint_bodies bs i1 i2) as [[b1 ob2]|er]; [|reflexivity]. cbn [rmap bind fst snd].
      now rewrite <- (boost_j_update U d' d). }
  destruct (mapM _ (combine (w_joints w) sr)) as [js|er]; [|reflexivity]. cbn [rmap bind]. unfold boost_world, with_joints, with_bodies, with_state, bs.
  cbn [w_bodies w_joints w_heap w_t w_dt w_eps w_tol w_fric_dirs w_post_stab w_strict w_v w_contacts w_static_inverse w_num_constraints w_M w_cache w_clk]. now rewrite mapi_length'.
Qed.

(** *** contact detection *)
Definition equivariant (hd : handler R) : Prop := forall U d eps clk bs i1 i2,
  hd eps clk (map (boost_body U d) bs) i1 i2 = rmap (fun '(cs, bs', clk') => (cs, map (boost_body U d) bs', clk')) (hd eps clk bs i1 i2).
Lemma fold_ext {A B} (f g : A -> B -> A) l a : (forall x y, f x y = g x y) -> fold_left f l a = fold_left g l a.
Proof. intros H. revert a. induction l as [|b l IH]; intros a; [reflexivity|]. cbn. now rewrite H, IH. Qed.
Lemma boost_separations U d b1 b2 eps : test_separations (boost_body U d b1) (boost_body U d b2) eps = test_separations b1 b2 eps.
Proof.
  unfold test_separations. change (b_verts (boost_body U d b1)) with (b_verts b1). change (b_last (boost_body U d b1)) with (b_last b1).
  rewrite (fold_ext _ (sep_step b1 b2 eps)); [reflexivity|]. intros r i. unfold sep_step. destruct r as [st|er]; [|reflexivity]. cbn [bind]. destruct (st_ret st); [reflexivity|].
  rewrite !boost_verts, !boost_pos. destruct (get_support _ _) as [sup|er]; [|reflexivity]. cbn [bind]. rewrite rel_shift. destruct (nltb _ _); [|reflexivity]. destruct (nltb _ _); [reflexivity|].
  now rewrite rel_shift.
Qed.
Lemma boost_clip U d ref inc n en ri iv eps : clip_face (boost_body U d ref) (boost_body U d inc) n en ri iv eps = clip_face ref inc n en ri iv eps.
Proof.
  unfold clip_face. rewrite !boost_verts, !boost_pos, !rel_shift. destruct (clip_segment_to_line _ _ _ _) as [|c0 [|c1 l]]; try reflexivity.
  generalize (clip_segment_to_line c0 c1 (v2opp (left_orthogonal n)) (en / 2)). intros cl. rewrite !flat_map_concat_map. f_equal. apply map_ext. intros v.
  destruct (nleb _ _); [|reflexivity]. now rewrite rel_shift.
Qed.
Lemma boost_hull_hull U d b1 b2 eps : hull_hull (boost_body U d b1) (boost_body U d b2) eps =
  rmap (fun '(ps, c1, c2) => (ps, boost_body U d c1, boost_body U d c2)) (hull_hull b1 b2 eps).
Proof.
  unfold hull_hull. rewrite boost_separations. destruct (test_separations b1 b2 eps) as [c1|er]; [|reflexivity]. cbn [bind]. rewrite boost_set_last. destruct (nltb _ _); [reflexivity|].
  rewrite boost_separations. destruct (test_separations b2 _ eps) as [c2|er]; [|reflexivity]. cbn [bind]. rewrite boost_set_last. destruct (nltb _ _); [reflexivity|].
  destruct (nltb _ _).
  - destruct (sep_info c2) as [[[[[p1 p2] nn] vtx] en]|]; [|reflexivity]. now rewrite boost_clip.
  - destruct (sep_info c1) as [[[[[p1 p2] nn] vtx] en]|]; [|reflexivity]. now rewrite boost_clip.
Qed.
Lemma boost_circle_circle U d b1 b2 eps : circle_circle (boost_body U d b1) (boost_body U d b2) eps = circle_circle b1 b2 eps.
Proof. unfold circle_circle. rewrite !boost_pos, sub_shift. reflexivity. Qed.
Lemma boost_circle_hull U d fuel c hu eps start : circle_hull fuel (boost_body U d c) (boost_body U d hu) eps start =
  rmap (fun '(p, h) => (p, boost_body U d h)) (circle_hull fuel c hu eps start).
Proof.
  unfold circle_hull. rewrite !boost_pos, sub_shift, boost_verts. destruct (gjk _ _ _ _) as [[closest ids]|er]; [|reflexivity]. cbn [bind].
  change (b_rad (boost_body U d c)) with (b_rad c). change (b_last (boost_body U d hu)) with (b_last hu).
  destruct (Nat.ltb _ _).
  - rewrite rel_shift. destruct (nltb _ _); reflexivity.
  - rewrite boost_set_last. destruct (ss_exit _); [reflexivity|]. destruct (ss_best _) as [[n p2]|]; [|reflexivity]. now rewrite rel_shift.
Qed.
Lemma diff_equivariant gf o : equivariant (diff_handler gf o).
Proof.
  intros U d eps clk bs i1 i2. unfold diff_handler. rewrite !boost_get_body. destruct (get_body bs i1) as [b1|]; [|reflexivity]. cbn [rmap bind].
  destruct (get_body bs i2) as [b2|]; [|reflexivity]. cbn [rmap bind]. change (g_no_contact (b_geom (boost_body U d b2))) with (g_no_contact (b_geom b2)). change (b_id (boost_body U d b1)) with (b_id b1).
  destruct (existsb _ _); [reflexivity|]. change (is_circle (boost_body U d b1)) with (is_circle b1). change (is_circle (boost_body U d b2)) with (is_circle b2).
  destruct (is_circle b1 && is_circle b2)%bool. { rewrite boost_circle_circle. reflexivity. }
  destruct (is_circle b1 || is_circle b2)%bool.
  - destruct (is_circle b2).
    + rewrite boost_verts. destruct (Nat.eqb _ 0); [reflexivity|]. rewrite boost_circle_hull. destruct (circle_hull gf b2 b1 eps _) as [[op h]|er]; [|reflexivity]. cbn [rmap bind]. now rewrite upd_map.
    + rewrite boost_verts. destruct (Nat.eqb _ 0); [reflexivity|]. rewrite boost_circle_hull. destruct (circle_hull gf b1 b2 eps _) as [[op h]|er]; [|reflexivity]. cbn [rmap bind]. now rewrite upd_map.
  - rewrite boost_hull_hull. destruct (hull_hull b1 b2 eps) as [[[ps c1] c2]|er]; [|reflexivity]. cbn [rmap bind]. now rewrite !upd_map.
Qed.
Lemma ode_equivariant o : translation_invariant o -> equivariant (ode_handler o).
Proof.
  intros [_ Hn] U d eps clk bs i1 i2. unfold ode_handler. rewrite !boost_get_body. destruct (get_body bs i1) as [b1|]; [|reflexivity]. cbn [rmap bind].
  destruct (get_body bs i2) as [b2|]; [|reflexivity]. cbn [rmap bind]. change (g_no_contact (b_geom (boost_body U d b2))) with (g_no_contact (b_geom b2)). change (b_id (boost_body U d b1)) with (b_id b1).
  destruct (existsb _ _); [reflexivity|]. change (b_geom (boost_body U d b1)) with (shift_geom d (b_geom b1)). change (b_geom (boost_body U d b2)) with (shift_geom d (b_geom b2)). rewrite Hn.
  match goal with |- context [fold_left ?f (map _ ?l) ?a] => assert (E : forall a', fold_left f (map (shift_point d) l) a' =
    fold_left (fun (acc : list (contact R) * bool) '(pt, normal, depth) =>
             let '(cs, done) := acc in
             if done then (cs, done)
             else if nltb 0 (snd pt) then (cs, done)
             else
               let pen := depth - 2 * eps in
               if nltb pen (-2 * eps) then (cs, true)
               else (cs ++ [mkContact normal (v2sub (fst pt) (g_pos (b_geom b1)))
                                      (v2sub (fst pt) (g_pos (b_geom b2))) pen i1 i2], done)) l a') end.
  { induction (o_narrow o clk (b_geom b1) (b_geom b2)) as [|[[pt n] depth] l IH]; intros a; [reflexivity|]. cbn [map fold_left shift_point]. rewrite IH. clear IH. f_equal. destruct a as [cs done].
    destruct done; [reflexivity|]. cbn [snd fst]. destruct (nltb _ _); [reflexivity|]. destruct (nltb _ _); [reflexivity|]. cbn [shift_geom g_pos]. now rewrite !sub_shift. }
  rewrite E. rnum. match goal with |- context [fold_left ?f ?l ?a] => destruct (fold_left f l a) as [cs done] end. reflexivity.
Qed.
Lemma boost_find U d o hd w : translation_invariant o -> equivariant hd -> handler_frame hd -> find_contacts o hd (boost_world U d w) = rmap (boost_world U d) (find_contacts o hd w).
Proof.
  intros [Ho _] He Hf. unfold find_contacts. cbn [boost_world with_state w_bodies w_clk w_eps]. rewrite map_map.
  assert (Eg : map (fun b => b_geom (boost_body U d b)) (w_bodies w) = map (shift_geom d) (map b_geom (w_bodies w))) by (rewrite map_map; reflexivity).
  rewrite Eg, Ho. generalize (o_collide o (w_clk w) (map b_geom (w_bodies w))). intros pairs. clear Eg.
  set (F := fun acc '(i1, i2) => do s <- acc; let '(cs, bs, clk) := s in do r <- hd (w_eps w) clk bs i1 i2; let '(new, bs', clk') := r in Ok (cs ++ new, bs', clk')).
  set (h := fun p : list (contact R) * list (body R) * nat => let '(cs, bs, clk) := p in (cs, map (boost_body U d) bs, clk)).
  assert (E : forall acc, fold_left F pairs (rmap h acc) = rmap h (fold_left F pairs acc)).
  { induction pairs as [|[i1 i2] ps IH]; intros acc; [reflexivity|]. cbn [fold_left]. rewrite <- IH. f_equal. unfold F. destruct acc as [[[cs bs] clk]|er]; [|reflexivity]. cbn [rmap bind h].
    rewrite He. destruct (hd (w_eps w) clk bs i1 i2) as [[[new bs'] clk']|er]; reflexivity. }
  specialize (E (Ok ([], w_bodies w, S (w_clk w)))). cbn [rmap h] in E. rewrite E. clear E.
  assert (L : forall cs bs clk, fold_left F pairs (Ok ([], w_bodies w, S (w_clk w))) = Ok (cs, bs, clk) -> length bs = length (w_bodies w)).
  { assert (G : forall acc cs bs clk, (forall cs0 bs0 clk0, acc = Ok (cs0, bs0, clk0) -> length bs0 = length (w_bodies w)) -> fold_left F pairs acc = Ok (cs, bs, clk) -> length bs = length (w_bodies w)).
    { induction pairs as [|[i1 i2] ps IH]; intros acc cs bs clk Ha H; [eapply Ha; exact H|]. cbn [fold_left] in H. eapply IH; [|exact H].
      intros cs0 bs0 clk0 H0. unfold F in H0. bind_inv H0 as s Es. destruct s as [[cs1 bs1] clk1]. bind_inv H0 as r Er. destruct r as [[new bs2] clk2]. injection H0 as <- <- <-.
      rewrite <- (Ha _ _ _ Es), <- (map_length forget), <- (map_length forget bs1). f_equal. eapply Hf; eauto. }
    intros cs bs clk. apply G. intros cs0 bs0 clk0 H. now injection H as <- <- <-. }
  destruct (fold_left F pairs _) as [[[cs bs] clk]|er]; [|reflexivity]. specialize (L _ _ _ eq_refl).
  cbn [rmap bind h]. unfold boost_world, with_state. cbn. now rewrite L.
Qed.
