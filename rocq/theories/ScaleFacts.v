(** Units of mass and time: bodies, contact detection, moves, the engine without contacts, histories *)
From Coq Require Import List Arith ZArith Bool Reals Lra Lia.
From Verif Require Import Num Tensor Utils Bodies Forces Constraints Contacts World Lapack Pdipm Lcp Engines Spec GeoSpec BodySpec JointSpec FreshSpec EngineSpec SymSpec ScaleSpec ContactSpec
     RBase ResFacts LinAlg LapackSpec KktSpec PdipmSpec WorldFacts HandlerFacts LayoutFacts HistFacts SysFacts RewindFacts JointFacts JeFacts FreshFacts
     CacheFacts BodyReach GeomFacts PdipmFacts PdipmLoop SolverFacts EngineFacts ContactSys EngineBalance ContactLaw EngineProps LcpBoost BoostFacts BoostRun.
Import ListNotations.
Open Scope R_scope.

Lemma app_inj_lengths {A} (a b c d : list A) : a ++ b = c ++ d -> length a = length c -> a = c /\ b = d.
Proof. revert c. induction a as [|x a IH]; intros [|y c] E L; try discriminate; [auto|]. injection E as -> E. destruct (IH c E) as [-> ->]; [now injection L|auto]. Qed.

Lemma Forall2_left {A B} (r : A -> B -> Prop) l l' i a : Forall2 r l l' -> nth_error l i = Some a -> exists b, nth_error l' i = Some b /\ r a b.
Proof. intros H. revert i. induction H as [|x y l l' Hxy _ IH]; intros [|i] E; try discriminate; cbn [nth_error] in *; [injection E as <-; eauto|auto]. Qed.

Section Units.
Variables (c tau : R).
Hypothesis Hc : 0 < c.
Hypothesis Ht : 0 < tau.
Notation rb := (rescale_body c tau).
Notation slow := (v3scale (/ tau)).

Lemma rs_set_p b np : set_p (rb b) np = rb (set_p b np).
Proof.
  unfold set_p. destruct b as [id k p v m i f r e fs g]. cbn [rescale_body b_kind b_p]. destruct k; cbn [b_kind]; try reflexivity; match goal with |- context [if ?t then _ else _] => destruct t end; reflexivity.
Qed.
Lemma slow_move (p v : v3 R) dt : v3add p (v3scale (tau * dt) (slow v)) = v3add p (v3scale dt v).
Proof. destruct p as [p1 [p2 p3]], v as [v1 [v2 v3]]. unfold v3add, v3scale, v2add, v2scale. cbn [fst snd]. rnum. f_equal; [field; lra|f_equal; field; lra]. Qed.
Lemma rs_move b dt : move (rb b) (tau * dt) = rb (move b dt).
Proof. unfold move. cbn [rescale_body b_p b_v]. rnum. change (tau * dt)%R with (tau * dt). rewrite slow_move. apply rs_set_p. Qed.
Lemma rs_with_v b v : with_v (rb b) (slow v) = rb (with_v b v). Proof. reflexivity. Qed.
Lemma rs_set_last b i : set_last (rb b) i = rb (set_last b i).
Proof. unfold set_last. cbn [rescale_body b_kind]. destruct (b_kind b); reflexivity. Qed.
Lemma rs_j_move j b1 ob2 dt : j_move j (rb b1) (option_map rb ob2) (tau * dt) = j_move j b1 ob2 dt.
Proof.
  assert (E : forall b, fst (b_v (rb b)) * (tau * dt) = fst (b_v b) * dt) by (intros b; cbn; field; lra).
  unfold j_move. destruct (j_kind j); destruct ob2 as [b2|]; cbn [option_map]; rnum; rewrite ?E; reflexivity.
Qed.
Lemma rs_j_update j b1 ob2 : j_update_pos j (rb b1) (option_map rb ob2) = j_update_pos j b1 ob2.
Proof. destruct ob2; reflexivity. Qed.
Lemma rs_get_body bs i : get_body (map rb bs) i = rmap rb (get_body bs i).
Proof. unfold get_body. rewrite nth_error_map. destruct (nth_error bs i); reflexivity. Qed.
Lemma rs_joint_bodies bs i1 i2 : joint_bodies (map rb bs) i1 i2 = rmap (fun p => (rb (fst p), option_map rb (snd p))) (joint_bodies bs i1 i2).
Proof.
  unfold joint_bodies. rewrite rs_get_body. destruct (get_body bs i1) as [b1|]; [|reflexivity]. cbn [rmap bind]. destruct i2 as [i|]; [|reflexivity].
  rewrite rs_get_body. destruct (get_body bs i); reflexivity.
Qed.
Lemma v3_at_slow (x : vecR) i : v3_at (vscale (/ tau) x) i = slow (v3_at x i).
Proof. unfold v3_at, v3scale, v2scale. cbn [fst snd]. rewrite !vget_vscale. reflexivity. Qed.
Lemma cat3_slow (l : list (v3 R)) k : cat3 (map (v3scale k) l) = vscale k (cat3 l).
Proof. induction l as [|a l IH]; [reflexivity|]. cbn [map cat3 flat_map]. unfold cat3 in IH. rewrite IH, vscale_app. reflexivity. Qed.

(** *** the world *)
Variable h' : fheap R.
Definition rw (k : option (mat R)) (w : world R) : world R :=
  {| w_bodies := map rb (w_bodies w); w_joints := w_joints w; w_heap := h'; w_t := tau * w_t w; w_dt := tau * w_dt w;
     w_eps := w_eps w; w_tol := w_tol w; w_fric_dirs := w_fric_dirs w; w_post_stab := w_post_stab w; w_strict := w_strict w;
     w_v := vscale (/ tau) (w_v w); w_contacts := w_contacts w; w_static_inverse := w_static_inverse w;
     w_num_constraints := w_num_constraints w; w_M := map (vscale c) (w_M w); w_cache := k; w_clk := w_clk w |}.
Lemma rw_rescaled k w : Forall2 (rescaled_force c tau) (w_heap w) h' -> rescaled c tau w (rw k w).
Proof. intros H. constructor; try reflexivity. exact H. Qed.

Lemma rs_set_v k w v : set_v (rw k w) (vscale (/ tau) v) = rmap (rw k) (set_v w v).
Proof.
  unfold set_v. cbn [rw w_bodies]. rewrite map_length, vscale_length. destruct (Nat.eqb _ _); [|reflexivity]. cbn [rmap]. f_equal.
  unfold rw, with_state. cbn [w_bodies w_joints w_heap w_t w_dt w_eps w_tol w_fric_dirs w_post_stab w_strict w_v w_contacts w_static_inverse w_num_constraints w_M w_cache w_clk].
  rewrite map_mapi. f_equal. apply mapi_map_ext. intros i b _. rewrite v3_at_slow. apply rs_with_v.
Qed.
Lemma rs_move_all k w dt : move_all (rw k w) (tau * dt) = rmap (rw k) (move_all w dt).
Proof.
  unfold move_all. cbn [rw w_bodies w_joints].
  assert (E : map (fun b => move b (tau * dt)) (map rb (w_bodies w)) = map rb (map (fun b => move b dt) (w_bodies w))).
  { rewrite !map_map. apply map_ext. intros b. apply rs_move. }
  rewrite E. rewrite <- (map_id (w_joints w)) at 1.
  rewrite (mapM_rmap (fun '(j, i1, i2) => do jb <- joint_bodies (map (fun b => move b dt) (w_bodies w)) i1 i2; Ok (j_move j (fst jb) (snd jb) dt, i1, i2)) _ (fun x => x) (fun x => x)).
  2:{ intros [[j i1] i2] _. rewrite rs_joint_bodies. destruct (joint_bodies _ i1 i2) as [[b1 ob2]|er]; [|reflexivity]. cbn [rmap bind fst snd]. now rewrite rs_j_move. }
  destruct (mapM _ (w_joints w)) as [js|er]; [|reflexivity]. cbn [rmap bind]. rewrite map_id. reflexivity.
Qed.
Lemma rs_rewind k w sp sr : rewind (rw k w) sp sr = rmap (rw k) (rewind w sp sr).
Proof.
  unfold rewind, world_set_p. cbn [rw with_bodies with_state w_bodies w_joints].
  assert (E : mapi (fun i b => set_p b (v3_at sp i)) (map rb (w_bodies w)) = map rb (mapi (fun i b => set_p b (v3_at sp i)) (w_bodies w))).
  { rewrite map_mapi. apply mapi_map_ext. intros i b _. apply rs_set_p. }
  rewrite E. set (bs := mapi _ (w_bodies w)).
  rewrite <- (map_id (combine (w_joints w) sr)) at 1.
  rewrite (mapM_rmap (fun '((j, i1, i2), x) => do jb <- joint_bodies bs i1 i2; Ok (j_update_pos (j_with_rots j (fst x) (j_rot2 j)) (fst jb) (snd jb), i1, i2)) _ (fun x => x) (fun x => x)).
  2:{ intros [[[j i1] i2] x] _. rewrite rs_joint_bodies. destruct (joint_bodies bs i1 i2) as [[b1 ob2]|er]; [|reflexivity]. cbn [rmap bind fst snd].
      now rewrite rs_j_update. }
  destruct (mapM _ (combine (w_joints w) sr)) as [js|er]; [|reflexivity]. cbn [rmap bind]. rewrite map_id. reflexivity.
Qed.

(** *** contact detection sees neither masses nor velocities *)
Definition blind (hd : handler R) : Prop := forall eps clk bs i1 i2,
  hd eps clk (map rb bs) i1 i2 = rmap (fun '(cs, bs', clk') => (cs, map rb bs', clk')) (hd eps clk bs i1 i2).
Lemma rs_verts b : b_verts (rb b) = b_verts b. Proof. reflexivity. Qed.
Lemma rs_pos b : b_pos (rb b) = b_pos b. Proof. reflexivity. Qed.
Lemma rs_separations b1 b2 eps : test_separations (rb b1) (rb b2) eps = test_separations b1 b2 eps.
Proof. reflexivity. Qed.
Lemma rs_clip ref inc n en ri iv eps : clip_face (rb ref) (rb inc) n en ri iv eps = clip_face ref inc n en ri iv eps.
Proof. reflexivity. Qed.
Lemma rs_hull_hull b1 b2 eps : hull_hull (rb b1) (rb b2) eps = rmap (fun '(ps, c1, c2) => (ps, rb c1, rb c2)) (hull_hull b1 b2 eps).
Proof.
  unfold hull_hull. rewrite rs_separations. destruct (test_separations b1 b2 eps) as [c1|er]; [|reflexivity]. cbn [bind]. rewrite rs_set_last. destruct (nltb _ _); [reflexivity|].
  rewrite rs_separations. destruct (test_separations b2 _ eps) as [c2|er]; [|reflexivity]. cbn [bind]. rewrite rs_set_last. destruct (nltb _ _); [reflexivity|].
  destruct (nltb _ _).
  - destruct (sep_info c2) as [[[[[p1 p2] nn] vtx] en]|]; [|reflexivity]. now rewrite rs_clip.
  - destruct (sep_info c1) as [[[[[p1 p2] nn] vtx] en]|]; [|reflexivity]. now rewrite rs_clip.
Qed.
Lemma rs_circle_hull fuel b hu eps start : circle_hull fuel (rb b) (rb hu) eps start = rmap (fun '(p, h) => (p, rb h)) (circle_hull fuel b hu eps start).
Proof.
  unfold circle_hull. rewrite !rs_pos, rs_verts. destruct (gjk _ _ _ _) as [[closest ids]|er]; [|reflexivity]. cbn [bind].
  change (b_rad (rb b)) with (b_rad b). change (b_last (rb hu)) with (b_last hu).
  destruct (Nat.ltb _ _).
  - destruct (nltb _ _); reflexivity.
  - rewrite rs_set_last. destruct (ss_exit _); [reflexivity|]. destruct (ss_best _) as [[n p2]|]; reflexivity.
Qed.
Lemma diff_blind gf o : blind (diff_handler gf o).
Proof.
  intros eps clk bs i1 i2. unfold diff_handler. rewrite !rs_get_body. destruct (get_body bs i1) as [b1|]; [|reflexivity]. cbn [rmap bind].
  destruct (get_body bs i2) as [b2|]; [|reflexivity]. cbn [rmap bind]. change (g_no_contact (b_geom (rb b2))) with (g_no_contact (b_geom b2)). change (b_id (rb b1)) with (b_id b1).
  destruct (existsb _ _); [reflexivity|]. change (is_circle (rb b1)) with (is_circle b1). change (is_circle (rb b2)) with (is_circle b2).
  destruct (is_circle b1 && is_circle b2)%bool; [reflexivity|].
  destruct (is_circle b1 || is_circle b2)%bool.
  - destruct (is_circle b2).
    + rewrite rs_verts. destruct (Nat.eqb _ 0); [reflexivity|]. rewrite rs_circle_hull. destruct (circle_hull gf b2 b1 eps _) as [[op h]|er]; [|reflexivity]. cbn [rmap bind]. now rewrite upd_map.
    + rewrite rs_verts. destruct (Nat.eqb _ 0); [reflexivity|]. rewrite rs_circle_hull. destruct (circle_hull gf b1 b2 eps _) as [[op h]|er]; [|reflexivity]. cbn [rmap bind]. now rewrite upd_map.
  - rewrite rs_hull_hull. destruct (hull_hull b1 b2 eps) as [[[ps c1] c2]|er]; [|reflexivity]. cbn [rmap bind]. now rewrite !upd_map.
Qed.
Lemma ode_blind o : blind (ode_handler o).
Proof.
  intros eps clk bs i1 i2. unfold ode_handler. rewrite !rs_get_body. destruct (get_body bs i1) as [b1|]; [|reflexivity]. cbn [rmap bind].
  destruct (get_body bs i2) as [b2|]; [|reflexivity]. cbn [rmap bind]. change (g_no_contact (b_geom (rb b2))) with (g_no_contact (b_geom b2)). change (b_id (rb b1)) with (b_id b1).
  destruct (existsb _ _); [reflexivity|]. change (b_geom (rb b1)) with (b_geom b1). change (b_geom (rb b2)) with (b_geom b2).
  match goal with |- context [fold_left ?f ?l ?a] => destruct (fold_left f l a) as [cs done] end. reflexivity.
Qed.
Lemma rs_find o hd k w : blind hd -> find_contacts o hd (rw k w) = rmap (rw k) (find_contacts o hd w).
Proof.
  intros He. unfold find_contacts. cbn [rw w_bodies w_clk w_eps]. rewrite map_map.
  change (map (fun b => b_geom (rb b)) (w_bodies w)) with (map b_geom (w_bodies w)). generalize (o_collide o (w_clk w) (map b_geom (w_bodies w))). intros pairs.
  set (F := fun acc '(i1, i2) => do s <- acc; let '(cs, bs, clk) := s in do r <- hd (w_eps w) clk bs i1 i2; let '(new, bs', clk') := r in Ok (cs ++ new, bs', clk')).
  set (h := fun p : list (contact R) * list (body R) * nat => let '(cs, bs, clk) := p in (cs, map rb bs, clk)).
  assert (E : forall acc, fold_left F pairs (rmap h acc) = rmap h (fold_left F pairs acc)).
  { induction pairs as [|[i1 i2] ps IH]; intros acc; [reflexivity|]. cbn [fold_left]. rewrite <- IH. f_equal. unfold F. destruct acc as [[[cs bs] clk]|er]; [|reflexivity]. cbn [rmap bind h].
    rewrite He. destruct (hd (w_eps w) clk bs i1 i2) as [[[new bs'] clk']|er]; reflexivity. }
  specialize (E (Ok ([], w_bodies w, S (w_clk w)))). cbn [rmap h] in E. rewrite E. clear E.
  destruct (fold_left F pairs _) as [[[cs bs] clk]|er]; reflexivity.
Qed.
Lemma rs_loop o hd k sp sr fuel : blind hd -> forall w dt,
  step_loop fuel o hd (rw k w) sp sr (tau * dt) = rmap (fun r => (rw k (fst r), tau * snd r)) (step_loop fuel o hd w sp sr dt).
Proof.
  intros He. induction fuel as [|fuel IH]; intros w dt; [reflexivity|]. cbn [step_loop]. rewrite rs_move_all. destruct (move_all w dt) as [w1|er]; [|reflexivity]. cbn [rmap bind].
  rewrite rs_find by auto. destruct (find_contacts o hd w1) as [w2|er]; [|reflexivity]. cbn [rmap bind].
  change (no_penetration (rw k w2)) with (no_penetration w2). change (w_strict (rw k w2)) with (w_strict w2). change (w_dt (rw k w2)) with (tau * w_dt w2).
  destruct (no_penetration w2); [reflexivity|].
  assert (E : nltb (tau * dt) (tau * w_dt w2 / nofZ 4) = nltb dt (w_dt w2 / nofZ 4)).
  { rnum. replace (tau * w_dt w2 / 4) with (tau * (w_dt w2 / 4)) by (unfold Rdiv; ring).
    apply eq_true_iff_eq. rewrite !Rltb_true. split; intros H; [apply (Rmult_lt_reg_l tau); auto|apply Rmult_lt_compat_l; auto]. }
  match goal with |- (if negb (w_strict w2) && ?a then _ else _) = _ => change a with (nltb (tau * dt) (tau * w_dt w2 / nofZ 4)) end. rewrite E.
  destruct (negb (w_strict w2) && _)%bool; [reflexivity|].
  rewrite rs_rewind. destruct (rewind w2 sp sr) as [w3|er]; [|reflexivity]. cbn [rmap bind].
  match goal with |- step_loop _ _ _ _ _ _ ?a = _ => replace a with (tau * (dt / nofZ 2)) by (rnum; unfold Rdiv; ring) end. apply IH.
Qed.

(** *** the engine *)
Lemma mv_scaled (M : matR) x : mv (map (vscale c) M) x = vscale c (mv M x).
Proof. induction M as [|r M IH]; [reflexivity|]. cbn [map mv]. unfold mv in IH. cbn [vscale map]. f_equal; [apply dot_vscale_l|exact IH]. Qed.
Lemma wf_scaled n m (M : matR) : wf n m M -> wf n m (map (vscale c) M).
Proof. intros [L F]. split; [now rewrite map_length|]. rewrite Forall_map. eapply Forall_impl; [|exact F]. intros r Hr. now rewrite vscale_length. Qed.
Lemma scaled_rows n i b : M_rows n i (rb b) = map (vscale c) (M_rows n i b).
Proof.
  unfold M_rows. rewrite map_map. unfold b_M. cbn [map rescale_body b_inertia b_mass]. unfold row_put.
  rewrite !vscale_app. cbn [vscale map length]. rnum. rewrite !Rmult_0_r. unfold vzeros.
  assert (E : forall k, vscale c (firstn k (repeat 0 n)) = firstn k (repeat 0 n)).
  { intros k. unfold vscale. rewrite <- firstn_map. f_equal. apply (vscale_zeros c n). }
  assert (E2 : forall k, vscale c (skipn k (repeat 0 n)) = skipn k (repeat 0 n)).
  { intros k. unfold vscale. rewrite <- skipn_map. f_equal. apply (vscale_zeros c n). }
  change (map (nmul c)) with (vscale c). rewrite E, E2. reflexivity.
Qed.
Lemma scaled_M bs : world_M (map rb bs) = map (vscale c) (world_M bs).
Proof.
  rewrite !world_M_rows, map_length. generalize (3 * length bs)%nat as n. intros n. generalize 0%nat as k.
  induction bs as [|b bs IH]; intros k; [reflexivity|]. cbn [length seq map combine flat_map fst snd]. rewrite map_app, IH, scaled_rows. reflexivity.
Qed.
Lemma mv_dyn n neq (M J : matR) x y : wf n n M -> wf neq n J -> length x = n -> length y = neq ->
  mv (dyn_matrix n neq M J) (x ++ y) = vsub (mv M x) (vm n y J) ++ mv J x.
Proof.
  intros WM WJ Hx Hy. unfold dyn_matrix. destruct (Nat.ltb_spec 0 neq) as [H|H].
  - unfold vcat. rewrite mv_app. rewrite (mv_hcat n n neq) by (auto; apply wf_mopp, wf_mtr, (wf_length _ _ _ WJ)).
    rewrite (mv_hcat neq n neq) by (auto using wf_mzeros). rewrite mv_mopp, mv_mzeros. f_equal; [now rewrite vsub_vadd|].
    apply vadd_zeros_r. rewrite mv_length. apply WJ.
  - assert (E : neq = 0%nat) by lia. subst neq. destruct y; [|discriminate]. destruct J; [|destruct WJ; discriminate]. rewrite vm_nil, app_nil_r. cbn [mv map]. rewrite app_nil_r.
    rewrite vsub_zeros_r; auto. rewrite mv_length. apply WM.
Qed.
Lemma wf_dyn n neq (M J : matR) : wf n n M -> wf neq n J -> wf (n + neq) (n + neq) (dyn_matrix n neq M J).
Proof.
  intros WM WJ. unfold dyn_matrix. destruct (Nat.ltb_spec 0 neq) as [H|H].
  - unfold vcat. apply wf_app; apply wf_hcat; [apply WM|apply wf_mopp, wf_mtr, (wf_length _ _ _ WJ)|apply WJ|apply wf_mzeros].
  - replace (n + neq)%nat with n by lia. apply WM.
Qed.
Lemma scaled_dyn n neq (M J : matR) x y a : wf n n M -> wf neq n J -> length x = n -> length y = neq ->
  mv (dyn_matrix n neq (map (vscale c) M) J) (vscale a x ++ vscale (c * a) y) = vscale (c * a) (vsub (mv M x) (vm n y J)) ++ vscale a (mv J x).
Proof.
  intros WM WJ Hx Hy. rewrite mv_dyn by (auto using wf_scaled; rewrite vscale_length; auto). rewrite mv_scaled, !mv_vscale, vm_vscale, vscale_mult. f_equal.
  rewrite !vsub_vadd, vscale_vadd. f_equal. rewrite !vopp_scale, !vscale_mult. f_equal. ring.
Qed.
Section Solve.
Variables (la : lapack R).
Hypothesis HL : lapack_ok la.
Lemma scaled_inv n neq (M J : matR) inv : wf n n M -> wf neq n J -> la_inv la (dyn_matrix n neq M J) = Ok inv ->
  exists inv', la_inv la (dyn_matrix n neq (map (vscale c) M) J) = Ok inv'.
Proof.
  intros WM WJ Hi. apply (inv_total _ HL (n + neq)); [apply wf_dyn; auto using wf_scaled|].
  intros x Lx Hx. destruct (inv_ok _ HL _ _ _ (wf_dyn _ _ _ _ WM WJ) Hi) as [_ Hxu].
  set (a := firstn n x). set (b := skipn n x). assert (La : length a = n) by (unfold a; rewrite firstn_length; lia). assert (Lb : length b = neq) by (unfold b; rewrite skipn_length; lia).
  assert (Ex : x = a ++ b) by (symmetry; apply firstn_skipn).
  assert (E1 : mv (dyn_matrix n neq M J) (vscale c a ++ b) = vzeros (n + neq)).
  { pose proof (scaled_dyn n neq M J a (vscale (/ c) b) 1 WM WJ La) as E. rewrite vscale_length in E. specialize (E Lb). rewrite vscale_1, vscale_mult in E.
    replace (c * 1 * / c) with 1 in E by (field; lra). rewrite vscale_1 in E. rewrite <- Ex, Hx in E.
    rewrite mv_dyn by (auto; rewrite vscale_length; auto).
    assert (Z : vzeros (n + neq) = vzeros n ++ vzeros neq) by (unfold vzeros; apply repeat_app). rewrite Z in *.
    apply app_inj_lengths in E; [|rewrite vzeros_length, vscale_length, vsub_length, mv_length, vm_length; destruct WM as [-> _]; lia].
    destruct E as [Ea Eb]. rewrite !mv_vscale. rewrite vscale_1 in Eb. rewrite <- Eb, vscale_zeros. f_equal.
    rewrite Ea, !vsub_vadd, vscale_vadd, vm_vscale, !vopp_scale, !vscale_mult. f_equal; f_equal; field; lra. }
  destruct (Hxu (vscale c a ++ b)) as [_ K]; [rewrite app_length, vscale_length; lia|]. rewrite E1, mv_zeros in K.
  destruct (inv_ok _ HL _ _ _ (wf_dyn _ _ _ _ WM WJ) Hi) as [[Wi _] _]. rewrite Wi in K.
  assert (Z : vzeros (n + neq) = vzeros n ++ vzeros neq) by (unfold vzeros; apply repeat_app). rewrite Z in *.
  apply app_inj_lengths in K; [|rewrite vzeros_length, vscale_length; lia]. destruct K as [Ka Kb]. rewrite Ex, <- Kb. f_equal.
  apply (f_equal (vscale (/ c))) in Ka. rewrite vscale_zeros, vscale_mult in Ka. replace (/ c * c) with 1 in Ka by (field; lra). now rewrite vscale_1 in Ka.
Qed.
Lemma scaled_answer n neq (M J : matR) inv inv' u r : wf n n M -> wf neq n J -> length u = n -> length r = neq ->
  la_inv la (dyn_matrix n neq M J) = Ok inv -> la_inv la (dyn_matrix n neq (map (vscale c) M) J) = Ok inv' ->
  firstn n (mv inv' (vscale (c / tau) u ++ vscale (/ tau) r)) = vscale (/ tau) (firstn n (mv inv (u ++ r))).
Proof.
  intros WM WJ Lu Lr Hi Hi'. destruct (inv_ok _ HL _ _ _ (wf_dyn _ _ _ _ WM WJ) Hi) as [[Wi _] Hxu]. destruct (inv_ok _ HL _ _ _ (wf_dyn _ _ _ _ (wf_scaled _ _ _ WM) WJ) Hi') as [_ Hxu'].
  destruct (Hxu (u ++ r)) as [E _]; [rewrite app_length; lia|].
  set (x := firstn n (mv inv (u ++ r))). set (y := skipn n (mv inv (u ++ r))).
  assert (Lx : length x = n) by (unfold x; rewrite firstn_length, mv_length, Wi; lia). assert (Ly : length y = neq) by (unfold y; rewrite skipn_length, mv_length, Wi; lia).
  rewrite <- (firstn_skipn n (mv inv (u ++ r))) in E. fold x y in E. rewrite mv_dyn in E by auto.
  apply app_inj_lengths in E; [|rewrite vsub_length, mv_length, vm_length; destruct WM as [-> _]; lia]. destruct E as [Ea Eb].
  pose proof (scaled_dyn n neq M J x y (/ tau) WM WJ Lx Ly) as E. rewrite Ea, Eb in E.
  destruct (Hxu' (vscale (/ tau) x ++ vscale (c * / tau) y)) as [_ K]; [rewrite app_length, !vscale_length; lia|]. rewrite E in K.
  replace (c / tau) with (c * / tau) by reflexivity. rewrite K, firstn_app, vscale_length, Lx, Nat.sub_diag, firstn_O, app_nil_r. apply firstn_all2. rewrite vscale_length. lia.
Qed.

Lemma rs_force_value f f' t u : rescaled_force c tau f f' -> force_value f t = Ok u -> force_value f' (tau * t) = Ok (v3scale (c / (tau * tau)) u).
Proof. intros H E. specialize (H t). rewrite E in H. unfold alike in H. destruct (force_value f' (tau * t)); [now subst|contradiction]. Qed.
Lemma rs_body_forces h b t f : Forall2 (rescaled_force c tau) h h' -> body_apply_forces h b t = Ok f -> body_apply_forces h' (rb b) (tau * t) = Ok (v3scale (c / (tau * tau)) f).
Proof.
  intros Hh H. unfold body_apply_forces in *. bind_inv H as fs E. injection H as <-. change (b_forces (rb b)) with (b_forces b).
  assert (E' : mapM (fun id => match nth_error h' id with Some f => force_value f (tau * t) | None => Err EIndex end) (b_forces b) = Ok (map (v3scale (c / (tau * tau))) fs)).
  { revert fs E. induction (b_forces b) as [|id ids IH]; intros fs E; cbn [mapM] in *; [injection E as <-; reflexivity|]. bind_inv E as u Eu. bind_inv E as us Eus. injection E as <-.
    destruct (nth_error h id) as [g|] eqn:Eg; [|discriminate]. destruct (Forall2_left _ _ _ _ _ Hh Eg) as (g' & Eg' & Hg). rewrite Eg', (rs_force_value _ _ _ _ Hg Eu). cbn [bind]. rewrite (IH us Eus). reflexivity. }
  rewrite E'. cbn [bind]. f_equal.
  assert (G : forall a, fold_left v3add (map (v3scale (c / (tau * tau))) fs) (v3scale (c / (tau * tau)) a) = v3scale (c / (tau * tau)) (fold_left v3add fs a)).
  { clear. induction fs as [|u us IH]; intros a; [reflexivity|]. cbn [map fold_left]. rewrite <- IH. f_equal. destruct a as [a1 [a2 a3]], u as [u1 [u2 u3]]. unfold v3add, v3scale, v2add, v2scale. cbn [fst snd]. rnum. f_equal; [ring|f_equal; ring]. }
  rewrite <- G. f_equal. unfold v3zero, v2zero, v3scale, v2scale. cbn [fst snd]. rnum. f_equal; [ring|f_equal; ring].
Qed.
Lemma rs_forces k w t f : Forall2 (rescaled_force c tau) (w_heap w) h' -> world_apply_forces w t = Ok f -> world_apply_forces (rw k w) (tau * t) = Ok (vscale (c / (tau * tau)) f).
Proof.
  intros Hh H. unfold world_apply_forces in *. bind_inv H as fs E. injection H as <-. cbn [rw w_heap w_bodies]. rewrite <- cat3_slow.
  assert (E' : mapM (fun b => body_apply_forces h' b (tau * t)) (map rb (w_bodies w)) = Ok (map (v3scale (c / (tau * tau))) fs)); [|rewrite E'; reflexivity].
  revert fs E. induction (w_bodies w) as [|b l IH]; intros fs E; cbn [map mapM] in *; [injection E as <-; reflexivity|]. bind_inv E as u Eu. bind_inv E as us Eus. injection E as <-.
  rewrite (rs_body_forces _ _ _ _ Hh Eu). cbn [bind]. rewrite (IH us Eus). reflexivity.
Qed.
Lemma rs_Je k w : Je (rw k w) = Je w.
Proof. unfold Je. cbn [rw w_joints w_num_constraints w_bodies]. rewrite map_length. reflexivity. Qed.
Lemma rs_sys k w : sys (rw k w) = dyn_matrix (3 * length (w_bodies w)) (w_num_constraints w) (map (vscale c) (w_M w)) (Je w).
Proof. unfold sys. rewrite rs_Je. cbn [rw w_bodies w_num_constraints w_M]. rewrite map_length. reflexivity. Qed.
Lemma zeros_if neq (u : vecR) : (if Nat.ltb 0 neq then u ++ vzeros neq else u) = u ++ vzeros neq.
Proof. destruct (Nat.ltb_spec 0 neq); [reflexivity|]. replace neq with 0%nat by lia. unfold vzeros. cbn. now rewrite app_nil_r. Qed.

Variables (bs : list (body R)) (js : list (joint R)) (J0 : list jent) (mi : nat).
Lemma rs_solve k w dt v c0 : sound bs js J0 w -> valid la w -> valid la (rw k w) -> Forall2 (rescaled_force c tau) (w_heap w) h' -> w_contacts w = [] ->
  solve_dynamics la mi w dt = Ok (v, c0) -> exists k', solve_dynamics la mi (rw k w) (tau * dt) = Ok (vscale (/ tau) v, k').
Proof.
  intros HS V V' Hh EC H. unfold solve_dynamics in *. cbv zeta in *. bind_inv H as f Ef. destruct (apply_forces_layout _ _ _ Ef) as [Lf _].
  change (w_t (rw k w)) with (tau * w_t w). rewrite (rs_forces k w _ f Hh Ef). cbn [bind]. change (w_contacts (rw k w)) with (w_contacts w). rewrite EC in *. cbv iota in *.
  fold (sys w) in H. rewrite zeros_if in H. rewrite zeros_if. rewrite rs_Je. cbn [rw w_bodies w_num_constraints w_M w_v w_cache w_static_inverse]. rewrite map_length.
  set (n := (3 * length (w_bodies w))%nat) in *. set (neq := w_num_constraints w) in *.
  assert (WM : wf n n (w_M w)) by apply (so_symm _ _ _ _ HS). assert (WJ : wf neq n (Je w)) by apply (so_Je _ _ _ _ HS). assert (Lv : length (w_v w) = n) by apply (so_vlen _ _ _ _ HS).
  bind_inv H as ic Ei. destruct ic as [inv cc]. injection H as <- <-.
  assert (Hi : la_inv la (sys w) = Ok inv).
  { destruct (w_cache w) as [i|] eqn:Ecache; [injection Ei as <- _; apply V in Ecache; apply Ecache|]. bind_inv Ei as i Hi. injection Ei as <- _. exact Hi. }
  assert (Hi' : exists inv' k', match k with None => do i <- la_inv la (dyn_matrix n neq (map (vscale c) (w_M w)) (Je w)); Ok (i, if w_static_inverse w then Some i else None) | Some i => Ok (i, Some i) end = Ok (inv', k') /\
             la_inv la (dyn_matrix n neq (map (vscale c) (w_M w)) (Je w)) = Ok inv').
  { destruct (scaled_inv n neq (w_M w) (Je w) inv WM WJ Hi) as [inv' Hi']. rewrite Hi'. destruct k as [i|] eqn:Ek; [|cbn [bind]; eauto].
    destruct V' as [_ V']. destruct (V' i eq_refl) as [_ K]. rewrite rs_sys in K. fold n neq in K. rewrite Hi' in K. injection K as <-. eauto. }
  destruct Hi' as (inv' & k' & E1 & Hi'). rewrite E1. cbn [bind]. exists k'. apply f_equal. apply f_equal2; [|reflexivity]. rewrite mv_scaled, mv_vscale, !vscale_mult.
  replace (vadd (vscale (c * / tau) (mv (w_M w) (w_v w))) (vscale (tau * dt * (c / (tau * tau))) f)) with (vscale (c / tau) (vadd (mv (w_M w) (w_v w)) (vscale dt f))).
  2:{ rewrite vscale_vadd, vscale_mult. f_equal. f_equal. field. lra. }
  replace (vzeros neq : vecR) with (vscale (/ tau) (vzeros neq)) at 1 by apply vscale_zeros.
  apply (scaled_answer n neq (w_M w) (Je w)); auto.
  - rewrite vadd_length, mv_length, vscale_length, Lf. destruct WM as [-> _]. unfold n. lia.
  - apply vzeros_length.
Qed.
Lemma rs_post k w v : sound bs js J0 w -> valid la w -> valid la (rw k w) -> w_contacts w = [] ->
  post_stabilization la w = Ok v -> post_stabilization la (rw k w) = Ok (vscale (/ tau) v).
Proof.
  intros HS V V' EC H. unfold post_stabilization in *. cbv zeta in *. change (w_contacts (rw k w)) with (w_contacts w). rewrite EC in *. cbv iota in *.
  fold (sys w) in H. rewrite rs_Je. cbn [rw w_bodies w_num_constraints w_M w_v w_cache]. rewrite map_length.
  set (n := (3 * length (w_bodies w))%nat) in *. set (neq := w_num_constraints w) in *.
  assert (WM : wf n n (w_M w)) by apply (so_symm _ _ _ _ HS). assert (WJ : wf neq n (Je w)) by apply (so_Je _ _ _ _ HS).
  bind_inv H as inv Ei. injection H as <-.
  assert (Hi : la_inv la (sys w) = Ok inv). { destruct (w_cache w) as [i|] eqn:Ecache; [injection Ei as <-; apply V in Ecache; apply Ecache|exact Ei]. }
  assert (Hi' : exists inv', match k with None => la_inv la (dyn_matrix n neq (map (vscale c) (w_M w)) (Je w)) | Some i => Ok i end = Ok inv' /\
             la_inv la (dyn_matrix n neq (map (vscale c) (w_M w)) (Je w)) = Ok inv').
  { destruct (scaled_inv n neq (w_M w) (Je w) inv WM WJ Hi) as [inv' Hi']. rewrite Hi'. destruct k as [i|] eqn:Ek; [|eauto].
    destruct V' as [_ V']. destruct (V' i eq_refl) as [_ K]. rewrite rs_sys in K. fold n neq in K. rewrite Hi' in K. injection K as <-. eauto. }
  destruct Hi' as (inv' & E1 & Hi'). rewrite E1. cbn [bind]. f_equal. rewrite mv_vscale.
  replace (vzeros n : vecR) with (vscale (c / tau) (vzeros n)) at 1 by apply vscale_zeros.
  rewrite (scaled_answer n neq (w_M w) (Je w) inv inv'); auto; [|apply vzeros_length|rewrite mv_length; apply WJ].
  rewrite !vopp_scale, !vscale_mult. f_equal. ring.
Qed.

(** *** steps and histories *)
Variables (o : oracle R) (hd : handler R).
Hypothesis Hb : blind hd.
Hypothesis Hf : handler_frame hd.
Hypothesis Hr : handler_respects hd.
Hypothesis Ho : broadphase_sane o.
Notation eng := (pdipm_engine la mi).
Notation free := (until_contact (pdipm_engine la mi)).
Lemma rs_kinds k k' w w' : kinds w' = kinds w -> kinds (rw k' w') = kinds (rw k w).
Proof. unfold kinds. cbn [rw w_bodies w_joints]. rewrite !map_length. auto. Qed.
Lemma rs_cfg k k' w w' : cfg w' = cfg w -> cfg (rw k' w') = cfg (rw k w).
Proof. unfold cfg. intros H. injection H as H1 H2 H3 H4 H5 H6 H7 H8 H9 H10. cbn [rw w_heap w_dt w_eps w_tol w_fric_dirs w_post_stab w_strict w_static_inverse w_num_constraints w_M]. congruence. Qed.
Lemma rs_valid k w w' : kinds w' = kinds w -> cfg w' = cfg w -> valid la (rw k w) -> valid la (rw k w').
Proof. intros K C. apply valid_kinds; [now apply rs_kinds|now apply rs_cfg|reflexivity]. Qed.
Lemma rs_with_cache k k' w : with_cache (rw k w) k' = rw k' w. Proof. reflexivity. Qed.
Lemma rw_cache k k' w : rw k (with_cache w k') = rw k w. Proof. reflexivity. Qed.
Lemma set_v_kinds_valid w v w1 : set_v w v = Ok w1 -> valid la w -> valid la w1.
Proof. intros E. apply valid_kinds; [apply (kinds_set_v _ _ _ E)|apply (set_v_cfg _ _ _ E)|]. apply set_v_inv in E. destruct E as [_ ->]. reflexivity. Qed.
Definition fit w k := sound bs js J0 w /\ valid la w /\ valid la (rw k w) /\ Forall2 (rescaled_force c tau) (w_heap w) h'.
Lemma free_solve w dt r : e_solve free w dt = Ok r -> w_contacts w = [] /\ solve_dynamics la mi w dt = Ok r.
Proof. cbn. destruct (w_contacts w); [auto|discriminate]. Qed.
Lemma free_post w r : e_post free w = Ok r -> w_contacts w = [] /\ post_stabilization la w = Ok r.
Proof. cbn. destruct (w_contacts w); [auto|discriminate]. Qed.
Lemma free_step_dt fuel w dt w' : step_dt fuel o hd free w dt = Ok w' -> step_dt fuel o hd eng w dt = Ok w'.
Proof.
  unfold step_dt. intros H. bind_inv H as sol Es. destruct sol as [v c0]. apply free_solve in Es. destruct Es as [_ Es]. cbn [e_solve pdipm_engine]. rewrite Es. cbn [bind].
  bind_inv H as w1 E1. rewrite E1. cbn [bind]. bind_inv H as r Er. rewrite Er. cbn [bind]. destruct r as [w2 dt']. bind_inv H as w3 E3. destruct (w_post_stab w2).
  - bind_inv E3 as dp Ep. apply free_post in Ep. destruct Ep as [_ Ep]. cbn [e_post pdipm_engine]. rewrite Ep. cbn [bind]. rewrite E3. exact H.
  - rewrite E3. exact H.
Qed.
Lemma rs_step_dt fuel k w dt w' : fit w k -> step_dt fuel o hd free w dt = Ok w' ->
  exists k', step_dt fuel o hd free (rw k w) (tau * dt) = Ok (rw k' w') /\ fit w' k'.
Proof.
  intros (HS & V & V' & Hh) H. pose proof (free_step_dt _ _ _ _ H) as H2.
  assert (HS' : sound bs js J0 w') by (eapply (sound_step_dt bs js J0 o hd Hf Hr Ho); eauto).
  assert (VE : valid la w') by (destruct (step_dt_uncached la mi fuel o hd w dt Hf V) as [_ E]; now apply E).
  assert (Hh' : Forall2 (rescaled_force c tau) (w_heap w') h') by (assert (Q : w_heap w' = w_heap w) by (apply step_dt_cfg in H; cfg_fields H; congruence); now rewrite Q).
  assert (G : exists k', step_dt fuel o hd free (rw k w) (tau * dt) = Ok (rw k' w')).
  { unfold step_dt in *. bind_inv H as sol Es. destruct sol as [v c0]. apply free_solve in Es. destruct Es as [EC Es]. clear H2.
    destruct (rs_solve k w dt v c0 HS V V' Hh EC Es) as [k' Es']. cbn [e_solve until_contact pdipm_engine]. change (w_contacts (rw k w)) with (w_contacts w). rewrite EC.
    match type of Es' with ?a = _ => match goal with |- exists _, bind ?b _ = _ => change b with a end end. rewrite Es'. cbn [bind].
    bind_inv H as w1 E1. rewrite rs_with_cache. rewrite <- (rw_cache k' c0). rewrite rs_set_v, E1. cbn [rmap bind].
    replace (cat3 (map b_p (w_bodies (rw k w)))) with (cat3 (map b_p (w_bodies w))) by (cbn [rw w_bodies]; rewrite map_map; reflexivity). change (w_joints (rw k w)) with (w_joints w).
    rewrite rs_loop by auto. bind_inv H as r Er. rewrite Er. destruct r as [w2 dt']. cbn [rmap bind fst snd]. change (w_post_stab (rw k' w2)) with (w_post_stab w2).
    bind_inv H as w3 E3. injection H as <-.
    destruct (solve_uncached la mi w dt V) as [_ V0]. specialize (V0 _ _ Es). destruct (solve_uncached la mi (rw k w) (tau * dt) V') as [_ V0']. specialize (V0' _ _ Es').
    pose proof (set_v_kinds_valid _ _ _ E1 V0) as V1.
    assert (L1 : length (map (fun '(j, _, _) => (j_rot1 j, j_rot2 j)) (w_joints w)) = length (w_joints w1)).
    { rewrite map_length. symmetry. apply (kinds_joints w1 (with_cache w c0)), (kinds_set_v _ _ _ E1). }
    pose proof Er as Er2. apply step_loop_tries in Er2. destruct Er2 as (kk & _ & Htr).
    destruct (tries_valid la _ _ _ _ _ _ _ _ _ Hf L1 Htr V1) as (K2 & V2 & _).
    assert (C2 : cfg w2 = cfg w). { apply tries_cfg in Htr. try destruct Htr as (Htr & _). apply set_v_cfg in E1. change (cfg (with_cache w c0)) with (cfg w) in E1. congruence. }
    assert (V2' : valid la (rw k' w2)).
    { apply (rs_valid k' w); [rewrite K2; apply (kinds_set_v _ _ _ E1)|exact C2|exact V0']. }
    assert (S1 : sound bs js J0 w1). { eapply sound_set_v; [|exact E1]. now apply sound_cache. }
    assert (S2 : sound bs js J0 w2) by (exact (sound_tries bs js J0 o hd Ho Hf Hr w _ _ _ _ _ HS S1 Htr)).
    exists k'. destruct (w_post_stab w2) eqn:Eps.
    - bind_inv E3 as dp Ep. apply free_post in Ep. destruct Ep as [EC2 Ep]. cbn [e_post until_contact pdipm_engine]. change (w_contacts (rw k' w2)) with (w_contacts w2). rewrite EC2.
      rewrite (rs_post k' w2 dp S2 V2 V2' EC2 Ep). cbn [bind]. bind_inv E3 as wa Ea. bind_inv E3 as wb Eb. bind_inv E3 as wc Ec.
      replace (map (fun a => (a / nofZ 2)%num) (vscale (/ tau) dp)) with (vscale (/ tau) (map (fun a => (a / nofZ 2)%num) dp)).
      2:{ unfold vscale. rewrite !map_map. apply map_ext. intros a. rnum. field. lra. }
      rewrite rs_set_v, Ea. cbn [rmap bind]. rewrite rs_move_all, Eb. cbn [rmap bind]. change (w_v (rw k' w2)) with (vscale (/ tau) (w_v w2)). rewrite rs_set_v, Ec. cbn [rmap bind].
      rewrite rs_find, E3 by auto. cbn [rmap bind]. f_equal. unfold rw, with_t, with_state. cbn. f_equal. ring.
    - injection E3 as <-. cbn [bind]. f_equal. unfold rw, with_t, with_state. cbn. f_equal. ring. }
  destruct G as [k' G]. exists k'. split; [exact G|]. split; [exact HS'|]. split; [exact VE|]. split; [|exact Hh'].
  pose proof (free_step_dt _ _ _ _ G) as G2. destruct (step_dt_uncached la mi fuel o hd (rw k w) (tau * dt) Hf V') as [_ E]. now apply E.
Qed.
Lemma rs_ltb a b : nltb (tau * a) (tau * b) = nltb a b.
Proof. rnum. apply eq_true_iff_eq. rewrite !Rltb_true. split; intros H; [apply (Rmult_lt_reg_l tau); auto|apply Rmult_lt_compat_l; auto]. Qed.
Lemma rs_fixed lfuel te fuel : forall k w w', fit w k -> fixed_loop fuel lfuel o hd free te w = Ok w' ->
  exists k', fixed_loop fuel lfuel o hd free (tau * te) (rw k w) = Ok (rw k' w') /\ fit w' k'.
Proof.
  induction fuel as [|fuel IH]; intros k w w' Hw H; cbn [fixed_loop] in *; [discriminate|]. change (w_t (rw k w)) with (tau * w_t w). rewrite rs_ltb.
  destruct (nltb (w_t w) te).
  - bind_inv H as w1 E1. destruct (rs_step_dt _ k w _ w1 Hw E1) as (k1 & E2 & F1). match goal with |- context [step_dt lfuel o hd free (rw k w) ?d] => replace d with (tau * (te - w_t w)%num) by (rnum; ring) end. rewrite E2. cbn [bind]. apply IH; auto.
  - injection H as <-. eauto.
Qed.
Lemma rs_exec fuel ops : forall k w w', fit w k -> exec fuel o hd free ops w = Ok w' ->
  exists k', exec fuel o hd free (map (rescale_op tau) ops) (rw k w) = Ok (rw k' w') /\ fit w' k'.
Proof.
  induction ops as [|x ops IH]; intros k w w' Hw H; cbn [exec map] in *; [injection H as <-; eauto|].
  destruct x as [fx|dt|v]; cbn [rescale_op]; bind_inv H as w1 E1.
  - assert (E : exists k1, step fuel o hd free fx (rw k w) = Ok (rw k1 w1) /\ fit w1 k1).
    { unfold step in *. destruct fx.
      - replace (w_t (rw k w) + w_dt (rw k w))%num with (tau * (w_t w + w_dt w)%num) by (cbn [rw w_t w_dt]; rnum; ring). now apply rs_fixed.
      - change (w_dt (rw k w)) with (tau * w_dt w). now apply rs_step_dt. }
    destruct E as (k1 & E & F1). rewrite E. cbn [bind]. eauto.
  - destruct (rs_step_dt fuel k w dt w1 Hw E1) as (k1 & E & F1). rewrite E. cbn [bind]. eauto.
  - rewrite rs_set_v, E1. cbn [rmap bind]. apply IH; [|exact H]. destruct Hw as (HS & V & V' & Hh). split; [eapply sound_set_v; eauto|]. split; [eapply set_v_kinds_valid; eauto|].
    split; [apply (rs_valid k w); [apply (kinds_set_v _ _ _ E1)|apply (set_v_cfg _ _ _ E1)|exact V']|]. assert (Q : w_heap w1 = w_heap w) by (apply set_v_cfg in E1; cfg_fields E1; congruence). now rewrite Q.
Qed.
End Solve.

(** *** the constructor *)
Lemma rs_index bs id : index_of (map rb bs) id = index_of bs id.
Proof. induction bs as [|b bs IH]; [reflexivity|]. cbn [map index_of rescale_body b_id]. now rewrite IH. Qed.
Lemma rs_init o hd heap bs js dt eps tol fd ps st w : blind hd ->
  world_init o hd heap bs js dt eps tol fd ps st = Ok w ->
  world_init o hd h' (map rb bs) js (tau * dt) eps tol fd ps st = Ok (rw None w).
Proof.
  intros He H. unfold world_init in *. destruct bs as [|b0 bs0] eqn:Eb; [discriminate|]. rewrite <- Eb in *.
  destruct (map rb bs) as [|c0 cs0] eqn:Ec; [rewrite Eb in Ec; discriminate|]. rewrite <- Ec.
  bind_inv H as jl Ej.
  match goal with |- context [mapM ?g js] => assert (Ej' : mapM g js = Ok jl) end.
  { rewrite <- Ej. clear. induction js as [|j js IH]; [reflexivity|]. cbn [mapM]. rewrite IH, rs_index. destruct (index_of bs (j_b1 j)); [|reflexivity]. cbn [bind]. destruct (j_b2 j); [rewrite rs_index|]; reflexivity. }
  rewrite Ej'. cbn [bind]. bind_inv H as w1 E1. bind_inv H as w2 E2.
  set (w0 := mkWorld bs jl heap _ _ _ _ _ _ _ _ _ _ _ _ _ _) in E1.
  match goal with |- context [set_v ?x _] => replace x with (rw None w0) end.
  2:{ unfold rw, w0. cbn [w_bodies w_joints w_heap w_t w_dt w_eps w_tol w_fric_dirs w_post_stab w_strict w_v w_contacts w_static_inverse w_num_constraints w_M w_cache w_clk]. rewrite scaled_M. f_equal. rnum. ring. }
  assert (Ev : cat3 (map b_v (map rb bs)) = vscale (/ tau) (cat3 (map b_v bs))).
  { rewrite map_map. cbn [rescale_body b_v]. rewrite <- (map_map b_v (v3scale (/ tau))), cat3_slow. reflexivity. }
  rewrite Ev, rs_set_v, E1. cbn [rmap bind]. rewrite rs_find, E2 by auto. cbn [rmap bind].
  assert (C : w_cache w2 = None). { apply find_contacts_inv in E2. destruct E2 as (? & ? & ? & ->). apply set_v_inv in E1. destruct E1 as [_ ->]. reflexivity. }
  change (no_penetration (rw None w2)) with (no_penetration w2). destruct (st && negb (no_penetration w2))%bool; [discriminate|]. now injection H as <-.
Qed.
End Units.

Lemma until_exec o hd e fuel ops : forall w w', exec fuel o hd (until_contact e) ops w = Ok w' -> exec fuel o hd e ops w = Ok w'.
Proof.
  assert (D : forall w dt w', step_dt fuel o hd (until_contact e) w dt = Ok w' -> step_dt fuel o hd e w dt = Ok w').
  { intros w dt w' H. unfold step_dt in *. bind_inv H as sol Es. destruct sol as [v c0]. cbn [e_solve until_contact] in Es. destruct (w_contacts w); [|discriminate]. rewrite Es. cbn [bind].
    bind_inv H as w1 E1. rewrite E1. cbn [bind]. bind_inv H as r Er. rewrite Er. cbn [bind]. destruct r as [w2 dt']. bind_inv H as w3 E3. destruct (w_post_stab w2).
    - bind_inv E3 as dp Ep. cbn [e_post until_contact] in Ep. destruct (w_contacts w2); [|discriminate]. rewrite Ep. cbn [bind]. rewrite E3. exact H.
    - rewrite E3. exact H. }
  assert (L : forall n te w w', fixed_loop n fuel o hd (until_contact e) te w = Ok w' -> fixed_loop n fuel o hd e te w = Ok w').
  { induction n as [|n IH]; intros te w w' H; cbn [fixed_loop] in *; [discriminate|]. destruct (nltb _ _); [|exact H]. bind_inv H as w1 E1. rewrite (D _ _ _ E1). cbn [bind]. auto. }
  induction ops as [|x ops IH]; intros w w' H; cbn [exec] in *; [exact H|]. destruct x as [fx|dt|v]; bind_inv H as w1 E1.
  - assert (E : step fuel o hd e fx w = Ok w1) by (unfold step in *; destruct fx; auto). rewrite E. cbn [bind]. auto.
  - rewrite (D _ _ _ E1). cbn [bind]. auto.
  - rewrite E1. cbn [bind]. auto.
Qed.

Theorem scale_session c tau la mi o hd gf fuel heap heap' bs js dt eps tol fd ps st w0 ops w : 0 < c -> 0 < tau -> lapack_ok la ->
  (hd = diff_handler gf o \/ hd = ode_handler o) -> broadphase_sane o -> NoDup (map b_id bs) -> Forall (built bs) js -> Forall2 (rescaled_force c tau) heap heap' ->
  world_init o hd heap bs js dt eps tol fd ps st = Ok w0 -> exec fuel o hd (until_contact (pdipm_engine la mi)) ops w0 = Ok w ->
  exists w0' w', world_init o hd heap' (map (rescale_body c tau) bs) js (tau * dt) eps tol fd ps st = Ok w0' /\
    exec fuel o hd (until_contact (pdipm_engine la mi)) (map (rescale_op tau) ops) w0' = Ok w' /\ rescaled c tau w w'.
Proof.
  intros Hc Ht HL Hh Ho Hn Hb Hp H0 Hx. destruct (callback_frame _ _ _ Hh) as [Hf Hr].
  assert (He : blind c tau hd) by (destruct Hh as [-> | ->]; auto using diff_blind, ode_blind).
  pose proof (rs_init c tau heap' o hd heap bs js dt eps tol fd ps st w0 He H0) as H0'.
  pose proof (sound_init o hd bs js _ _ _ _ _ _ _ _ Hf Hr Ho Hn Hb H0) as HS. destruct (init_valid la _ _ _ _ _ _ _ _ _ _ _ _ Hf H0) as [V _]. destruct (init_valid la _ _ _ _ _ _ _ _ _ _ _ _ Hf H0') as [V' _].
  assert (Hheap : w_heap w0 = heap). { apply world_init_inv in H0. tauto. }
  destruct (rs_exec c tau Hc Ht heap' la HL bs js (w_joints w0) mi o hd He Hf Hr Ho fuel ops None w0 w) as (k' & E & HF); [split; [exact HS|split; [exact V|split; [exact V'|now rewrite Hheap]]]|exact Hx|].
  exists (rw c tau heap' None w0), (rw c tau heap' k' w). split; [exact H0'|]. split; [exact E|]. apply rw_rescaled. apply HF.
Qed.
