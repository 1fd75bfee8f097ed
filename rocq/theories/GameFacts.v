(** The simulated Breakout game: what its world consists of, and that its runs are histories of calls *)
From Coq Require Import List Arith ZArith Lia Bool Reals Lra.
From Verif Require Import Num Tensor Utils Bodies Forces Constraints Contacts World Lapack Engines Breakout Game
     Spec GeoSpec BodySpec JointSpec EngineSpec GameSpec ResFacts RBase BodyFacts RigidFacts GeomFacts BodyReach WorldFacts HandlerFacts HistFacts.
Import ListNotations.

(** *** more fuel changes nothing *)
Section More.
Context {T : Type} {N : Num T}.
Variables (o : oracle T) (hd : handler T) (e : engine T).
Lemma step_loop_more f f' w sp sr dt r : f <= f' -> step_loop f o hd w sp sr dt = Ok r -> step_loop f' o hd w sp sr dt = Ok r.
Proof.
  revert f' w dt. induction f as [|f IH]; intros f' w dt Hf H; [discriminate|]. destruct f' as [|f']; [lia|]. cbn [step_loop] in *.
  bind_inv H as w1 E1. rewrite E1. cbn [bind]. bind_inv H as w2 E2. rewrite E2. cbn [bind].
  destruct (no_penetration w2); [exact H|]. destruct (_ && _)%bool; [exact H|]. bind_inv H as w3 E3. rewrite E3. cbn [bind]. apply IH; [lia|exact H].
Qed.
Lemma step_dt_more f f' w dt r : f <= f' -> step_dt f o hd e w dt = Ok r -> step_dt f' o hd e w dt = Ok r.
Proof.
  intros Hf H. unfold step_dt in *. bind_inv H as sol E1. rewrite E1. cbn [bind]. destruct sol as [nv cache]. bind_inv H as w1 E2. rewrite E2. cbn [bind].
  bind_inv H as st E3. rewrite (step_loop_more f f' _ _ _ _ _ Hf E3). cbn [bind]. exact H.
Qed.
Lemma fixed_loop_more g g' f f' et w r : g <= g' -> f <= f' -> fixed_loop g f o hd e et w = Ok r -> fixed_loop g' f' o hd e et w = Ok r.
Proof.
  intros Hg Hf. revert g' w Hg. induction g as [|g IH]; intros g' w Hg H; [discriminate|]. destruct g' as [|g']; [lia|]. cbn [fixed_loop] in *.
  destruct (nltb (w_t w) et); [|exact H]. bind_inv H as w1 E1. rewrite (step_dt_more f f' _ _ _ Hf E1). cbn [bind]. apply IH; [lia|exact H].
Qed.
Lemma step_more f f' fx w r : f <= f' -> step f o hd e fx w = Ok r -> step f' o hd e fx w = Ok r.
Proof. intros Hf H. unfold step in *. destruct fx; [eapply fixed_loop_more; eauto|eapply step_dt_more; eauto]. Qed.
Lemma exec_more f f' ops w r : f <= f' -> exec f o hd e ops w = Ok r -> exec f' o hd e ops w = Ok r.
Proof.
  intros Hf. revert w. induction ops as [|x ops IH]; intros w H; [exact H|]. destruct x; cbn [exec] in *; bind_inv H as w1 E1.
  - rewrite (step_more f f' _ _ _ Hf E1). cbn [bind]. auto.
  - rewrite (step_dt_more f f' _ _ _ Hf E1). cbn [bind]. auto.
  - rewrite E1. cbn [bind]. auto.
Qed.
Lemma exec_app f a b w w1 w2 : exec f o hd e a w = Ok w1 -> exec f o hd e b w1 = Ok w2 -> exec f o hd e (a ++ b) w = Ok w2.
Proof.
  revert w. induction a as [|x a IH]; intros w Ha Hb; [cbn in *; congruence|]. destruct x; cbn [exec app] in *; bind_inv Ha as w' E'; rewrite E'; cbn [bind]; eauto.
Qed.
Lemma exec_join f f' a b w w1 w2 : exec f o hd e a w = Ok w1 -> exec f' o hd e b w1 = Ok w2 -> exists g, exec g o hd e (a ++ b) w = Ok w2.
Proof. intros Ha Hb. exists (Nat.max f f'). eapply exec_app; [apply (exec_more f)|apply (exec_more f')]; eauto; lia. Qed.
(** *** the game's calls are histories *)
Lemma action_exec f w k a vx vy w' : step_breakout f o hd e w k a vx vy = Ok w' -> exists ops, exec f o hd e ops w = Ok w'.
Proof.
  unfold step_breakout. intros H. bind_inv H as w1 E1. do 1 eexists. instantiate (1 := [OSetV _; OStep true]). cbn [exec]. rewrite E1. cbn [bind]. rewrite H. reflexivity.
Qed.
Lemma loop_exec f g w k rt v acts w' : game_loop f g o hd e rt v k acts w = Ok w' -> exists ops, exec g o hd e ops w = Ok w'.
Proof.
  revert w acts. induction f as [|f IH]; intros w acts H; [discriminate|]. cbn [game_loop] in H. destruct (nltb (w_t w) rt).
  - bind_inv H as w1 E1. bind_inv H as w2 E2. destruct (IH _ _ H) as [ops Ho].
    exists (OSetV (upd (w_v w) (3 * k + 1) (v * match acts with a :: _ => a | [] => - (1 / nofZ 10) end)%num) :: OStep true :: ops).
    cbn [exec]. rewrite E1. cbn [bind]. rewrite E2. cbn [bind]. exact Ho.
  - exists []. cbn. congruence.
Qed.
End More.
Lemma game_exec la mi gf o w0 w : game la mi gf o w0 w -> exists fuel ops, exec fuel o (diff_handler gf o) (pdipm_engine la mi) ops w0 = Ok w.
Proof.
  induction 1 as [|fuel w w' a vx vy G (f & ops & IH) H|fuel lfuel w w' rt v acts G (f & ops & IH) H].
  - exists 0, []. reflexivity.
  - destruct (action_exec _ _ _ _ _ _ _ _ _ _ H) as [ops' H']. destruct (exec_join _ _ _ _ _ _ _ _ _ _ IH H') as [g Hg]. eauto.
  - destruct (loop_exec _ _ _ _ _ _ _ _ _ _ _ H) as [ops' H']. destruct (exec_join _ _ _ _ _ _ _ _ _ _ IH H') as [g Hg]. eauto.
Qed.
Open Scope R_scope.
(** *** rectangles *)
Lemma corners_hull w h q : 0 < w -> 0 < h -> in_hull (corners w h) q <-> (- (w / 2) <= fst q <= w / 2 /\ - (h / 2) <= snd q <= h / 2).
Proof.
  intros Hw Hh. split.
  - intros (ws & L & F & S & X & Y). destruct ws as [|a [|b [|c [|d [|? ?]]]]]; try discriminate L.
    rewrite Forall_forall in F. pose proof (F a ltac:(cbn; auto)) as Fa. pose proof (F b ltac:(cbn; auto)) as Fb.
    pose proof (F c ltac:(cbn; auto)) as Fc. pose proof (F d ltac:(cbn; auto)) as Fd. clear F.
    unfold wsum, corners, Rsum in *. cbn in S, X, Y. rewrite X, Y. repeat split; nra.
  - intros [[X1 X2] [Y1 Y2]]. set (s := fst q / w + 1/2). set (t := snd q / h + 1/2).
    assert (Es : fst q = (s - 1/2) * w) by (unfold s; field; lra). assert (Et : snd q = (t - 1/2) * h) by (unfold t; field; lra).
    assert (0 <= s <= 1) by (split; nra). assert (0 <= t <= 1) by (split; nra).
    exists [s * t; (1 - s) * t; (1 - s) * (1 - t); s * (1 - t)]. split; [reflexivity|]. split.
    + repeat (apply Forall_cons; [apply Rmult_le_pos; lra|]). apply Forall_nil.
    + unfold wsum, corners, Rsum. cbn. rewrite Es, Et. repeat split; field.
Qed.
Record slab (id : nat) (x y w h r : R) (b : body R) : Prop := {
  sl_constructed : constructed b;
  sl_kind : b_kind b = KRect (w, h) (corners w h) 0;
  sl_p : b_p b = (0, (x, y));
  sl_id : b_id b = id;
  sl_v : b_v b = (0, (0, 0));
  sl_mass : b_mass b = 1;
  sl_inertia : b_inertia b = (w * w + h * h) / 12;
  sl_fric : b_fric b = 0;
  sl_rest : b_rest b = r;
  sl_eps : b_eps b = 1 / 10;
  sl_forces : b_forces b = [] }.
Lemma constructed_forces (b : body R) : constructed b -> b_forces b = [].
Proof.
  intros [(? & ? & ? & ? & ? & ? & ? & ? & H)|[(? & ? & ? & ? & ? & ? & ? & ? & H)|(? & ? & ? & ? & ? & ? & ? & ? & H)]].
  - unfold circle_init, body_init in H. bind_inv H as p Ep. bind_inv H as v Ev. injection H as <-. reflexivity.
  - unfold hull_init, hull_init_gen in H. destruct (_ && _); [|discriminate]. unfold body_init in H. bind_inv H as p Ep. bind_inv H as v Ev. injection H as <-. reflexivity.
  - unfold rect_init in H. bind_inv H as q Eq. bind_inv H as c Ec. assert (F : b_forces c = []).
    { unfold hull_init_gen in Ec. destruct (_ && _); [|discriminate]. unfold body_init in Ec. bind_inv Ec as p Ep. bind_inv Ec as v Ev. injection Ec as <-. reflexivity. }
    destruct (Nat.eqb _ 3); injection H as <-; [|exact F]. destruct (bs_p _ same_attrs_steps c q) as (_ & _ & _ & _ & _ & _ & E & _). now rewrite E.
Qed.
Lemma game_rect_slab id x y w h r b : game_rect id ([x; y], [w; h]) r = Ok b -> slab id x y w h r b.
Proof.
  unfold game_rect. cbn [pair_of snd fst bind]. intros E. pose proof (rect_init_inv _ _ _ _ _ _ _ _ _ E) as (p & Ep & _ & Hp & Hm & Hi & Hv & Hk & Hid & Hf & Hr & He & Hvel).
  cbn in Ep. injection Ep as <-. cbn [fst snd] in *. rnum. assert (H0 : b_rot b = 0) by (unfold b_rot; rewrite Hp; reflexivity).
  rewrite H0, map_rotate_0 in Hv. rewrite Hv in Hk. cbn in Hvel. injection Hvel as Hvel. assert (Cb : constructed b) by (right; right; do 8 eexists; exact E). constructor; auto.
  - rewrite Hi. field.
  - now apply constructed_forces.
Qed.
Lemma game_rect_ok id x y w h r : 0 < w -> 0 < h -> exists b, game_rect (T := R) id ([x; y], [w; h]) r = Ok b.
Proof.
  intros Hw Hh. unfold game_rect. cbn [pair_of snd fst bind]. unfold rect_init, hull_init_gen. rewrite rect_verts_corners. cbn [to_v3 bind length corners Nat.ltb Nat.leb andb Nat.eqb].
  assert (C : is_clockwise (corners (fst (w, h)) (snd (w, h))) = true) by (apply is_clockwise_area; rewrite corners_area; cbn; nra).
  unfold corners in *. rewrite C. cbn. eexists. reflexivity.
Qed.
(** a body whose shape and place are those of a rectangle *)
Lemma slab_fills b x y w h l : b_kind b = KRect (w, h) (corners w h) l -> b_pos b = (x, y) -> 0 < w -> 0 < h -> fills b (Box (x - w / 2) (x + w / 2) (y - h / 2) (y + h / 2)).
Proof.
  intros Hk Hp Hw Hh q. unfold body_points, b_verts. rewrite Hk, Hp. rewrite corners_hull by auto. unfold v2sub. rnum. cbn [fst snd in_piece].
  split; intros [A B]; split; lra.
Qed.
(** *** add_no_contact *)
Definition like (b b' : body R) : Prop := exists nc, b' = with_no_contact b nc.
Lemma like_refl b : like b b.
Proof. exists (g_no_contact (b_geom b)). destruct b as [? ? ? ? ? ? ? ? ? ? []]. reflexivity. Qed.
Lemma like_trans a b c : like a b -> like b c -> like a c.
Proof. intros [n ->] [m ->]. exists m. reflexivity. Qed.
Lemma Forall2_upd {A} (P : A -> A -> Prop) l l' i a b : Forall2 P l l' -> nth_error l' i = Some b -> (forall x, P x b -> P x a) -> Forall2 P l (upd l' i a).
Proof.
  intros F. revert i. induction F as [|x y l l' Hx F IH]; intros i Hi Ha; [destruct i; discriminate|]. destruct i as [|i]; cbn in *.
  - injection Hi as ->. constructor; auto.
  - constructor; auto.
Qed.
Lemma exclude_like bs bs' ij : Forall2 like bs bs' -> Forall2 like bs (nc_step bs' ij).
Proof.
  intros F. destruct ij as [i j]. unfold nc_step. destruct (nth_error bs' i) as [bi|] eqn:Ei; [|exact F]. destruct (nth_error bs' j) as [bj|] eqn:Ej; [|exact F]. cbn.
  assert (F1 : Forall2 like bs (upd bs' i (with_no_contact bi (b_id bj :: g_no_contact (b_geom bi))))).
  { eapply Forall2_upd; eauto. intros x Hx. eapply like_trans; eauto. eexists; reflexivity. }
  destruct (Nat.eq_dec i j) as [<-|Hne].
  - eapply Forall2_upd; [exact F1| |].
    + rewrite nth_error_upd, Nat.eqb_refl. destruct (Nat.ltb_spec i (length bs')) as [L|L]; [reflexivity|]. apply nth_error_None in L. congruence.
    + intros x [nc E]. rewrite Ei in Ej. injection Ej as <-. exists (b_id bi :: g_no_contact (b_geom bi)). apply (f_equal (fun b => with_no_contact b (b_id bi :: g_no_contact (b_geom bi)))) in E. cbn in E. exact E.
  - eapply Forall2_upd; [exact F1| |].
    + rewrite nth_error_upd. destruct (Nat.eqb_spec i j); [congruence|exact Ej].
    + intros x Hx. eapply like_trans; eauto. eexists; reflexivity.
Qed.
Lemma nc_ops_like bs l : Forall2 like bs (no_contact_ops bs l).
Proof.
  assert (G : forall bs', Forall2 like bs bs' -> Forall2 like bs (no_contact_ops bs' l)).
  { induction l as [|ij l IH]; intros bs' F; [exact F|]. rewrite no_contact_ops_cons. apply IH. now apply exclude_like. }
  apply G. clear. induction bs; constructor; auto using like_refl.
Qed.
Lemma exclude_ops (bs : list (body R)) l : fold_left exclude l bs = no_contact_ops bs l.
Proof.
  revert bs. induction l as [|[i j] l IH]; intros bs; [reflexivity|]. rewrite no_contact_ops_cons. cbn [fold_left]. rewrite IH. reflexivity.
Qed.
(** *** the world of a game *)
Definition entries (paddle : rect_params (T := R)) (blocks : list (rect_params (T := R))) : list (nat * rect_params (T := R) * R) :=
  (1%nat, paddle, 1) :: map (fun x => (fst x, fst (snd x), snd (snd x))) (combine (seq 2 5) furniture) ++ map (fun x => (fst x, snd x, 1)) (combine (seq 7 (length blocks)) blocks).
Definition makes (x : nat * rect_params (T := R) * R) (b : body R) : Prop := game_rect (fst (fst x)) (snd (fst x)) (snd x) = Ok b.
Lemma make_world_inv o hd paddle blocks ball vel w : make_world o hd paddle blocks ball vel = Ok w -> exists b0 rects,
  circle_init 0 (fst ball) (snd ball) vel 1 1 0 EPSILON = Ok b0 /\ Forall2 makes (entries paddle blocks) rects /\
  world_init o hd [] (no_contact_ops (b0 :: rects) (exclusions (length blocks))) (map total_init (tl rects)) DT EPSILON TOL 2 false true = Ok w.
Proof.
  unfold make_world. intros H. bind_inv H as b0 E0. bind_inv H as b1 E1. bind_inv H as walls E2. bind_inv H as bricks E3. rewrite exclude_ops in H.
  exists b0, (b1 :: walls ++ bricks). split; [exact E0|]. split; [|exact H]. constructor; [exact E1|]. apply Forall2_app.
  - apply mapM_Forall2 in E2. clear - E2. revert E2. generalize (combine (seq 2 5) (furniture (T := R))). intros l F. induction F as [|[id [p r]] b l l' Hx F IH]; cbn [map]; constructor; auto.
  - apply mapM_Forall2 in E3. clear - E3. revert E3. generalize (combine (seq 7 (length blocks)) blocks). intros l F. induction F as [|[id p] b l l' Hx F IH]; cbn [map]; constructor; auto.
    bind_inv Hx as u Eu. exact Hx.
Qed.
Lemma furniture_plain : Forall (fun x => plain (fst x)) (furniture (T := R)).
Proof. unfold furniture. repeat (apply Forall_cons; [do 4 eexists; split; [reflexivity|rnum; lra]|]). apply Forall_nil. Qed.
Lemma combine_snd_Forall {A B} (P : B -> Prop) (l : list A) l' : Forall P l' -> Forall (fun x => P (snd x)) (combine l l').
Proof. revert l'. induction l as [|a l IH]; intros l' F; [constructor|]. destruct F; cbn; constructor; auto. Qed.
Lemma entries_plain paddle blocks : plain paddle -> Forall plain blocks -> Forall (fun x => plain (snd (fst x))) (entries paddle blocks).
Proof.
  intros Hp Hb. constructor; [exact Hp|]. apply Forall_app. split; apply Forall_map.
  - apply (combine_snd_Forall (fun x : rect_params (T := R) * R => plain (fst x))). apply furniture_plain.
  - apply (combine_snd_Forall plain). exact Hb.
Qed.
Lemma entries_ids paddle blocks : map (fun x => fst (fst x)) (entries paddle blocks) = seq 1 (6 + length blocks).
Proof.
  unfold entries. cbn [map fst]. rewrite map_app, !map_map. rewrite (map_ext _ fst) by reflexivity. cbn [seq Nat.add]. f_equal.
  assert (G : forall {A} (l : list A) k, map fst (combine (seq k (length l)) l) = seq k (length l)) by (induction l; intros k; cbn; f_equal; auto).
  rewrite (map_ext (fun x : nat * rect_params (T := R) => fst (fst (fst x, snd x, 1))) fst) by reflexivity. rewrite (G _ blocks). rewrite (G _ furniture 2%nat). reflexivity.
Qed.
Lemma box_eq a b c d a' b' c' d' : a = a' -> b = b' -> c = c' -> d = d' -> Box a b c d = Box a' b' c' d'.
Proof. congruence. Qed.
Lemma entries_board paddle blocks ball : map (fun x => box_of (snd (fst x))) (entries paddle blocks) = tl (board paddle blocks ball).
Proof.
  assert (G : map (fun x : nat * rect_params (T := R) => box_of (snd (fst (fst x, snd x, 1)))) (combine (seq 7 (length blocks)) blocks) = map box_of blocks).
  { generalize 7%nat. induction blocks as [|b l IH]; intros k; [reflexivity|]. cbn. f_equal. apply IH. }
  unfold entries, board. rewrite map_cons, map_app, !map_map, G. cbn [combine seq furniture map app fst snd tl].
  unfold box_of. cbn [nth fst snd]. rnum. apply f_equal2; [reflexivity|]. repeat (apply f_equal2; [apply box_eq; lra|]). reflexivity.
Qed.
(** a body of the game other than the ball, before any call *)
Definition rect_body (x : nat * rect_params (T := R) * R) (b : body R) : Prop :=
  exists a c w h, snd (fst x) = ([a; c], [w; h]) /\ 0 < w /\ 0 < h /\ b_kind b = KRect (w, h) (corners w h) 0 /\ b_p b = (0, (a, c)) /\ b_id b = fst (fst x) /\ b_v b = (0, (0, 0)) /\
    b_mass b = 1 /\ b_inertia b = (w * w + h * h) / 12 /\ b_fric b = 0 /\ b_rest b = snd x /\ b_eps b = 1 / 10 /\ b_forces b = [] /\ available b.
Lemma like_available b b' : like b b' -> available b -> available b'.
Proof. intros [nc ->] (b0 & ops & H & ->). exists b0, (ops ++ [BNoContact nc]). split; [exact H|]. unfold bexec. rewrite fold_left_app. reflexivity. Qed.
Lemma rect_body_like x b b' : like b b' -> rect_body x b -> rect_body x b'.
Proof.
  intros L (a & c & w & h & H). exists a, c, w, h. destruct H as (H1 & H2 & H3 & H4 & H5 & H6 & H7 & H8 & H9 & H10 & H11 & H12 & H13 & H14).
  pose proof (like_available _ _ L H14) as Av. destruct L as [nc ->]. cbn. tauto.
Qed.
Lemma makes_body x b : plain (snd (fst x)) -> makes x b -> rect_body x b.
Proof.
  intros (a & c & w & h & E & Hw & Hh) H. unfold makes in H. rewrite E in H. destruct (game_rect_slab _ _ _ _ _ _ _ H) as [].
  exists a, c, w, h. repeat (split; [assumption|]). exists b, []. split; [assumption|reflexivity].
Qed.
Lemma rect_body_fills x b : rect_body x b -> fills b (box_of (snd (fst x))).
Proof.
  intros (a & c & w & h & E & Hw & Hh & Hk & Hp & _). rewrite E. unfold box_of. cbn [nth fst snd]. apply (slab_fills b a c w h 0%nat); auto. unfold b_pos. now rewrite Hp.
Qed.
Lemma total_like b b' : like b b' -> total_init b' = total_init b.
Proof. intros [nc ->]. reflexivity. Qed.

Section Setup.
Context {st : bool}.
Record setup (o : oracle R) (hd : handler R) (paddle : rect_params (T := R)) (blocks : list (rect_params (T := R))) (ball : ball_params (T := R)) (vel : list R)
       (w : world R) (b0 : body R) (rects : list (body R)) : Prop := {
  su_init : world_init o hd [] (b0 :: rects) (map total_init (tl rects)) DT EPSILON TOL 2 false st = Ok w;
  su_pre : exists bs, b0 :: rects = no_contact_ops bs (exclusions (length blocks));
  su_ball_kind : b_kind b0 = KCircle (snd ball);
  su_ball_p : b_p b0 = (0, (nth 0 (fst ball) 0, nth 1 (fst ball) 0));
  su_ball_v : to_v3 vel = Ok (b_v b0);
  su_ball : b_id b0 = 0%nat /\ b_mass b0 = 1 /\ b_inertia b0 = snd ball * snd ball / 2 /\ b_fric b0 = 0 /\ b_rest b0 = 1 /\ b_eps b0 = 1 / 10 /\ b_forces b0 = [] /\ available b0;
  su_rects : Forall2 rect_body (entries paddle blocks) rects }.
End Setup.
Lemma parts_bodies paddle blocks ball vel c0 cs : plain paddle -> Forall plain blocks -> plain_ball ball ->
  circle_init 0 (fst ball) (snd ball) vel 1 1 0 EPSILON = Ok c0 -> Forall2 makes (entries paddle blocks) cs -> exists b0 rects,
  no_contact_ops (c0 :: cs) (exclusions (length blocks)) = b0 :: rects /\ map total_init (tl cs) = map total_init (tl rects) /\
  b_kind b0 = KCircle (snd ball) /\ available b0 /\ Forall2 rect_body (entries paddle blocks) rects /\
  forall st o hd w, world_init o hd [] (b0 :: rects) (map total_init (tl rects)) DT EPSILON TOL 2 false st = Ok w -> setup (st := st) o hd paddle blocks ball vel w b0 rects.
Proof.
  intros Hp Hb (x & y & Hxy) E0 F.
  pose proof (nc_ops_like (c0 :: cs) (exclusions (length blocks))) as L. destruct (no_contact_ops (c0 :: cs) (exclusions (length blocks))) as [|b0 rects] eqn:Ebs; [inversion L|].
  assert (LL : like c0 b0 /\ Forall2 like cs rects) by (inversion L; auto). destruct LL as [L0 Ls]. clear L. exists b0, rects.
  assert (A0 : available c0) by (exists c0, []; split; [left; do 8 eexists; exact E0|reflexivity]).
  pose proof (like_available _ _ L0 A0) as A0'.
  rewrite Hxy in E0. unfold circle_init, body_init in E0. cbn [to_v3 bind fst] in E0. bind_inv E0 as v Ev. injection E0 as <-. destruct L0 as [nc ->].
  split; [reflexivity|]. split.
  { clear - Ls. destruct Ls as [|? ? ? ? _ Ls]; [reflexivity|]. cbn [tl]. induction Ls as [|? ? ? ? E Ls IH]; [reflexivity|]. cbn [map]. f_equal; [symmetry; now apply total_like|exact IH]. }
  split; [reflexivity|]. split; [exact A0'|].
  assert (FR : Forall2 rect_body (entries paddle blocks) rects).
  { pose proof (entries_plain _ _ Hp Hb) as P. clear - F P Ls. revert rects Ls. induction F as [|e c l cs Hm F IH]; intros rects Ls.
    + inversion Ls; subst. constructor.
    + inversion Ls as [|? b ? rs Hl Ls']; subst. inversion P; subst. constructor; auto. eapply rect_body_like; eauto using makes_body. }
  split; [exact FR|]. intros st o hd w Hi. constructor.
  - exact Hi.
  - eexists. symmetry. exact Ebs.
  - reflexivity.
  - rewrite Hxy. reflexivity.
  - exact Ev.
  - cbn. unfold circle_inertia, EPSILON. rnum. repeat (split; [auto; field|]). exact A0'.
  - exact FR.
Qed.
Lemma make_world_setup o hd paddle blocks ball vel w : plain paddle -> Forall plain blocks -> plain_ball ball -> make_world o hd paddle blocks ball vel = Ok w ->
  exists b0 rects, setup (st := true) o hd paddle blocks ball vel w b0 rects.
Proof.
  intros Hp Hb Hball H. destruct (make_world_inv _ _ _ _ _ _ _ H) as (c0 & cs & E0 & F & Hi). clear H.
  destruct (parts_bodies _ _ _ _ _ _ Hp Hb Hball E0 F) as (b0 & rects & Ebs & Et & _ & _ & _ & S). rewrite Ebs, Et in Hi. exists b0, rects. now apply S.
Qed.
