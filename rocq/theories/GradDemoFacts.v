(** The gradient demo (proofs for C90) *)
From Coq Require Import List Arith ZArith Lia Bool Reals Lra Psatz.
From Verif Require Import Num Tensor Utils Bodies Forces Constraints Contacts World Lapack Pdipm Engines Game Infer GradDemo
     Spec GeoSpec BodySpec JointSpec FreshSpec ContactSpec LapackSpec EngineSpec GameSpec StaticsSpec GradDemoSpec RBase ResFacts LinAlg BodyFacts RigidFacts GeomFacts BodyReach WorldFacts HandlerFacts
     LayoutFacts HistFacts SatFacts FreshFacts CollideFacts EngineFacts JointFacts JeFacts HeldFacts MomentumFacts FlightFacts EngineProps EngineMore SceneInit RunTotal FuelFacts CacheFacts GroupFacts EnergyRun
     SysFacts StaticsFacts StaticsProps CoastRun GameFacts GameProps GameStart GameFree InferFacts InferRun FreeRun.
Import ListNotations.
Open Scope R_scope.

(** *** the bodies *)
Definition place (i : nat) : v3 R := match i with 0%nat => (0, (500, 300)) | 1%nat => (0, (250, 210)) | _ => (0, (400, 250)) end.
Definition on (i : nat) : list nat := match i with 1%nat => [0%nat] | _ => [] end.
Record disc (i : nat) (b : body R) : Prop := {
  di_available : available b;
  di_kind : b_kind b = KCircle 30;
  di_p : b_p b = place i;
  di_id : b_id b = i;
  di_v : b_v b = (0, (0, 0));
  di_forces : b_forces b = on i;
  di_mass : b_mass b = 1;
  di_inertia : b_inertia b = 450 }.
Lemma disc_like i b b' : like b b' -> disc i b -> disc i b'.
Proof. intros L [A K P I V F M J]. pose proof (like_available _ _ L A) as A'. destruct L as [nc ->]. constructor; auto. Qed.
Lemma ball_ok i x y : place i = (0, (IZR x, IZR y)) -> exists b, ball (T := R) i x y = Ok b /\ (forall fs, fs = on i -> disc i (with_forces b fs)) /\ b_forces b = [].
Proof.
  intros Hp. unfold ball. rnum. unfold circle_init, body_init. cbn [to_v3 bind]. eexists. split; [reflexivity|]. split; [|reflexivity]. intros fs ->. constructor; try reflexivity.
  - eexists _, [BForces (on i)]. split; [|reflexivity]. left. exists i, [IZR x; IZR y], 30, [0; 0; 0], 1, RESTITUTION, FRIC_COEFF, EPSILON. reflexivity.
  - symmetry. exact Hp.
  - cbn. unfold circle_inertia. rnum. lra.
Qed.
Definition pairs : list (nat * nat) := [(1, 0); (2, 0)]%nat.
Record trio (bs : list (body R)) : Prop := {
  tr_len : length bs = 3%nat;
  tr_disc : forall i b, nth_error bs i = Some b -> disc i b;
  tr_excl : exists bs0, length bs0 = 3%nat /\ bs = no_contact_ops bs0 pairs }.
Definition heap_of (f : v3 R) : fheap R := [FExt (learned_force f) 100].
Lemma with_same_forces (b : body R) : b_forces b = [] -> with_forces b [] = b.
Proof. destruct b; cbn. now intros ->. Qed.
Lemma make_world_trio o hd f : exists bs, trio bs /\ make_world o hd f = world_init o hd (heap_of f) bs [] STEP EPSILON TOL 2 false true.
Proof.
  unfold make_world. destruct (ball_ok 0 500 300 eq_refl) as (b0 & -> & D0 & F0). destruct (ball_ok 1 250 210 eq_refl) as (b1 & -> & D1 & F1). destruct (ball_ok 2 400 250 eq_refl) as (b2 & E2 & D2 & F2). cbn [bind].
  unfold add_force. cbn [nth_error bind upd]. rewrite E2. cbn [bind]. rewrite F1. cbn [app]. rewrite exclude_ops. set (b1' := with_forces b1 [0%nat]).
  specialize (D0 [] eq_refl). rewrite (with_same_forces _ F0) in D0. specialize (D2 [] eq_refl). rewrite (with_same_forces _ F2) in D2. specialize (D1 [0%nat] eq_refl). fold b1' in D1.
  exists (no_contact_ops [b0; b1'; b2] pairs). split; [|reflexivity]. constructor.
  - now rewrite nc_ops_length.
  - intros i b Hb. destruct (Forall2_nth _ _ _ _ _ (nc_ops_like [b0; b1'; b2] pairs) Hb) as (a & Ha & Hl). apply (disc_like _ _ _ Hl). destruct i as [|[|[|i]]]; cbn in Ha; [injection Ha as <-; auto..|]. destruct i; discriminate Ha.
  - exists [b0; b1'; b2]. auto.
Qed.
Lemma disc_round i b b' c : disc i b -> moved b b' -> b_pos b' = c -> round b' c 30.
Proof.
  intros B M Hp. destruct (moved_rel _ rigid_steps _ _ M) as (_ & _ & C); [unfold poly_wf; now rewrite (di_kind _ _ B)|].
  split; [|exact Hp]. unfold same_class in C. rewrite (di_kind _ _ B) in C. destruct (b_kind b'); try tauto. now rewrite C.
Qed.

(** *** nothing touches *)
Lemma trio_clear bs gf o (a : world R) x y : trio bs -> broadphase_sane o -> Forall2 moved bs (w_bodies a) -> w_eps a = 1 / 10 ->
  (forall b, nth_error (w_bodies a) 1 = Some b -> b_pos b = (x, y)) -> (forall b, nth_error (w_bodies a) 2 = Some b -> b_pos b = (400, 250)) -> 60 + 1 / 10 < dist (x, y) (400, 250) ->
  contacts_current o (diff_handler gf o) a -> w_contacts a = [].
Proof.
  intros Ch Ho Mv Eps H1 H2 Hx Cu. destruct (w_contacts a) as [|c cs] eqn:Ec; [reflexivity|exfalso].
  assert (Hc : In c (w_contacts a)) by (rewrite Ec; now left). clear Ec cs.
  destruct (current_report _ _ _ _ Cu Hc Ho) as (Hne & L1 & L2 & new & Hin & Hrep). assert (La : length (w_bodies a) = 3%nat) by (rewrite <- (tr_len _ Ch); symmetry; eapply BodyReach.Forall2_len; eauto).
  rewrite La in L1, L2. destruct (nth_error (w_bodies a) (c_i1 c)) as [b1|] eqn:B1; [|apply nth_error_None in B1; lia]. destruct (nth_error (w_bodies a) (c_i2 c)) as [b2|] eqn:B2; [|apply nth_error_None in B2; lia].
  destruct Hrep as (clk & bs0 & bs1 & clk1 & Hst & Hd). destruct (still_nth _ _ _ _ Hst B1) as (a1 & A1 & E1). destruct (still_nth _ _ _ _ Hst B2) as (a2 & A2 & E2).
  destruct (Forall2_nth _ _ _ _ _ Mv B1) as (d1 & D1 & M1). destruct (Forall2_nth _ _ _ _ _ Mv B2) as (d2 & D2 & M2).
  assert (Nc : forall i j, In (i, j) pairs -> (i = c_i1 c /\ j = c_i2 c \/ i = c_i2 c /\ j = c_i1 c) -> False).
  { intros i j Hij Hor. assert (Hij' : i <> j) by lia.
    destruct (tr_excl _ Ch) as (bz & Lz & Ebz).
    unfold diff_handler, get_body in Hd. rewrite A1, A2 in Hd. cbn [bind] in Hd.
    assert (Xa : forall e b d, still e = still b -> moved d b -> excl e = excl d).
    { intros e b d He Hm. rewrite <- (moved_excl _ _ Hm). apply (f_equal excl) in He. unfold still in He. now rewrite !excl_with_v, !excl_forget in He. }
    pose proof (Xa _ _ _ E1 M1) as X1. pose proof (Xa _ _ _ E2 M2) as X2.
    assert (In (b_id d1) (g_no_contact (b_geom d2))) as Hn.
    { rewrite Ebz in D1, D2. destruct Hor as [[I1 I2]|[I1 I2]]; subst i j.
      - destruct (nc_ops_excluded bz pairs (c_i1 c) (c_i2 c) Hij ltac:(lia) ltac:(lia) Hij' _ _ D1 D2) as [Q1 Q2]. auto.
      - destruct (nc_ops_excluded bz pairs (c_i2 c) (c_i1 c) Hij ltac:(lia) ltac:(lia) Hij' _ _ D2 D1) as [Q1 Q2]. auto. }
    assert (Y : existsb (Nat.eqb (b_id a1)) (g_no_contact (b_geom a2)) = true).
    { unfold excl in X1, X2. injection X1 as -> _. injection X2 as _ ->. apply existsb_exists. exists (b_id d1). split; [exact Hn|apply Nat.eqb_refl]. }
    rewrite Y in Hd. injection Hd as <- _ _. destruct Hin. }
  assert (RR : forall i j b d b' d', disc i d -> disc j d' -> moved d b -> moved d' b' -> nth_error (w_bodies a) (c_i1 c) = Some b -> nth_error (w_bodies a) (c_i2 c) = Some b' -> 60 + 1 / 10 < dist (b_pos b) (b_pos b') -> False).
  { intros i j b d b' d' Di Dj Mi Mj Hb Hb' Hdist. destruct (disc_round i d b _ Di Mi eq_refl) as [K _]. destruct (disc_round j d' b' _ Dj Mj eq_refl) as [K' _].
    destruct (current_circles gf o a c b b' Cu Hc Hb Hb') as [Q _]; [unfold is_circle; now rewrite K|unfold is_circle; now rewrite K'| |].
    - intros E. rewrite E in Hdist. unfold dist in Hdist. rewrite !Rminus_diag_eq, Rmult_0_l, Rplus_0_l, sqrt_0 in Hdist by reflexivity. lra.
    - unfold gap, b_rad in Q. rewrite K, K', Eps in Q. lra. }
  pose proof (tr_disc _ Ch _ _ D1) as T1. pose proof (tr_disc _ Ch _ _ D2) as T2.
  destruct (c_i1 c) as [|[|[|k]]] eqn:I1; [| | |lia]; (destruct (c_i2 c) as [|[|[|k]]] eqn:I2; [| | |lia]); try congruence.
  - apply (Nc 1%nat 0%nat); [now left|auto].
  - apply (Nc 2%nat 0%nat); [right; now left|auto].
  - apply (Nc 1%nat 0%nat); [now left|auto].
  - apply (RR _ _ _ _ _ _ T1 T2 M1 M2 B1 B2). rewrite (H1 _ B1), (H2 _ B2). exact Hx.
  - apply (Nc 2%nat 0%nat); [right; now left|auto].
  - apply (RR _ _ _ _ _ _ T1 T2 M1 M2 B1 B2). rewrite (H1 _ B2), (H2 _ B1). rewrite PlaneFacts.dist_sym. exact Hx.
Qed.

(** *** the bodies as the generic theorems want them *)
Section Trio.
Variables (gf : nat) (o : oracle R) (bs : list (body R)).
Hypothesis Ho : broadphase_sane o.
Hypothesis Ch : trio bs.
Notation hd := (diff_handler gf o).
Lemma trio_ne : bs <> [].
Proof. intros E. pose proof (tr_len _ Ch) as L. rewrite E in L. discriminate. Qed.
Lemma trio_all (P : body R -> Prop) : (forall i b, disc i b -> P b) -> Forall P bs.
Proof. intros H. apply Forall_forall. intros b Hb. destruct (In_nth_error _ _ Hb) as [i Hi]. exact (H i b (tr_disc _ Ch _ _ Hi)). Qed.
Lemma trio_available : Forall available bs.
Proof. apply trio_all. intros i b D. exact (di_available _ _ D). Qed.
Lemma trio_masses : Forall (fun b : body R => 0 < b_mass b /\ 0 < b_inertia b) bs.
Proof. apply trio_all. intros i b D. rewrite (di_mass _ _ D), (di_inertia _ _ D). lra. Qed.
Lemma trio_fit : (2 <= gf)%nat -> Forall (fit gf) bs.
Proof.
  intros Hg. apply trio_all. intros i b B. apply available_fit; [exact (di_available _ _ B)| | |]; unfold tidy, ContactSpec.in_range, gjk_rounds, is_circle, b_rad, b_verts; rewrite (di_kind _ _ B); cbn [length]; [lra|lra|lia].
Qed.
Lemma trio_ids : NoDup (map b_id bs).
Proof.
  pose proof (tr_len _ Ch) as L. pose proof (tr_disc _ Ch) as D. destruct bs as [|b0 [|b1 [|b2 [|b3 l]]]]; try discriminate. cbn [map].
  rewrite (di_id _ _ (D 0%nat b0 eq_refl)), (di_id _ _ (D 1%nat b1 eq_refl)), (di_id _ _ (D 2%nat b2 eq_refl)). repeat constructor; cbn; intuition discriminate.
Qed.
Lemma trio_quiet hh dt tol fd ps st w : world_init o hd hh bs [] dt EPSILON tol fd ps st = Ok w -> w_contacts w = [].
Proof.
  intros H. assert (Sm : forall i b c, nth_error (w_bodies w) i = Some b -> nth_error bs i = Some c -> forget b = forget c).
  { intros i b c Hb Hc. pose proof (init_forget _ _ _ _ _ _ _ _ _ _ _ _ (diff_handler_frame gf o) H) as E. apply (f_equal (fun l => nth_error l i)) in E. rewrite !nth_error_map, Hb, Hc in E. now injection E. }
  assert (Mv : Forall2 moved bs (w_bodies w)) by (apply Forall2_forget'; [apply moved_steps|]; exact (init_forget _ _ _ _ _ _ _ _ _ _ _ _ (diff_handler_frame gf o) H)).
  assert (P : forall i b, nth_error (w_bodies w) i = Some b -> b_pos b = snd (place i)).
  { intros i b Hb. destruct (Forall2_nth _ _ _ _ _ Mv Hb) as (d & Hd & _). unfold b_pos. rewrite (forget_eq_p _ _ (Sm _ _ _ Hb Hd)), (di_p _ _ (tr_disc _ Ch _ _ Hd)). reflexivity. }
  apply (trio_clear bs gf o w 250 210 Ch Ho Mv).
  - destruct (world_init_inv _ _ _ _ _ _ _ _ _ _ _ _ H) as (_ & -> & _). reflexivity.
  - intros b Hb. exact (P _ _ Hb).
  - intros b Hb. exact (P _ _ Hb).
  - unfold dist. cbn [fst snd]. apply Rsqr_incrst_0; [|lra|apply sqrt_pos]. rewrite Rsqr_sqrt by lra. unfold Rsqr. lra.
  - eapply init_current; [apply diff_handler_frame|exact H].
Qed.

Section World.
Variables (f : v3 R) (w0 : world R).
Hypothesis Hw : world_init o hd (heap_of f) bs [] STEP EPSILON TOL 2 false true = Ok w0.
Definition loads (t : R) : vecR := cat3 [(0, (0, 0)); v3scale 100 (learned_force f t); (0, (0, 0))].
Lemma w0_disc i b : nth_error (w_bodies w0) i = Some b -> b_p b = place i /\ b_v b = (0, (0, 0)) /\ b_id b = i /\ b_forces b = on i /\ b_mass b = 1 /\ b_inertia b = 450.
Proof.
  intros Hb. destruct (Forall2_nth _ _ _ _ _ (free_moved gf o bs _ _ _ _ _ _ _ Hw) Hb) as (c & Hc & _). destruct (forget_keeps _ _ (free_same gf o bs _ _ _ _ _ _ _ Hw _ _ _ Hb Hc)) as (-> & -> & -> & -> & -> & ->).
  destruct (tr_disc _ Ch _ _ Hc) as [A K P I V F M J]. auto 10.
Qed.
Lemma w0_shape : exists b0 b1 b2, w_bodies w0 = [b0; b1; b2].
Proof.
  assert (L : length (w_bodies w0) = 3%nat) by (rewrite <- (tr_len _ Ch); symmetry; eapply BodyReach.Forall2_len; exact (free_moved gf o bs _ _ _ _ _ _ _ Hw)).
  destruct (w_bodies w0) as [|b0 [|b1 [|b2 [|b3 l]]]]; try discriminate. eauto.
Qed.
Lemma w0_loads t : world_apply_forces w0 t = Ok (loads t).
Proof.
  destruct w0_shape as (b0 & b1 & b2 & E). pose proof w0_disc as D. rewrite E in D. unfold world_apply_forces, body_apply_forces. rewrite E. destruct (free_clock gf o bs _ _ _ _ _ _ _ Hw) as (_ & _ & _ & _ & ->). cbn [mapM].
  destruct (D 0%nat b0 eq_refl) as (_ & _ & _ & -> & _). destruct (D 1%nat b1 eq_refl) as (_ & _ & _ & -> & _). destruct (D 2%nat b2 eq_refl) as (_ & _ & _ & -> & _).
  cbn [on mapM heap_of nth_error force_value bind fold_left]. unfold loads. f_equal. f_equal. f_equal.
  destruct (learned_force f t) as [x [y z]]. unfold v3mulr, v3scale, v3add, v3zero, v2add, v2zero, v2scale. cbn [fst snd]. rnum. apply f_equal2; [|reflexivity]. apply f_equal2; [|apply f_equal2]; ring.
Qed.
Definition push (t : R) : v3 R := if Rlt_dec t (1 / 10) then (100 * fst f / 450, (100 * fst (snd f), 100 * snd (snd f))) else (0, (0, 0)).
Lemma w0_pushed i b t : nth_error (w_bodies w0) i = Some b -> acceleration b (v3_at (loads t) i) = match i with 1%nat => push t | _ => (0, (0, 0)) end.
Proof.
  intros Hb. destruct (w0_disc i b Hb) as (_ & _ & _ & _ & Em & Ei). destruct w0_shape as (b0 & b1 & b2 & E). rewrite E in Hb. unfold acceleration. rewrite Em, Ei. unfold loads.
  destruct i as [|[|[|i]]]; [unfold v3_at, cat3, vget; cbn [flat_map v3list app nth Nat.mul Nat.add fst snd]..|destruct i; discriminate Hb].
  - unfold v2scale. cbn [fst snd]. rnum. apply f_equal2; [|apply f_equal2]; field.
  - unfold push, learned_force. change (nltb t (ncst C_0_1)) with (Rltb t (1 / 10)). destruct (Rltb_spec t (1 / 10)) as [Q|Q]; destruct (Rlt_dec t (1 / 10)) as [Q'|Q']; try lra; unfold v3scale, v2scale, ZEROS; cbn [fst snd]; rnum; (apply f_equal2; [|apply f_equal2]); field.
  - unfold v2scale. cbn [fst snd]. rnum. apply f_equal2; [|apply f_equal2]; field.
Qed.
Lemma pushed_course k : snd (fst (coast (1 / 30) 0 push (place 1) (0, (0, 0)) k)) = course f (reach k).
Proof.
  assert (P0 : forall t, t < 1 / 10 -> push t = (100 * fst f / 450, (100 * fst (snd f), 100 * snd (snd f)))) by (intros t Ht; unfold push; destruct (Rlt_dec t (1 / 10)); [reflexivity|lra]).
  unfold course, place. destruct k as [|[|[|k]]]; cbn [coast].
  - cbn [fst snd reach]. apply f_equal2; ring.
  - rewrite !P0 by lra. unfold v3add, v3scale, v2add, v2scale, reach. cbn [fst snd]. rnum. apply f_equal2; field.
  - rewrite !P0 by lra. unfold v3add, v3scale, v2add, v2scale, reach. cbn [fst snd INR]. rnum. apply f_equal2; field.
  - rewrite !P0 by lra. rewrite coast_free; [|lra|intros s Hs; unfold push; destruct (Rlt_dec s (1 / 10)); [lra|reflexivity]].
    unfold v3add, v3scale, v2add, v2scale, reach. cbn [fst snd]. rewrite !S_INR. rnum. apply f_equal2; field.
Qed.
Lemma w0_flying k : exists r v1, coasting w0 loose loads k = [(place 0, (0, (0, 0))); ((r, course f (reach k)), v1); (place 2, (0, (0, 0)))].
Proof.
  destruct (free_clock gf o bs _ _ _ _ _ _ _ Hw) as (Edt & Et & _). unfold coasting. rewrite Edt, Et. change STEP with (1 / 30). pose proof w0_disc as D. pose proof w0_pushed as A. destruct w0_shape as (b0 & b1 & b2 & E). rewrite E in *. unfold mapi. cbn [mapi_from length seq combine map loose fst snd].
  assert (Z : forall i b, nth_error [b0; b1; b2] i = Some b -> i <> 1%nat -> coast (1 / 30) 0 (fun t => acceleration b (v3_at (loads t) i)) (b_p b) (b_v b) k = (place i, (0, (0, 0)))).
  { intros i b Hb Hi. rewrite coast_free; [|lra|intros s _; rewrite (A i b s Hb); destruct i as [|[|i]]; [reflexivity|congruence|reflexivity]]. destruct (D i b Hb) as (-> & -> & _). apply f_equal2; [|reflexivity].
    destruct (place i) as [r [x y]]. unfold v3add, v3scale, v2add, v2scale. cbn [fst snd]. rnum. apply f_equal2; [|apply f_equal2]; ring. }
  rewrite (Z 0%nat b0 eq_refl), (Z 2%nat b2 eq_refl) by lia.
  rewrite (coast_ext _ _ push (fun t => A 1%nat b1 t eq_refl)). destruct (D 1%nat b1 eq_refl) as (-> & -> & _). pose proof (pushed_course k) as Q. destruct (coast (1 / 30) 0 push (place 1) (0, (0, 0)) k) as [[r xy] v1]. cbn [fst snd] in Q. subst xy. exists r, v1. reflexivity.
Qed.
Lemma w0_clear K : misses f K -> forall m, (m <= K)%nat -> EngineSpec.clear_at o hd w0 (map fst (coasting w0 loose loads m)).
Proof.
  intros Ha m Hmk a Mv Eps Hp Cu. destruct (w0_flying m) as (r & v1 & E). rewrite E in Hp. cbn [map fst] in Hp. destruct (free_clock gf o bs _ _ _ _ _ _ _ Hw) as (_ & _ & E0 & _). rewrite E0 in Eps.
  assert (Hs : 0 <= reach m <= reach K).
  { assert (forall j, (1 <= j)%nat -> reach (S j) = INR j / 3) as R1 by (intros [|j]; [lia|reflexivity]). split.
    - destruct m as [|[|m]]; [cbn; lra|cbn; lra|rewrite R1 by lia]. pose proof (pos_INR (S m)). lra.
    - destruct m as [|[|m]].
      + destruct K as [|[|K]]; [cbn; lra|cbn; lra|rewrite R1 by lia]. pose proof (pos_INR (S K)). cbn [reach]. lra.
      + destruct K as [|[|K]]; [lia|cbn; lra|rewrite (R1 (S K)) by lia]. rewrite S_INR. pose proof (pos_INR K). cbn [reach]. lra.
      + destruct K as [|[|K]]; [lia|lia|]. rewrite !R1 by lia. assert (INR (S m) <= INR (S K)) by (apply le_INR; lia). lra. }
  specialize (Ha _ Hs). destruct (course f (reach m)) as [x y] eqn:Ecs. cbn [fst snd] in Hp.
  assert (Pn : forall i b, nth_error (w_bodies a) i = Some b -> nth_error [place 0; (r, (x, y)); place 2] i = Some (b_p b)) by (intros i b Hb; transitivity (nth_error (map b_p (w_bodies a)) i); [rewrite Hp; reflexivity|rewrite nth_error_map, Hb; reflexivity]).
  apply (trio_clear bs gf o a x y Ch Ho); auto.
  - eapply Forall2_trans'; [apply moved_steps|exact (free_moved gf o bs _ _ _ _ _ _ _ Hw)|exact Mv].
  - intros b Hb. specialize (Pn _ _ Hb). cbn in Pn. injection Pn as Pn. unfold b_pos. now rewrite <- Pn.
  - intros b Hb. specialize (Pn _ _ Hb). cbn in Pn. injection Pn as Pn. unfold b_pos. now rewrite <- Pn.
Qed.
End World.
End Trio.

Section Demo.
Variables (gf : nat) (o : oracle R) (la : lapack R) (mi : nat).
Hypothesis Ho : broadphase_sane o.
Hypothesis HL : lapack_ok la.
Hypothesis Hmi : (0 < mi)%nat.
Hypothesis Hg : (2 <= gf)%nat.
Notation hd := (diff_handler gf o).
Notation eng := (pdipm_engine la mi).

(** the world is made, and up to the contact everything is known *)
Theorem demo_course f K fuel lfuel run_time : misses f K -> (forall m, (m < K)%nat -> INR m / 30 < run_time) -> run_time <= INR K / 30 -> (K < fuel)%nat ->
  exists w w', make_world o hd f = Ok w /\ run_world fuel (S lfuel) o hd eng run_time w = Ok w' /\
    map b_pos (w_bodies w') = [(500, 300); course f (reach K); (400, 250)] /\ w_contacts w' = [] /\ w_t w' = INR K / 30.
Proof.
  intros Hmis Hlt Hle Hfu. destruct (make_world_trio o hd f) as (bs & Ch & ->).
  destruct (free_starts gf o bs Ho (trio_ne bs Ch) (trio_available bs Ch) (trio_fit gf bs Ch Hg) (trio_ids bs Ch) (heap_of f) STEP EPSILON TOL 2 false) as [w Hw]; [intros w Hw; eapply trio_quiet; eauto|]. exists w.
  change STEP with (1 / 30) in *.
  destruct (free_run gf o bs Ho (trio_available bs Ch) (trio_fit gf bs Ch Hg) (trio_ids bs Ch) (heap_of f) (1 / 30) EPSILON TOL false true w (loads f) la mi Hw (trio_masses bs Ch) (w0_loads gf o bs Ch f w Hw) HL Hmi K lfuel fuel run_time) as (w' & E & Es & Et & Ec).
  - apply (w0_clear gf o bs Ho Ch f w Hw K Hmis).
  - intros m Hm. specialize (Hlt m Hm). lra.
  - lra.
  - exact Hfu.
  - exists w'. split; [exact Hw|]. split; [exact E|]. split; [|split; [exact Ec|lra]].
    destruct (w0_flying gf o bs Ch f w Hw K) as (r & v1 & Ef). rewrite Ef in Es. apply (f_equal (map (fun q : v3 R * v3 R => snd (fst q)))) in Es. rewrite map_map in Es. exact Es.
Qed.
Variables (fuel lfuel : nat).
Hypothesis Hfu : (210 < fuel)%nat.
Notation measure := (measure fuel (S lfuel) o hd eng).
Notation run := (run fuel (S lfuel) o hd eng).
Lemma far_run f : misses f 210 -> exists w, run f = Ok w /\ map b_pos (w_bodies w) = [(500, 300); course f (209 / 3); (400, 250)].
Proof.
  intros H. assert (I210 : INR 210 = 210) by (rewrite INR_IZR_INZ; reflexivity). assert (R210 : reach 210 = 209 / 3) by (unfold reach; rewrite INR_IZR_INZ; reflexivity).
  destruct (demo_course f 210 fuel lfuel 7 H) as (w & w' & E & E' & P & _); [intros m Hm; apply lt_INR in Hm; rewrite I210 in Hm; lra|rewrite I210; lra|exact Hfu|].
  exists w'. split; [|rewrite P, R210; reflexivity]. unfold GradDemo.run. rewrite E. cbn [bind]. exact E'.
Qed.
Lemma far_distance f : misses f 210 -> measure f = Ok (50 * sqrt 5).
Proof.
  intros H. destruct (far_run f H) as (w & E & P). unfold GradDemo.measure. rewrite E. cbn [bind]. unfold distance.
  destruct (w_bodies w) as [|b0 [|b1 [|b2 [|b3 l]]]]; try discriminate P. cbn [map] in P. injection P as P0 P1 P2. cbn [nth_error]. rewrite P0, P2. unfold v2norm, v2dot, v2sub. cbn [fst snd]. rnum.
  f_equal. replace ((500 - 400) * (500 - 400) + (300 - 250) * (300 - 250)) with (50 * 50 * 5) by ring. rewrite sqrt_mult by lra. rewrite sqrt_square by lra. reflexivity.
Qed.
(** missing the ball is stable under small changes of the force *)
Lemma misses_open f d K : misses f K -> exists e, 0 < e /\ forall h, Rabs h < e -> misses (shifted f d h) K.
Proof.
  intros H. set (S := reach K) in *.
  assert (HS : 0 <= S) by (unfold S, reach; destruct K as [|[|K]]; [lra|lra|]; pose proof (pos_INR (Datatypes.S K)); lra).
  set (sq := fun f s => (fst (course f s) - 400) * (fst (course f s) - 400) + (snd (course f s) - 250) * (snd (course f s) - 250)).
  assert (Eq : forall g s, 60 + 1 / 10 < dist (course g s) (400, 250) <-> (60 + 1 / 10) * (60 + 1 / 10) < sq g s).
  { intros g s. pose proof (Rle_0_sqr (fst (course g s) - 400)) as K1. pose proof (Rle_0_sqr (snd (course g s) - 250)) as K2. unfold Rsqr in K1, K2. assert (Hq : 0 <= sq g s) by (unfold sq; lra). change (dist (course g s) (400, 250)) with (sqrt (sq g s)). split; intros Q.
    - rewrite <- (sqrt_sqrt (sq g s)) by exact Hq. nra.
    - apply Rsqr_incrst_0; [|lra|apply sqrt_pos]. rewrite Rsqr_sqrt by exact Hq. exact Q. }
  destruct (continuity_ab_min (sq f) 0 S HS) as (s0 & Hmin & Hs0).
  { intros c _. change (continuity_pt (fun s => (250 + s * fst (snd f) - 400) * (250 + s * fst (snd f) - 400) + (210 + s * snd (snd f) - 250) * (210 + s * snd (snd f) - 250)) c).
    generalize (fst (snd f)) (snd (snd f)). intros A' B'. reg. }
  set (m := sq f s0 - (60 + 1 / 10) * (60 + 1 / 10)). assert (Hm : 0 < m) by (unfold m; specialize (H s0 Hs0); apply Eq in H; lra).
  (* the distance changes by at most h S |d|, so its square by at most ... *)
  set (a := Rabs (fst (snd f)) * S + 250 + 400). set (b := Rabs (snd (snd f)) * S + 210 + 250). set (p := Rabs (fst (snd d)) * S). set (q := Rabs (snd (snd d)) * S).
  assert (Pos : 0 <= a /\ 0 <= b /\ 0 <= p /\ 0 <= q).
  { pose proof (Rabs_pos (fst (snd f))). pose proof (Rabs_pos (snd (snd f))). pose proof (Rabs_pos (fst (snd d))). pose proof (Rabs_pos (snd (snd d))). unfold a, b, p, q. repeat split; nra. }
  set (L := 2 * a * p + 2 * b * q + 1). assert (HLp : 1 <= L) by (unfold L; nra).
  exists (m / L). split; [apply Rdiv_lt_0_compat; lra|]. intros h Hh s Hs. change (reach K) with S in Hs. apply Eq. specialize (Hmin s Hs).
  assert (Bd : forall x u, Rabs (s * x) <= Rabs x * S /\ (Rabs u <= 0 -> u = 0)).
  { intros x u. split; [rewrite Rabs_mult, (Rabs_right s) by lra; rewrite Rmult_comm; apply Rmult_le_compat_l; [apply Rabs_pos|lra]|]. intros Q. pose proof (Rabs_pos u). destruct (Req_dec u 0); [assumption|]. pose proof (Rabs_pos_lt u). lra. }
  assert (AI : forall u r, Rabs u <= r -> - r <= u <= r) by (intros u r Q; unfold Rabs in Q; destruct (Rcase_abs u); lra).
  set (x := fst (course f s) - 400). set (y := snd (course f s) - 250). set (dx := s * fst (snd d)). set (dy := s * snd (snd d)).
  assert (Ex : sq (shifted f d h) s = sq f s + 2 * h * (x * dx + y * dy) + h * h * (dx * dx + dy * dy)) by (unfold sq, x, y, dx, dy, course, shifted; cbn [fst snd]; ring).
  assert (Bx : Rabs x <= a).
  { unfold x, course, a. cbn [fst snd]. destruct (Bd (fst (snd f)) 0) as [B _]. apply Rabs_le. apply AI in B. lra. }
  assert (By : Rabs y <= b).
  { unfold y, course, b. cbn [fst snd]. destruct (Bd (snd (snd f)) 0) as [B _]. apply Rabs_le. apply AI in B. lra. }
  assert (Bdx : Rabs dx <= p) by (unfold dx, p; apply Bd; exact 0). assert (Bdy : Rabs dy <= q) by (unfold dy, q; apply Bd; exact 0).
  assert (Bxy : Rabs (x * dx + y * dy) <= a * p + b * q).
  { eapply Rle_trans; [apply Rabs_triang|]. rewrite !Rabs_mult. pose proof (Rabs_pos x). pose proof (Rabs_pos y). pose proof (Rabs_pos dx). pose proof (Rabs_pos dy). apply Rplus_le_compat; apply Rmult_le_compat; auto. }
  assert (Bh : Rabs (2 * h * (x * dx + y * dy)) < m).
  { rewrite !Rabs_mult, (Rabs_right 2) by lra. pose proof (Rabs_pos h). apply Rmult_lt_compat_r with (r := L) in Hh; [|lra]. replace (m / L * L) with m in Hh by (field; lra).
    eapply Rle_lt_trans; [|exact Hh]. unfold L. pose proof (Rabs_pos (x * dx + y * dy)). nra. }
  apply Rabs_def2 in Bh. rewrite Ex. pose proof (Rle_0_sqr (h * dx)) as Q1. pose proof (Rle_0_sqr (h * dy)) as Q2. unfold Rsqr in Q1, Q2. unfold m in Bh. nra.
Qed.
Theorem flat f g : misses f 210 -> gradient_of measure f g <-> g = (0, (0, 0)).
Proof.
  intros H. assert (Z : forall d, derivable_pt_lim (fun h => value (measure (shifted f d h))) 0 0).
  { intros d. destruct (misses_open f d 210 H) as (e & He & Hn). intros eps Heps. exists (mkposreal e He). intros h Hh0 Hh. cbn in Hh.
    assert (V : forall k, Rabs k < e -> value (measure (shifted f d k)) = 50 * sqrt 5) by (intros k Hk; now rewrite (far_distance _ (Hn k Hk))).
    rewrite (V (0 + h)) by (now rewrite Rplus_0_l). rewrite (V 0) by (now rewrite Rabs_R0). replace ((50 * sqrt 5 - 50 * sqrt 5) / h - 0) with 0 by (field; exact Hh0). now rewrite Rabs_R0. }
  split.
  - intros G. pose proof (fun d => uniqueness_limite _ _ _ _ (G d) (Z d)) as U. pose proof (U (1, (0, 0))) as U1. pose proof (U (0, (1, 0))) as U2. pose proof (U (0, (0, 1))) as U3.
    destruct g as [a [b c]]. unfold inner in U1, U2, U3. cbn [fst snd] in U1, U2, U3. apply f_equal2; [lra|apply f_equal2; lra].
  - intros -> d. replace (inner (0, (0, 0)) d) with 0 by (unfold inner; cbn; ring). apply Z.
Qed.
(** ... so nothing is learned *)
Lemma learn_S fu lf o' hd' e' grad n rate last hist d0 (f : v3 R) : learn fu lf o' hd' e' grad (S n) rate last hist d0 f =
  (do d <- GradDemo.measure fu lf o' hd' e' f;
   let g := v3scale rate (grad f) in
   let f' := (nsub (fst f) (fst g), v2sub (snd f) (snd g)) in
   if nltb (nabs (nsub last d)) (ndiv 1 (nofZ 100000)) then Ok (f', hist, d) else learn fu lf o' hd' e' grad n (nmul rate (ndiv (nofZ 9) (nofZ 10))) d (hist ++ [d]) d f').
Proof. reflexivity. Qed.
Theorem stuck grad f : (forall g, gradient_of measure f g -> grad f = g) -> misses f 210 ->
  exists w, grad_demo fuel (S lfuel) o hd eng grad f = Ok (f, w, 50 * sqrt 5, [50 * sqrt 5]) /\ map b_pos (w_bodies w) = [(500, 300); course f (209 / 3); (400, 250)].
Proof.
  intros Hgr H. assert (G0 : grad f = (0, (0, 0))) by (apply Hgr; apply flat; auto).
  assert (Fx : forall r, (fst f - fst (v3scale r (grad f)), v2sub (snd f) (snd (v3scale r (grad f)))) = f).
  { intros r. rewrite G0. destruct f as [a [b c]]. unfold v3scale, v2scale, v2sub. cbn [fst snd]. rnum. apply f_equal2; [ring|apply f_equal2; ring]. }
  pose proof (far_distance f H) as Md. destruct (far_run f H) as (w & Er & P). exists w. split; [|exact P].
  unfold grad_demo. rewrite Er. cbn [bind]. rewrite learn_S, Md. cbn [bind]. cbv zeta. rnum. rewrite Fx.
  assert (S5 : 0 <= sqrt 5 <= 5).
  { split; [apply sqrt_pos|]. apply Rsqr_incr_0; [|apply sqrt_pos|lra]. rewrite Rsqr_sqrt by lra. unfold Rsqr. lra. }
  rewrite (proj2 (Rltb_false _ _)) by (rewrite Rabs_right; lra). rewrite learn_S, Md. cbn [bind]. cbv zeta. rnum. rewrite Fx.
  rewrite (proj2 (Rltb_true _ _)) by (rewrite Rminus_diag_eq, Rabs_R0 by reflexivity; lra). cbn [bind app]. rewrite Er. reflexivity.
Qed.
End Demo.

(** *** pushes that miss and pushes that reach *)
Lemma weak_misses f : fst (snd f) * fst (snd f) + snd (snd f) * snd (snd f) <= 1 -> misses f 210.
Proof.
  intros H s [H0 H1]. assert (R210 : reach 210 = 209 / 3) by (unfold reach; rewrite INR_IZR_INZ; reflexivity). rewrite R210 in H1. unfold dist, course. cbn [fst snd]. set (x := fst (snd f)) in *. set (y := snd (snd f)) in *.
  apply Rsqr_incrst_0; [|lra|apply sqrt_pos]. assert (Q : (60 + 1 / 10) * (60 + 1 / 10) < (250 + s * x - 400) * (250 + s * x - 400) + (210 + s * y - 250) * (210 + s * y - 250)).
  { assert (Hc : 150 * x + 40 * y <= 156) by (pose proof (Rle_0_sqr (x - 150 / 155)) as K1; pose proof (Rle_0_sqr (y - 40 / 155)) as K2; unfold Rsqr in *; nra).
    pose proof (Rmult_le_compat_l s _ _ H0 Hc) as Hd. destruct (Rle_lt_dec (150 * x + 40 * y) 0) as [N|P].
    - pose proof (Rle_0_sqr (s * x)) as K1. pose proof (Rle_0_sqr (s * y)) as K2. unfold Rsqr in *. assert (s * (150 * x + 40 * y) <= 0) by nra. nra.
    - set (u := 150 * x + 40 * y) in *. assert (U : u * u <= 24100 * (x * x + y * y)) by (unfold u; pose proof (Rle_0_sqr (40 * x - 150 * y)) as K; unfold Rsqr in K; nra).
      assert (E : (250 + s * x - 400) * (250 + s * x - 400) + (210 + s * y - 250) * (210 + s * y - 250) = 24100 - 2 * (s * u) + s * s * (x * x + y * y)) by (unfold u; ring).
      assert (E2 : s * s * (u * u) <= s * s * (24100 * (x * x + y * y))) by (apply Rmult_le_compat_l; [nra|exact U]). rewrite E. set (t := s * u) in *. assert (Ht : 0 <= t) by (unfold t; nra). assert (Ht2 : t <= 209 / 3 * 156) by nra. assert (E3 : t * t <= 24100 * (s * s * (x * x + y * y))) by (unfold t; nra). nra. }
  rewrite Rsqr_sqrt; [exact Q|]. assert (0 < (60 + 1 / 10) * (60 + 1 / 10)) by lra. eapply Rle_trans; [apply Rlt_le; eassumption|apply Rlt_le; exact Q].
Qed.
Lemma away_misses f : fst (snd f) <= 0 -> misses f 210.
Proof.
  destruct f as [r [x y]]. cbn [fst snd]. intros H s [H0 _]. unfold dist, course. cbn [fst snd]. pose proof (Rmult_le_compat_l s _ _ H0 H) as K. rewrite Rmult_0_r in K.
  assert (Q : forall a b, a <= -150 -> 0 <= a * a + b * b /\ (60 + 1 / 10) * (60 + 1 / 10) < a * a + b * b) by (intros a b Ha; pose proof (Rle_0_sqr b) as B; unfold Rsqr in B; assert (22500 <= a * a) by (clear - Ha; nra); lra).
  destruct (Q (250 + s * x - 400) (210 + s * y - 250)) as [Q1 Q2]; [lra|]. apply Rsqr_incrst_0; [|lra|apply sqrt_pos]. rewrite Rsqr_sqrt; [exact Q2|exact Q1].
Qed.
Lemma shipped_reaches : ~ misses (0, (3, 0)) 210.
Proof.
  intros H. assert (R210 : reach 210 = 209 / 3) by (unfold reach; rewrite INR_IZR_INZ; reflexivity). specialize (H 50). rewrite R210 in H. specialize (H ltac:(lra)). unfold dist, course in H. cbn [fst snd] in H.
  replace ((250 + 50 * 3 - 400) * (250 + 50 * 3 - 400) + (210 + 50 * 0 - 250) * (210 + 50 * 0 - 250)) with (40 * 40) in H by ring. rewrite sqrt_square in H by lra. lra.
Qed.

(** *** the number printed at the end is that of the last round *)
Section Report.
Variables (fuel lfuel : nat) (o : oracle R) (hd : handler R) (e : engine R) (grad : v3 R -> v3 R).
Notation measure := (measure fuel lfuel o hd e).
Lemma learn_report : forall iters rate last hist d0 f f' hist' d, (0 < iters)%nat -> learn fuel lfuel o hd e grad iters rate last hist d0 f = Ok (f', hist', d) ->
  exists fl r, measure fl = Ok d /\ f' = shifted fl (grad fl) (- r).
Proof.
  induction iters as [|iters IH]; intros rate last hist d0 f f' hist' d Hi H; [lia|]. cbn [learn] in H. bind_inv H as d1 E1.
  assert (Sh : (nsub (fst f) (fst (v3scale rate (grad f))), v2sub (snd f) (snd (v3scale rate (grad f)))) = shifted f (grad f) (- rate)).
  { unfold shifted, v3scale, v2scale, v2sub. cbn [fst snd]. rnum. apply f_equal2; [ring|apply f_equal2; ring]. }
  destruct (nltb _ _).
  - injection H as <- <- <-. exists f, rate. split; [exact E1|]. exact Sh.
  - destruct iters as [|iters]; [|exact (IH _ _ _ _ _ _ _ _ ltac:(lia) H)]. cbn [learn] in H. injection H as <- <- <-. exists f, rate. split; [exact E1|exact Sh].
Qed.
Theorem report f0 f w d hist : grad_demo fuel lfuel o hd e grad f0 = Ok (f, w, d, hist) ->
  run fuel lfuel o hd e f = Ok w /\ exists fl r, measure fl = Ok d /\ f = shifted fl (grad fl) (- r).
Proof.
  intros H. unfold grad_demo in H. bind_inv H as u Eu. bind_inv H as q Eq. destruct q as [[f' hist'] d']. bind_inv H as w' Ew. injection H as <- <- <- <-. split; [exact Ew|]. eapply (learn_report 100); [lia|exact Eq].
Qed.
End Report.
