(** A square that turns above another one and a disc that leaves (the scene of C101's example) *)
From Coq Require Import List Arith ZArith Lia Bool Reals Lra.
From Verif Require Import Num Tensor Utils Bodies Forces Constraints Contacts World Lapack Pdipm Engines Game Infer Spec GeoSpec BodySpec JointSpec FreshSpec ContactSpec LapackSpec EngineSpec GameSpec StaticsSpec InferSpec DemoSpec StrictSpec RBase ResFacts LinAlg BodyFacts RigidFacts GeomFacts BodyReach WorldFacts HandlerFacts LayoutFacts HistFacts SatFacts FreshFacts CollideFacts EngineFacts JointFacts JeFacts HeldFacts MomentumFacts FlightFacts EngineProps EngineMore SceneInit RunTotal FuelFacts CacheFacts GroupFacts EnergyRun SysFacts StaticsFacts StaticsProps CoastRun GameFacts GameProps GameStart GameFree InferFacts InferRun BesideRun StrictFacts DemoFacts LapackRef ApartSpec LuFacts ScatterFacts ApartFacts FloatEx RealEx ContactEx.
Import ListNotations.
Open Scope R_scope.

Lemma matches_handled gf i th b : (18 <= gf)%nat -> matches i th b -> handled gf b.
Proof. intros Hg M. destruct (matches_fit gf i th b Hg M) as (_ & _ & T & I & G). split; [exact (mt_available _ _ _ M)|auto]. Qed.
Ltac v3ring := apply f_equal2; [ring|apply f_equal2; ring].
Lemma coast_free dt t p v n : StaticsSpec.coast dt t (fun _ => (0, (0, 0))) p v n = (v3add p (v3scale (INR n * dt) v), v).
Proof.
  revert t p. induction n as [|n IH]; intros t p.
  - cbn [StaticsSpec.coast INR]. f_equal. destruct p as [a [b c]], v as [x [y z]]. unfold v3add, v3scale, v2add, v2scale. cbn [fst snd]. rnum. v3ring.
  - rewrite S_INR. cbn [StaticsSpec.coast]. assert (E : v3add v (v3scale dt (0, (0, 0))) = v) by (destruct v as [x [y z]]; unfold v3add, v3scale, v2add, v2scale; cbn [fst snd]; rnum; v3ring).
    rewrite E, IH. f_equal. destruct p as [a [b c]], v as [x [y z]]. unfold v3add, v3scale, v2add, v2scale. cbn [fst snd]. rnum. v3ring.
Qed.
Definition sq_low := Thing (Plate 2 2) (0, (0, -10)) (0, (0, 0)) (1 / 2) 1 [].
Definition sq_turn := Thing (Plate 2 2) (0, (0, 0)) (1, (0, 0)) (1 / 2) 1 [].
Definition disc_leaves := Thing (Ball 1) (0, (5, 0)) (0, (1, 0)) (1 / 2) 1 [].
Section Ex.
Variables b0 b1 b2 : body R.
Hypothesis M0 : matches 0 sq_low b0.
Hypothesis M1 : matches 1 sq_turn b1.
Hypothesis M2 : matches 2 disc_leaves b2.
Notation bs := [b0; b1; b2].
Lemma ex_verts b th : b_kind b = form_kind (Plate 2 2) -> fst (b_p b) = 0 -> verts_at b (th, snd (b_p b)) = map (rotate th) (corners 2 2).
Proof. intros K P. unfold verts_at, b_verts, b_rot. rewrite K, P. cbn [form_kind fst]. now rewrite Rminus_0_r. Qed.
Lemma ex_room s : 0 <= s -> all_room (1 / 10) bs [(0, (0, -10)); (s, (0, 0)); (0, (5 + s, 0))].
Proof.
  intros Hs.
  assert (I : forall b, b_kind b = form_kind (Plate 2 2) -> inside 2 b).
  { intros b K. unfold inside, is_circle, b_verts. rewrite K. cbn [form_kind]. intros v Hv. unfold dist. cbn [fst snd]. rewrite <- (sqrt_square 2) by lra. apply sqrt_le_1_alt. destruct Hv as [<-|[<-|[<-|[<-|[]]]]]; cbn [fst snd]; lra. }
  assert (I2 : inside 1 b2) by (unfold inside, is_circle, b_rad; rewrite (mt_kind _ _ _ M2); cbn; lra).
  assert (C0 : is_circle b0 = false) by (unfold is_circle; now rewrite (mt_kind _ _ _ M0)).
  assert (C1 : is_circle b1 = false) by (unfold is_circle; now rewrite (mt_kind _ _ _ M1)).
  assert (C2 : is_circle b2 = true) by (unfold is_circle; now rewrite (mt_kind _ _ _ M2)).
  assert (D : forall x y, 4 < x -> 3 + 1 / 10 < dist (0, y) (x, 0)).
  { intros x y Hx. unfold dist. cbn [fst snd]. apply Rlt_le_trans with (sqrt (4 * 4)); [rewrite sqrt_square by lra; lra|]. apply sqrt_le_1_alt. nra. }
  intros i j a c p q Hij Ha Hc Hp Hq. right.
  destruct i as [|[|[|i]]], j as [|[|[|j]]]; try lia; cbn in Ha, Hc, Hp, Hq; try (destruct j; discriminate); injection Ha as <-; injection Hc as <-; injection Hp as <-; injection Hq as <-; unfold room; rewrite ?C0, ?C1, ?C2; cbn [orb].
  - left. unfold strip_along. unfold verts_at, b_verts, b_rot. rewrite (mt_kind _ _ _ M0), (mt_kind _ _ _ M1), (mt_p _ _ _ M0), (mt_p _ _ _ M1). cbn [sq_low sq_turn th_form th_p form_kind fst snd].
    rewrite Rminus_0_r. rewrite map_rotate_0. exists ((1, 1), (-1, 1)). split; [unfold corners; cbn; left; repeat f_equal; lra|].
    intros v Hv. rewrite Rminus_0_r in Hv. apply in_map_iff in Hv. destruct Hv as (u & <- & Hu). destruct (turned_bound s 2 2 u ltac:(lra) ltac:(lra) Hu) as [_ B].
    assert (E : forall z, edge_dist ((1, 1), (-1, 1)) z = snd z - 1).
    { intros z. unfold edge_dist. cbn [fst snd]. assert (L : dist (1, 1) (-1, 1) = 2) by (unfold dist; cbn [fst snd]; replace ((1 - -1) * (1 - -1) + (1 - 1) * (1 - 1)) with (2 * 2) by ring; apply sqrt_square; lra). rewrite L. unfold tri2, det2. cbn [fst snd]. field. }
    rewrite E. unfold v2add, v2sub. cbn [fst snd]. rnum. unfold Rabs in B. destruct (Rcase_abs _); lra.
  - apply (discs_strip _ _ _ _ _ 2 1); auto; try lra; [apply I, (mt_kind _ _ _ M0)|]. cbn [snd]. specialize (D (5 + s) (-10) ltac:(lra)). lra.
  - apply (discs_strip _ _ _ _ _ 2 1); auto; try lra; [apply I, (mt_kind _ _ _ M1)|]. cbn [snd]. specialize (D (5 + s) 0 ltac:(lra)). lra.
Qed.
Lemma ex_handled : Forall (handled 18) bs.
Proof. repeat (apply Forall_cons; [eapply matches_handled; eauto|]); constructor. Qed.
Lemma ex_poses : map b_p bs = [(0, (0, -10)); (0, (0, 0)); (0, (5 + 0, 0))].
Proof. cbn [map]. rewrite (mt_p _ _ _ M0), (mt_p _ _ _ M1), (mt_p _ _ _ M2), Rplus_0_r. reflexivity. Qed.
Lemma ex_ids : NoDup (map b_id bs).
Proof. cbn [map]. rewrite (mt_id _ _ _ M0), (mt_id _ _ _ M1), (mt_id _ _ _ M2). repeat constructor; cbn; intuition discriminate. Qed.
Section Run.
Variable w : world R.
Hypothesis Hw : world_init pair_oracle (diff_handler 18 pair_oracle) [] bs [] (1 / 30) (1 / 10) (1 / 100) 2 true true = Ok w.
Lemma ex_bodies : exists a0 a1 a2, w_bodies w = [a0; a1; a2] /\ forget a0 = forget b0 /\ forget a1 = forget b1 /\ forget a2 = forget b2.
Proof.
  pose proof (init_forget _ _ _ _ _ _ _ _ _ _ _ _ (diff_handler_frame 18 pair_oracle) Hw) as E. cbn [map] in E. destruct (w_bodies w) as [|a0 [|a1 [|a2 [|a3 l]]]]; try discriminate E. cbn [map] in E. injection E as E0 E1 E2. exists a0, a1, a2. auto.
Qed.
Lemma ex_forces t : world_apply_forces w t = Ok (vzeros 9).
Proof.
  destruct ex_bodies as (a0 & a1 & a2 & E & E0 & E1 & E2). assert (Z : forall a b, forget a = forget b -> b_forces b = [] -> body_apply_forces (w_heap w) a t = Ok (v3zero (T := R))).
  { intros a b F Hb. destruct (forget_keeps _ _ F) as (_ & _ & _ & Q & _). unfold body_apply_forces. rewrite Q, Hb. reflexivity. }
  unfold world_apply_forces. rewrite E. cbn [mapM bind]. rewrite (Z _ _ E0 (mt_forces _ _ _ M0)), (Z _ _ E1 (mt_forces _ _ _ M1)), (Z _ _ E2 (mt_forces _ _ _ M2)). reflexivity.
Qed.
Lemma ex_coasting m : StaticsSpec.coasting w (fun _ => false) (fun _ => vzeros 9) m =
  [((0, (0, -10)), (0, (0, 0))); ((INR m * (1 / 30), (0, 0)), (1, (0, 0))); ((0, (5 + INR m * (1 / 30), 0)), (0, (1, 0)))].
Proof.
  destruct ex_bodies as (a0 & a1 & a2 & E & E0 & E1 & E2). destruct (beside_clock _ _ _ _ _ _ _ _ _ _ _ Hw) as (Ed & Et & _). unfold StaticsSpec.coasting. rewrite E, Ed, Et. unfold mapi. cbn [mapi_from].
  assert (Z : forall b k, (k < 3)%nat -> acceleration b (v3_at (vzeros 9) k) = (0, (0, 0))).
  { intros b k Hk. destruct k as [|[|[|k]]]; [| | |lia]; unfold acceleration, v3_at, vget; cbn; rnum; unfold v2scale; cbn [fst snd]; rnum; unfold Rdiv; rewrite ?Rmult_0_l, ?Rmult_0_r; reflexivity. }
  destruct (forget_keeps _ _ E0) as (-> & -> & _). destruct (forget_keeps _ _ E1) as (-> & -> & _). destruct (forget_keeps _ _ E2) as (-> & -> & _).
  assert (Zc : forall b k t p v, (k < 3)%nat -> StaticsSpec.coast (1 / 30) t (fun _ => acceleration b (v3_at (vzeros 9) k)) p v m = StaticsSpec.coast (1 / 30) t (fun _ => (0, (0, 0))) p v m) by (intros; apply coast_ext; intros; now apply Z).
  rewrite !Zc by lia.
  rewrite !coast_free. rewrite (mt_p _ _ _ M0), (mt_p _ _ _ M1), (mt_p _ _ _ M2), (mt_v _ _ _ M0), (mt_v _ _ _ M1), (mt_v _ _ _ M2). cbn [th_p th_v sq_low sq_turn disc_leaves].
  unfold v3add, v3scale, v2add, v2scale. cbn [fst snd]. rnum. repeat (apply f_equal2; [apply f_equal2; [v3ring|reflexivity]|]). reflexivity.
Qed.
End Run.
End Ex.
Lemma turning_square : forall k, exists bs w w',
  Forall (handled 18) bs /\ all_room (1 / 10) bs (map b_p bs) /\ length bs = 3%nat /\
  world_init pair_oracle (diff_handler 18 pair_oracle) [] bs [] (1 / 30) (1 / 10) (1 / 100) 2 true true = Ok w /\
  (forall m, all_room (1 / 10) bs (map fst (StaticsSpec.coasting w (fun _ => false) (fun _ => vzeros 9) m))) /\
  run_world (S k) 9 pair_oracle (diff_handler 18 pair_oracle) (pdipm_engine ref_lapack 10) (INR k * (1 / 30)) w = Ok w' /\
  map b_p (w_bodies w') = [(0, (0, -10)); (INR k * (1 / 30), (0, 0)); (0, (5 + INR k * (1 / 30), 0))].
Proof.
  intros k. destruct (plate_made 0 0 (-10) 2 2 0 0 0 (1 / 2) 1 (1 / 10) ltac:(lra) ltac:(lra)) as (b0 & _ & F0 & _ & Q0). destruct (plate_made 1 0 0 2 2 1 0 0 (1 / 2) 1 (1 / 10) ltac:(lra) ltac:(lra)) as (b1 & _ & F1 & _ & Q1).
  destruct (ball_made 2 5 0 1 0 1 0 (1 / 2) 1 (1 / 10) ltac:(lra)) as (b2 & _ & F2 & _ & Q2). specialize (Q0 []). specialize (Q1 []). specialize (Q2 []). rewrite no_forces in Q0, Q1, Q2 by assumption.
  fold sq_low in Q0. fold sq_turn in Q1. fold disc_leaves in Q2. pose proof (ex_handled _ _ _ Q0 Q1 Q2) as Hh.
  assert (R0 : all_room (1 / 10) [b0; b1; b2] (map b_p [b0; b1; b2])) by (rewrite (ex_poses _ _ _ Q0 Q1 Q2); apply (ex_room _ _ _ Q0 Q1 Q2 0); lra).
  destruct (room_starts 18 pair_oracle [b0; b1; b2] [] [] (1 / 30) (1 / 10) (1 / 100) 2 true pair_sane ltac:(discriminate) Hh (ex_ids _ _ _ Q0 Q1 Q2) (Forall_nil _) R0) as (w & Hw & _).
  assert (Rm : forall m, all_room (1 / 10) [b0; b1; b2] (map fst (StaticsSpec.coasting w (fun _ => false) (fun _ => vzeros 9) m))).
  { intros m. rewrite (ex_coasting _ _ _ Q0 Q1 Q2 w Hw). cbn [map fst]. apply (ex_room _ _ _ Q0 Q1 Q2). pose proof (pos_INR m). lra. }
  destruct (room_runs 18 pair_oracle [b0; b1; b2] [] [] (1 / 30) (1 / 10) (1 / 100) true true w (fun _ => false) (fun _ => vzeros 9) ref_lapack 10 k 8 (S k) (INR k * (1 / 30))
    pair_sane Hh (ex_ids _ _ _ Q0 Q1 Q2) (Forall_nil _) Hw) as (w' & Er & Eb & _).
  - constructor.
  - repeat (apply Forall_cons; [eapply matches_masses; eauto|]). constructor.
  - exact (ex_forces _ _ _ Q0 Q1 Q2 w Hw).
  - split; [|discriminate]. intros j i1 i2 Hin. destruct (world_init_joints _ _ _ _ _ _ _ _ _ _ _ _ (diff_handler_frame 18 pair_oracle) Hw) as [F _]. destruct (w_joints w); [destruct Hin|inversion F].
  - apply ref_lapack_ok.
  - lia.
  - intros m _ x _ _ _. apply dot_zeros_r.
  - intros m _. apply Rm.
  - intros m Hm. apply lt_INR in Hm. lra.
  - lra.
  - lia.
  - exists [b0; b1; b2], w, w'. do 6 (split; [auto|]). rewrite (ex_coasting _ _ _ Q0 Q1 Q2 w Hw) in Eb. apply (f_equal (map fst)) in Eb. rewrite map_map in Eb. exact Eb.
Qed.
