From Coq Require Import List Arith ZArith Lia Bool Reals Lra.
From Verif Require Import Num Tensor Utils Bodies Forces Constraints Contacts World Lapack Pdipm Engines Spec GeoSpec BodySpec ContactSpec OdeSpec
     ResFacts RBase LinAlg BodyFacts RigidFacts GeomFacts WorldFacts HandlerFacts BodyReach PropBody OdeFacts OdeProps.
Import ListNotations.
Open Scope R_scope.

Lemma square_centroid : get_centroid (corners 2 2) = (0, 0).
Proof. apply (centroid_unique (corners 2 2)); [rewrite corners_area; lra|apply get_centroid_spec; rewrite corners_area; lra|apply corners_centroid]. Qed.
Lemma square_hull id x : exists b, hull_init id (x, 0) (corners 2 2) [0; 0; 0] 1 0 0 (1/10) = Ok b /\ b_kind b = KHull (corners 2 2) 0 /\ b_pos b = (x, 0) /\ b_eps b = 1/10 /\ g_no_contact (b_geom b) = [] /\ b_id b = id.
Proof.
  destruct (hull_init_accepts id (x, 0) (corners 2 2) [0; 0; 0] 1 0 0 (1/10)) as [b H]; [cbn; lia|rewrite corners_area; lra|right; reflexivity|].
  exists b. split; [exact H|]. pose proof H as H'. apply hull_init_inv in H. destruct H as (_ & _ & Hv & Hp & _ & _ & Hk & Hid & _ & _ & He & _). rewrite square_centroid in *.
  assert (Vs : map (fun v : pt => v2sub v (0, 0)) (corners 2 2) = corners 2 2).
  { rewrite <- (map_id (corners 2 2)) at 2. apply map_ext. intros [u v]. unfold v2sub. rnum. cbn [fst snd]. f_equal; ring. }
  rewrite Vs in Hv. rewrite Hv in Hk. split; [exact Hk|]. split; [unfold b_pos; rewrite Hp; unfold v2add; rnum; cbn [fst snd]; f_equal; ring|]. split; [exact He|]. split; [|exact Hid].
  unfold hull_init, hull_init_gen in H'. destruct (_ && _)%bool; [|discriminate]. cbn in H'. now injection H' as <-.
Qed.
Lemma square_x b x q : b_kind b = KHull (corners 2 2) 0 -> b_pos b = (x, 0) -> body_points b q -> x - 1 <= fst q <= x + 1.
Proof.
  unfold body_points, b_verts. intros -> -> (ws & Hl & Hf & Hs & Hx & _). unfold corners, wsum in *.
  destruct ws as [|a [|b0 [|c [|d [|]]]]]; try discriminate. cbn in Hs, Hx. unfold v2sub in Hx. rnum. cbn [fst snd] in Hx.
  repeat match goal with H : Forall _ (_ :: _) |- _ => apply Forall_cons_iff in H; destruct H as [? H] end. cbn in Hx. lra.
Qed.
Lemma square_extent b : b_kind b = KHull (corners 2 2) 0 -> extent b (sqrt 2).
Proof.
  unfold extent. intros ->. assert (D : forall v, In v (corners 2 2) -> dist v (0, 0) = sqrt 2).
  { intros v Hv. unfold dist. f_equal. unfold corners in Hv. destruct Hv as [<-|[<-|[<-|[<-|[]]]]]; cbn [fst snd]; field. }
  split; [exists (hd (0, 0) (corners 2 2)); split; [now left|apply D; now left]|]. intros v Hv. rewrite (D v Hv). lra.
Qed.
Lemma sqrt2_bounds : 1.4 <= sqrt 2 <= 1.5.
Proof. split; [apply Rsqr_incr_0_var|apply Rsqr_incr_0_var]; try (rewrite Rsqr_sqrt by lra; unfold Rsqr; lra); try apply sqrt_pos; lra. Qed.
Lemma squares_rejected : exists b1 b2, constructed b1 /\ constructed b2 /\ (forall q1 q2, body_points b1 q1 -> body_points b2 q2 -> 1/2 <= dist q1 q2) /\
  forall o heap dt fd, ode_spheres o -> (forall k g1 g2, o_collide o k [g1; g2] = [(0, 1)]%nat) ->
    world_init o (ode_handler o) heap [b1; b2] [] dt (1/10) (1/1000000) fd false true = Err EAssert.
Proof.
  destruct (square_hull 0 0) as (b1 & H1 & K1 & P1 & E1 & X1 & I1). destruct (square_hull 1 (5/2)) as (b2 & H2 & K2 & P2 & E2 & X2 & I2).
  assert (C1 : constructed b1) by (right; left; do 8 eexists; exact H1). assert (C2 : constructed b2) by (right; left; do 8 eexists; exact H2).
  exists b1, b2. split; [exact C1|]. split; [exact C2|]. split.
  - intros q1 q2 Q1 Q2. apply (square_x b1 0) in Q1; auto. apply (square_x b2 (5/2)) in Q2; auto.
    apply Rle_trans with (fst q2 - fst q1); [lra|]. unfold dist. rewrite <- (sqrt_Rsqr (fst q2 - fst q1)) by lra. apply sqrt_le_1_alt. unfold Rsqr.
    pose proof (Rle_0_sqr (snd q1 - snd q2)) as Z. unfold Rsqr in Z. lra.
  - intros o heap dt fd Ho Hc. unfold world_init. cbn [mapM bind].
    set (b1' := with_v b1 (v3_at (cat3 (map b_v [b1; b2])) 0)). set (b2' := with_v b2 (v3_at (cat3 (map b_v [b1; b2])) 1)).
    unfold set_v. cbn [w_bodies map cat3 flat_map app v3list length Nat.mul Nat.add Nat.eqb bind]. 
    unfold find_contacts. cbn [with_state w_bodies w_clk w_eps mapi mapi_from map]. rewrite Hc. cbn [fold_left bind].
    change (with_v b1 _) with b1'. change (with_v b2 _) with b2'.
    destruct (sphere_call o (1/10) 1 [b1'; b2'] 0 1 b1' b2' (sqrt 2) (sqrt 2)) as (_ & B); auto.
    + lra.
    + apply RBavailable. exists b1, [BSetV (v3_at (cat3 (map b_v [b1; b2])) 0)]. split; [exact C1|reflexivity].
    + apply RBavailable. exists b2, [BSetV (v3_at (cat3 (map b_v [b1; b2])) 1)]. split; [exact C2|reflexivity].
    + apply square_extent. exact K1.
    + apply square_extent. exact K2.
    + unfold excluded. change (b_geom b2') with (b_geom b2). rewrite X2. intros [].
    + pose proof sqrt2_bounds. assert (D : dist (b_pos b1') (b_pos b2') = 5/2).
      { change (b_pos b1') with (b_pos b1). change (b_pos b2') with (b_pos b2). rewrite P1, P2. unfold dist. cbn [fst snd].
        replace ((0 - 5/2) * (0 - 5/2) + (0 - 0) * (0 - 0)) with ((5/2) * (5/2)) by field. apply sqrt_square. lra. }
      rewrite D in B. destruct B as (c & -> & _ & _ & Pc & _); [lra|]. cbn [bind app with_state w_contacts no_penetration w_tol forallb].
      unfold no_penetration. cbn [w_contacts w_tol forallb]. assert (Z : nleb (c_pen c) (1/1000000) = false) by (rnum; apply Rleb_false; rewrite Pc; lra). rewrite Z. reflexivity.
Qed.

(** an ODE that answers as specified *)
Definition sphere_narrow (g1 g2 : geom R) : list ((pt * R) * pt * R) :=
  match g_shape g1, g_shape g2 with
  | GSphere r1, GSphere r2 =>
      let d := dist (g_pos g1) (g_pos g2) in
      let n := ((fst (g_pos g1) - fst (g_pos g2)) / d, (snd (g_pos g1) - snd (g_pos g2)) / d) in
      if Rlt_dec (r1 + r2) d then []
      else [((midpoint (fst (g_pos g1) - r1 * fst n, snd (g_pos g1) - r1 * snd n) (fst (g_pos g2) + r2 * fst n, snd (g_pos g2) + r2 * snd n), 0), n, r1 + r2 - d)]
  | _, _ => []
  end.
Definition sphere_oracle : oracle R := {| o_collide := fun _ gs => FloatEx.all_pairs (length gs); o_narrow := fun _ g1 g2 => sphere_narrow g1 g2; o_choice := fun _ _ => 0%nat |}.
Lemma sphere_oracle_ok : ode_spheres sphere_oracle /\ memoryless sphere_oracle /\ forall k g1 g2, o_collide sphere_oracle k [g1; g2] = [(0, 1)]%nat.
Proof.
  split; [|split; [intros k k' gs; reflexivity|reflexivity]]. intros k g1 g2 r1 r2 S1 S2. unfold sphere_answer. cbv zeta. cbn [sphere_oracle o_narrow]. unfold sphere_narrow. rewrite S1, S2. cbv zeta.
  set (d := dist _ _). assert (D0 : 0 <= d) by apply sqrt_pos. split; [|split].
  - intros F. destruct (Rlt_dec _ _); [reflexivity|contradiction].
  - intros F. destruct (Rlt_dec _ _); [lra|reflexivity].
  - intros (Z & F). destruct (Rlt_dec _ _); [lra|]. do 2 eexists. rewrite Z at 6. f_equal. f_equal. lra.
Qed.
(** two unit circles, 0.15 apart *)
Definition discA : body R := RealEx.get RealEx.dummy_body (circle_init 0 [0; 0] 1 [0; 0; 0] 1 (1/2) (1/2) (1/10)).
Definition discB : body R := RealEx.get RealEx.dummy_body (circle_init 1 [43/20; 0] 1 [0; 0; 0] 1 (1/2) (1/2) (1/10)).
Lemma discs_with : Forall (disc_with (1/10) (1/1000000)) [discA; discB].
Proof.
  repeat constructor; cbn; try lra.
  - exists discA, []. split; [left; exists 0%nat, [0; 0], 1, [0; 0; 0], 1, (1/2), (1/2), (1/10); reflexivity|reflexivity].
  - exists discB, []. split; [left; exists 1%nat, [43/20; 0], 1, [0; 0; 0], 1, (1/2), (1/2), (1/10); reflexivity|reflexivity].
Qed.
Lemma disc_dist : dist (b_pos discA) (b_pos discB) = 43/20.
Proof. unfold dist. cbn. replace ((0 - 43/20) * (0 - 43/20) + (0 - 0) * (0 - 0)) with ((43/20) * (43/20)) by field. apply sqrt_square. lra. Qed.
Lemma far_world : exists w w', 
  world_init sphere_oracle (ode_handler sphere_oracle) [] [discA; discB] [] 1 (1/10) (1/1000000) 2 false true = Ok w /\
  world_init sphere_oracle (diff_handler 10 sphere_oracle) [] [discA; discB] [] 1 (1/10) (1/1000000) 2 false true = Ok w' /\
  length (w_contacts w) = 1%nat /\ w_contacts w' = [].
Proof.
  destruct sphere_oracle_ok as (Ho & Hm & Hc).
  assert (I : forall h cs k, h (1/10) 1%nat [discA; discB] 0%nat 1%nat = Ok (cs, [discA; discB], k) -> forallb (fun c : contact R => nleb (c_pen c) (1/1000000)) cs = true ->
    exists w, world_init sphere_oracle h [] [discA; discB] [] 1 (1/10) (1/1000000) 2 false true = Ok w /\ w_contacts w = cs).
  { intros h cs k E F. unfold world_init. cbn [mapM bind]. unfold set_v. cbn [w_bodies map cat3 flat_map app v3list length Nat.mul Nat.add Nat.eqb bind].
    unfold find_contacts. cbn [with_state w_bodies w_clk w_eps mapi mapi_from map]. rewrite Hc. cbn [fold_left bind].
    change (with_v discA _) with discA. change (with_v discB _) with discB. rewrite E. cbn [bind app]. unfold no_penetration. cbn [with_state w_contacts w_tol]. rewrite F. cbn [negb andb]. eauto. }
  assert (A1 : extent discA 1) by reflexivity. assert (A2 : extent discB 1) by reflexivity.
  assert (Rd : forall b, In b [discA; discB] -> reachable_body b).
  { intros b Hb. apply RBavailable. pose proof discs_with as W. rewrite Forall_forall in W. apply (W b Hb). }
  destruct (sphere_call sphere_oracle (1/10) 1 [discA; discB] 0 1 discA discB 1 1) as (_ & B); auto; try lra; try (apply Rd; cbn; tauto).
  rewrite disc_dist in B. destruct B as (c & Ec & _ & _ & Pc & _); [lra|].
  destruct (I (ode_handler sphere_oracle) [c] 2%nat Ec) as (w & Hw & Cw). { cbn [forallb]. rnum. rewrite (proj2 (Rleb_true _ _)); [reflexivity|]. rewrite Pc. lra. }
  destruct (I (diff_handler 10 sphere_oracle) [] 1%nat) as (w' & Hw' & Cw').
  { unfold diff_handler. cbn [get_body nth_error bind]. cbn [existsb discB RealEx.get circle_init body_init to_v3 bind b_geom g_no_contact is_circle b_kind discA andb].
    unfold circle_circle. rewrite v2norm_dist. change (dist _ _) with (dist (b_pos discA) (b_pos discB)). rewrite disc_dist. rnum. rewrite (proj2 (Rltb_true _ _)); [reflexivity|]. cbn. lra. }
  { reflexivity. }
  exists w, w'. rewrite Cw, Cw'. auto.
Qed.
