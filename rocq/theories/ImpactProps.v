(** Impact formulas (lemmas for C75) *)
From Coq Require Import List Arith ZArith Bool Reals Lra Lia.
From Verif Require Import Num Tensor Utils Bodies Forces Constraints Contacts World Lapack Pdipm Lcp Engines Spec GeoSpec BodySpec JointSpec FreshSpec EngineSpec WellSpec ContactSpec ImpactSpec
     RBase ResFacts LinAlg LapackSpec KktSpec PdipmSpec WorldFacts HandlerFacts LayoutFacts HistFacts SysFacts RewindFacts JointFacts JeFacts
     CacheFacts BodyReach GeomFacts ContactFacts CollideFacts PdipmFacts PdipmLoop SolverFacts EngineFacts EngineProps ContactSys EngineBalance MomentumFacts PostFacts HeldFacts FreeFacts ImpactFacts.
Import ListNotations.
Open Scope R_scope.


Section Engine.
Variables (la : lapack R) (mi : nat) (bs : list (body R)) (js : list (joint R)) (w : world R).
Hypothesis HW : engine_world la mi bs js w.
Variables (dt : R) (f v : vecR) (imps : list (R * R)) (k : nat) (c : contact R).
Hypothesis Hf : world_apply_forces w (w_t w) = Ok f.
Hypothesis Hv : response w dt v imps.
Notation i1 := (c_i1 c).
Notation i2 := (c_i2 c).
Notation nn := (c_normal c).

Lemma law : nth_error (w_contacts w) k = Some c -> exists l t, nth_error imps k = Some (l, t) /\ nth k imps (0, 0) = (l, t) /\ coulomb w v c l t.
Proof.
  intros Hk. destruct Hv as (f' & y & _ & _ & _ & _ & F). clear -F Hk. revert k Hk. induction F as [|a im cs ims H F IH]; intros [|k] Hk; try discriminate.
  - injection Hk as ->. exists (fst im), (snd im). destruct im. cbn. auto.
  - exact (IH k Hk).
Qed.
Lemma forces_len : length f = (3 * length (w_bodies w))%nat.
Proof. apply apply_forces_layout in Hf. exact (proj1 Hf). Qed.
(** the velocity of a body with one contact *)
Lemma kicked_by i b s p l t : clear_of w i k c -> nth_error (w_bodies w) i = Some b -> 0 < b_mass b -> 0 < b_inertia b -> nth k imps (0, 0) = (l, t) ->
  (i1 = i /\ s = 1 /\ p = c_p1 c \/ i2 = i /\ s = -1 /\ p = c_p2 c) ->
  v3_at v i = v3add (free_velocity dt (v3_at f i) b) (v3scale s (kick b p (impulse_of nn l t))).
Proof.
  intros [O U] Hb Hm HI E Hs. destruct (engine_world_sound _ _ _ _ _ HW) as (J0 & HS & _). destruct Hv as (f' & y & Ef & _ & B & _ & _).
  assert (f' = f) as -> by congruence. pose proof (kicked bs js J0 w HS i b dt f v imps y k c s p forces_len U Hb O Hs Hm HI B) as Q. rewrite E in Q. exact Q.
Qed.
Lemma fixed_zero i : fixed_in_place w i -> v3_at v i = (0, (0, 0)).
Proof. intros [L H]. destruct Hv as (f' & y & _ & _ & _ & Hc & _). exact (total_zero w v i L H Hc). Qed.
Lemma kick_vel b p J : kick b p J = (/ b_inertia b * cross_2d p J, v2scale (/ b_mass b) J).
Proof. unfold kick, Rdiv. f_equal. apply Rmult_comm. Qed.
Lemma scale1 (u : v3 R) : v3scale 1 u = u.
Proof. destruct u as [a [b d]]. unfold v3scale, v2scale. cbn [fst snd]. rnum. now rewrite !Rmult_1_l. Qed.
Lemma scale0 p (J : v2 R) : (0 * cross_2d p J, v2scale 0 J) = (0, (0, 0)).
Proof. destruct J as [a b]. unfold v2scale. cbn [fst snd]. rnum. now rewrite !Rmult_0_l. Qed.
Lemma add0 (u : v3 R) s : v3add u (v3scale s (0, (0, 0))) = u.
Proof. destruct u as [a [b d]]. unfold v3add, v3scale, v2add, v2scale. cbn [fst snd]. rnum. now rewrite !Rmult_0_r, !Rplus_0_r. Qed.
Lemma kick_opp b p J : v3scale (-1) (kick b p J) = kick b p (v2opp J).
Proof. destruct J as [x y]. unfold kick, v3scale, v2scale, v2opp, cross_2d. cbn [fst snd]. rnum. unfold Rdiv. apply f_equal2; [ring|]. apply f_equal2; ring. Qed.

(** the impulses at a contact between bodies with inverse masses [m1 m2] and inverse inertias [q1 q2] *)
Lemma impulses_are (u1 u2 : v3 R) m1 q1 m2 q2 l t :
  unit_vec nn -> (q1 = 0 \/ cross_2d (c_p1 c) nn = 0) -> (q2 = 0 \/ cross_2d (c_p2 c) nn = 0) -> 0 < m1 + m2 -> 0 <= q1 -> 0 <= q2 ->
  coulomb w v c l t ->
  v3_at v i1 = v3add u1 (q1 * cross_2d (c_p1 c) (impulse_of nn l t), v2scale m1 (impulse_of nn l t)) ->
  v3_at v i2 = v3add u2 (v3scale (-1) (q2 * cross_2d (c_p2 c) (impulse_of nn l t), v2scale m2 (impulse_of nn l t))) ->
  (l, t) = impact (mixed w b_rest c) (mixed w b_fric c) (m1 + m2)
     (m1 + m2 + q1 * (fst (c_p1 c) * fst (c_p1 c) + snd (c_p1 c) * snd (c_p1 c)) + q2 * (fst (c_p2 c) * fst (c_p2 c) + snd (c_p2 c) * snd (c_p2 c)))
     (normal_velocity (w_v w) c) (component nn (v2sub (point_velocity u1 (c_p1 c)) (point_velocity u2 (c_p2 c))))
     (component (tangent nn) (v2sub (point_velocity u1 (c_p1 c)) (point_velocity u2 (c_p2 c)))).
Proof.
  intros Hu C1 C2 Hm Q1 Q2 [A1 A2 A3 A4 A5] E1 E2.
  assert (Nv : normal_velocity v c = component nn (v2sub (point_velocity u1 (c_p1 c)) (point_velocity u2 (c_p2 c))) + (m1 + m2) * l).
  { unfold normal_velocity, relative_velocity. rewrite E1, E2. exact (normal_after nn (c_p1 c) (c_p2 c) u1 u2 m1 q1 m2 q2 Hu C1 C2 l t). }
  assert (Sv : slip_velocity v c = component (tangent nn) (v2sub (point_velocity u1 (c_p1 c)) (point_velocity u2 (c_p2 c))) +
     (m1 + m2 + q1 * (fst (c_p1 c) * fst (c_p1 c) + snd (c_p1 c) * snd (c_p1 c)) + q2 * (fst (c_p2 c) * fst (c_p2 c) + snd (c_p2 c) * snd (c_p2 c))) * t).
  { unfold slip_velocity, relative_velocity. rewrite E1, E2. exact (slip_after nn (c_p1 c) (c_p2 c) u1 u2 m1 q1 m2 q2 Hu C1 C2 l t). }
  pose proof (yields (c_p1 c) (c_p2 c) m1 q1 m2 q2 Hm Q1 Q2) as Y. cbv zeta in Y.
  unfold impact. cbv zeta. rewrite Nv in A2, A3. rewrite Sv in A5.
  pose proof (newton_impulse _ _ _ _ _ Hm A1 A2 A3) as El. rewrite <- El. f_equal. apply coulomb_impulse; assumption.
Qed.

Lemma pair_impact b1 b2 :
  nth_error (w_bodies w) i1 = Some b1 -> nth_error (w_bodies w) i2 = Some b2 -> clear_of w i1 k c -> clear_of w i2 k c ->
  0 < b_mass b1 -> 0 < b_inertia b1 -> 0 < b_mass b2 -> 0 < b_inertia b2 -> unit_vec nn -> central nn (c_p1 c) -> central nn (c_p2 c) ->
  let u1 := free_velocity dt (v3_at f i1) b1 in
  let u2 := free_velocity dt (v3_at f i2) b2 in
  let u := v2sub (point_velocity u1 (c_p1 c)) (point_velocity u2 (c_p2 c)) in
  let '(l, t) := impact (mixed w b_rest c) (mixed w b_fric c) (yield_normal b1 + yield_normal b2) (yield_tangent b1 (c_p1 c) + yield_tangent b2 (c_p2 c))
                        (normal_velocity (w_v w) c) (component nn u) (component (tangent nn) u) in
  let J := impulse_of nn l t in
  nth_error imps k = Some (l, t) /\ v3_at v i1 = v3add u1 (kick b1 (c_p1 c) J) /\ v3_at v i2 = v3add u2 (kick b2 (c_p2 c) (v2opp J)).
Proof.
  intros H1 H2 K1 K2 M1 I1 M2 I2 Hu C1 C2. cbv zeta. destruct (law (proj1 (proj1 K1))) as (l & t & En & El & Co).
  pose proof (kicked_by i1 b1 1 (c_p1 c) l t K1 H1 M1 I1 El ltac:(auto)) as V1. pose proof (kicked_by i2 b2 (-1) (c_p2 c) l t K2 H2 M2 I2 El ltac:(auto)) as V2.
  rewrite scale1 in V1. pose proof (Rinv_0_lt_compat _ M1). pose proof (Rinv_0_lt_compat _ M2). pose proof (Rinv_0_lt_compat _ I1). pose proof (Rinv_0_lt_compat _ I2).
  pose proof (impulses_are (free_velocity dt (v3_at f i1) b1) (free_velocity dt (v3_at f i2) b2) (/ b_mass b1) (/ b_inertia b1) (/ b_mass b2) (/ b_inertia b2) l t
    Hu (or_intror C1) (or_intror C2) ltac:(lra) ltac:(lra) ltac:(lra) Co) as Q.
  rewrite <- !kick_vel in Q. specialize (Q V1 V2). rewrite kick_opp in V2.
  assert (E : impact (mixed w b_rest c) (mixed w b_fric c) (yield_normal b1 + yield_normal b2) (yield_tangent b1 (c_p1 c) + yield_tangent b2 (c_p2 c))
     (normal_velocity (w_v w) c) (component nn (v2sub (point_velocity (free_velocity dt (v3_at f i1) b1) (c_p1 c)) (point_velocity (free_velocity dt (v3_at f i2) b2) (c_p2 c))))
     (component (tangent nn) (v2sub (point_velocity (free_velocity dt (v3_at f i1) b1) (c_p1 c)) (point_velocity (free_velocity dt (v3_at f i2) b2) (c_p2 c)))) = (l, t)).
  { rewrite Q. unfold yield_normal, yield_tangent. f_equal. unfold Rdiv. ring. }
  rewrite E. auto.
Qed.

Lemma fixed_second b1 : nth_error (w_bodies w) i1 = Some b1 -> clear_of w i1 k c -> fixed_in_place w i2 -> 0 < b_mass b1 -> 0 < b_inertia b1 -> unit_vec nn -> central nn (c_p1 c) ->
  let u1 := free_velocity dt (v3_at f i1) b1 in
  let u := point_velocity u1 (c_p1 c) in
  let '(l, t) := impact (mixed w b_rest c) (mixed w b_fric c) (yield_normal b1) (yield_tangent b1 (c_p1 c)) (normal_velocity (w_v w) c) (component nn u) (component (tangent nn) u) in
  nth_error imps k = Some (l, t) /\ v3_at v i1 = v3add u1 (kick b1 (c_p1 c) (impulse_of nn l t)) /\ v3_at v i2 = (0, (0, 0)).
Proof.
  intros H1 K1 F M1 I1 Hu C1. cbv zeta. destruct (law (proj1 (proj1 K1))) as (l & t & En & El & Co).
  pose proof (kicked_by i1 b1 1 (c_p1 c) l t K1 H1 M1 I1 El ltac:(auto)) as V1. rewrite scale1 in V1. pose proof (fixed_zero i2 F) as V2.
  pose proof (Rinv_0_lt_compat _ M1). pose proof (Rinv_0_lt_compat _ I1).
  pose proof (impulses_are (free_velocity dt (v3_at f i1) b1) (0, (0, 0)) (/ b_mass b1) (/ b_inertia b1) 0 0 l t Hu (or_intror C1) (or_introl eq_refl) ltac:(lra) ltac:(lra) ltac:(lra) Co) as Q.
  rewrite <- kick_vel, scale0, add0 in Q. specialize (Q V1 V2).
  assert (Z : v2sub (point_velocity (free_velocity dt (v3_at f i1) b1) (c_p1 c)) (point_velocity (0, (0, 0)) (c_p2 c)) = point_velocity (free_velocity dt (v3_at f i1) b1) (c_p1 c)).
  { unfold point_velocity at 2 3. destruct (c_p2 c). unfold point_velocity, v2sub. cbn [fst snd]. rnum. apply f_equal2; ring. }
  rewrite Z in Q.
  assert (E : impact (mixed w b_rest c) (mixed w b_fric c) (yield_normal b1) (yield_tangent b1 (c_p1 c)) (normal_velocity (w_v w) c)
     (component nn (point_velocity (free_velocity dt (v3_at f i1) b1) (c_p1 c))) (component (tangent nn) (point_velocity (free_velocity dt (v3_at f i1) b1) (c_p1 c))) = (l, t)).
  { rewrite Q. unfold yield_normal, yield_tangent. f_equal; unfold Rdiv; ring. }
  rewrite E. auto.
Qed.
Lemma fixed_first b2 : nth_error (w_bodies w) i2 = Some b2 -> clear_of w i2 k c -> fixed_in_place w i1 -> 0 < b_mass b2 -> 0 < b_inertia b2 -> unit_vec nn -> central nn (c_p2 c) ->
  let u2 := free_velocity dt (v3_at f i2) b2 in
  let u := v2opp (point_velocity u2 (c_p2 c)) in
  let '(l, t) := impact (mixed w b_rest c) (mixed w b_fric c) (yield_normal b2) (yield_tangent b2 (c_p2 c)) (normal_velocity (w_v w) c) (component nn u) (component (tangent nn) u) in
  nth_error imps k = Some (l, t) /\ v3_at v i2 = v3add u2 (kick b2 (c_p2 c) (v2opp (impulse_of nn l t))) /\ v3_at v i1 = (0, (0, 0)).
Proof.
  intros H2 K2 F M2 I2 Hu C2. cbv zeta. destruct (law (proj1 (proj1 K2))) as (l & t & En & El & Co).
  pose proof (kicked_by i2 b2 (-1) (c_p2 c) l t K2 H2 M2 I2 El ltac:(auto)) as V2. pose proof (fixed_zero i1 F) as V1.
  pose proof (Rinv_0_lt_compat _ M2). pose proof (Rinv_0_lt_compat _ I2).
  pose proof (impulses_are (0, (0, 0)) (free_velocity dt (v3_at f i2) b2) 0 0 (/ b_mass b2) (/ b_inertia b2) l t Hu (or_introl eq_refl) (or_intror C2) ltac:(lra) ltac:(lra) ltac:(lra) Co) as Q.
  assert (A0 : v3add (0, (0, 0)) (0, (0, 0)) = (0, (0, 0)) :> v3 R) by (unfold v3add, v2add; cbn [fst snd]; rnum; now rewrite !Rplus_0_r).
  rewrite <- kick_vel, scale0, A0 in Q. specialize (Q V1 V2). rewrite kick_opp in V2.
  assert (Z : v2sub (point_velocity (0, (0, 0)) (c_p1 c)) (point_velocity (free_velocity dt (v3_at f i2) b2) (c_p2 c)) = v2opp (point_velocity (free_velocity dt (v3_at f i2) b2) (c_p2 c))).
  { unfold point_velocity at 1. destruct (c_p1 c). unfold v2opp, v2sub. cbn [fst snd]. rnum. apply f_equal2; ring. }
  rewrite Z in Q.
  assert (E : impact (mixed w b_rest c) (mixed w b_fric c) (yield_normal b2) (yield_tangent b2 (c_p2 c)) (normal_velocity (w_v w) c)
     (component nn (v2opp (point_velocity (free_velocity dt (v3_at f i2) b2) (c_p2 c)))) (component (tangent nn) (v2opp (point_velocity (free_velocity dt (v3_at f i2) b2) (c_p2 c)))) = (l, t)).
  { rewrite Q. unfold yield_normal, yield_tangent. f_equal; unfold Rdiv; ring. }
  rewrite E. auto.
Qed.
End Engine.

(** *** contacts of circles are central *)
Lemma sat_normal vs ctr rad eps start : forall nn p, ss_best (circle_sat vs ctr rad eps start) = Some (nn, p) -> exists a, p = v2add ctr (v2scale a nn).
Proof.
  unfold circle_sat. set (P st := forall nn p, ss_best st = Some (nn, p) -> exists a : R, p = v2add ctr (v2scale a nn)).
  enough (G : forall l st, P st -> P (fold_left (circle_sat_step vs ctr rad eps) l st)) by (apply G; intros nn p; discriminate).
  induction l as [|i l IH]; intros st H; [exact H|]. cbn [fold_left]. apply IH. unfold circle_sat_step. destruct (ss_exit st); [exact H|]. rnum.
  destruct (Rltb _ _); [|exact H]. destruct (Rltb _ _); [exact H|]. intros nn p E. injection E as <- <-. eexists. reflexivity.
Qed.
Lemma circle_hull_central fuel c hu eps start n p1 p2 pen hu' : circle_hull fuel c hu eps start = Ok (Some (n, p1, p2, pen), hu') -> central n p1.
Proof.
  intros H. unfold circle_hull in H. cbv zeta in H. bind_inv H as g E. destruct g as [q ids]. destruct (Nat.ltb _ _).
  - rnum. destruct (Rltb _ _); [discriminate|]. injection H as <- <- _ _ _. unfold central, cross_2d, v2div, v2opp. cbn [fst snd]. rnum. unfold Rdiv. ring.
  - destruct (ss_exit _); [discriminate|]. destruct (ss_best _) as [[nn pt]|] eqn:Eb; [|discriminate]. injection H as <- <- _ _ _. apply sat_normal in Eb. destruct Eb as [a ->].
    unfold central, cross_2d, v2sub, v2add, v2scale. cbn [fst snd]. rnum. ring.
Qed.
Lemma central_opp n p : central n p -> central (v2opp n) p.
Proof. unfold central, cross_2d, v2opp. cbn [fst snd]. rnum. lra. Qed.
Lemma handler_central fuel o eps clk bs i1 i2 b1 b2 cs bs' clk' c :
  nth_error bs i1 = Some b1 -> nth_error bs i2 = Some b2 -> diff_handler (T := R) fuel o eps clk bs i1 i2 = Ok (cs, bs', clk') -> In c cs ->
  (is_circle b1 = true -> central (c_normal c) (c_p1 c)) /\ (is_circle b2 = true -> central (c_normal c) (c_p2 c)).
Proof.
  intros H1 H2 H Hc. apply get_body_Ok in H1, H2. unfold diff_handler in H. rewrite H1, H2 in H. cbn [bind] in H.
  destruct (existsb _ _); [inversion H; subst; destruct Hc|].
  destruct (is_circle b1) eqn:C1; destruct (is_circle b2) eqn:C2; cbn [andb orb] in H; (split; [try discriminate|try discriminate]; intros _).
  1,2: inversion H; subst; clear H; apply in_mk_contacts in Hc; destruct Hc as (n & p1 & p2 & pen & Hc & ->); unfold circle_circle in Hc; cbv zeta in Hc; rnum;
    (destruct (Rltb _ _); [destruct Hc|]); destruct Hc as [E|[]]; injection E as <- <- <- _; cbn [c_normal c_p1 c_p2]; unfold central, cross_2d, v2scale, v2opp; cbn [fst snd]; rnum; ring.
  - destruct (Nat.eqb _ _); [discriminate|]. bind_inv H as r E. destruct r as [op hu']. inversion H; subst; clear H.
    apply in_mk_contacts in Hc. destruct Hc as (n & p1 & p2 & pen & Hc & ->). destruct op as [q|]; [|destruct Hc]. destruct Hc as [->|[]]. exact (circle_hull_central _ _ _ _ _ _ _ _ _ _ E).
  - destruct (Nat.eqb _ _); [discriminate|]. bind_inv H as r E. destruct r as [op hu']. inversion H; subst; clear H.
    apply in_mk_contacts in Hc. destruct Hc as (n & p1 & p2 & pen & Hc & ->). destruct op as [[[[n0 q1] q2] pen0]|]; [|destruct Hc]. destruct Hc as [Hc|[]]. cbn in Hc. inversion Hc; subst; clear Hc.
    apply central_opp. exact (circle_hull_central _ _ _ _ _ _ _ _ _ _ E).
Qed.
Lemma current_central fuel o w c b1 b2 : contacts_current o (diff_handler fuel o) w -> In c (w_contacts w) ->
  nth_error (w_bodies w) (c_i1 c) = Some b1 -> nth_error (w_bodies w) (c_i2 c) = Some b2 ->
  (is_circle b1 = true -> central (c_normal c) (c_p1 c)) /\ (is_circle b2 = true -> central (c_normal c) (c_p2 c)).
Proof.
  intros (k & calls & _ & Hw & Hr) Hc H1 H2. rewrite Hw in Hc. apply in_flat_map in Hc. destruct Hc as ([[i j] new] & Hin & Hc). cbn [snd] in Hc.
  destruct (Hr i j new Hin) as (clk & bs0 & bs1 & clk1 & Hs & Hd). destruct (diff_handler_idx _ _ _ _ _ _ _ _ _ _ _ Hd Hc) as [<- <-].
  destruct (still_nth _ _ _ _ Hs H1) as (a1 & A1 & S1). destruct (still_nth _ _ _ _ Hs H2) as (a2 & A2 & S2).
  pose proof (still_shape _ _ S1) as (_ & _ & Q1 & _). pose proof (still_shape _ _ S2) as (_ & _ & Q2 & _).
  rewrite <- Q1, <- Q2. eapply handler_central; eauto.
Qed.

(** *** special cases *)
Lemma impact_frictionless e kn kt wn un ut : impact e 0 kn kt wn un ut = (Rmax 0 (- (un + e * wn) / kn), 0).
Proof.
  unfold impact, clamp. cbv zeta. f_equal. rewrite Rmult_0_l, Ropp_0. apply Rle_antisym.
  - apply Rmax_lub; [lra|apply Rmin_l].
  - apply Rmax_l.
Qed.
Lemma free_zero dt b : free_velocity dt (0, (0, 0)) b = b_v b.
Proof.
  unfold free_velocity, acceleration, v3add, v3scale, v2add, v2scale. destruct (b_v b) as [x [y z]]. cbn [fst snd]. rnum. unfold Rdiv.
  rewrite !Rmult_0_l, !Rmult_0_r, !Rplus_0_r. reflexivity.
Qed.
Lemma relative_reads la mi bs js w c b1 b2 : engine_world la mi bs js w -> nth_error (w_bodies w) (c_i1 c) = Some b1 -> nth_error (w_bodies w) (c_i2 c) = Some b2 ->
  relative_velocity (w_v w) c = v2sub (point_velocity (b_v b1) (c_p1 c)) (point_velocity (b_v b2) (c_p2 c)).
Proof.
  intros HW H1 H2. destruct (engine_world_sound _ _ _ _ _ HW) as (J0 & HS & _). unfold relative_velocity.
  now rewrite <- (aligned_reads _ _ _ (so_v _ _ _ _ HS) H1), <- (aligned_reads _ _ _ (so_v _ _ _ _ HS) H2).
Qed.
Lemma kick_normal b n p l : central n p -> kick b p (impulse_of n l 0) = (0, v2scale (l / b_mass b) n).
Proof.
  unfold central, kick, impulse_of, v2add, v2scale, tangent, cross_2d. destruct n as [a d], p as [x y]. cbn [fst snd]. rnum. intros E.
  apply f_equal2; [|unfold Rdiv; apply f_equal2; ring].
  transitivity (l * (x * d - y * a) / b_inertia b); [unfold Rdiv; ring|]. rewrite E. unfold Rdiv. ring.
Qed.
(** the part of the angular velocity that matters at a central point is tangential *)
Lemma central_normal n p (u : v3 R) : central n p -> component n (point_velocity u p) = component n (snd u).
Proof.
  unfold central, component, point_velocity, cross_2d. destruct n as [a d], p as [x y], u as [o [vx vy]]. cbn [fst snd]. rnum. intros E.
  transitivity (a * vx + d * vy + o * (x * d - y * a)); [ring|]. rewrite E. ring.
Qed.
Lemma component_sub n u v : component n (v2sub u v) = component n u - component n v.
Proof. unfold component, v2sub. cbn [fst snd]. rnum. ring. Qed.
Lemma grips k mu l ut : 0 < k -> 0 <= mu * l -> (ut + k * clamp (mu * l) (- ut / k) = 0 <-> Rabs ut <= mu * l * k).
Proof.
  intros Hk Ha. set (a := mu * l) in *. assert (E : ut = k * (ut / k)) by (field; lra). assert (En : - ut / k = - (ut / k)) by (unfold Rdiv; ring).
  rewrite En. set (q := ut / k) in *. assert (A : Rabs ut = k * Rabs q) by (rewrite E, Rabs_mult, (Rabs_right k) by lra; reflexivity). rewrite A.
  assert (B : k * Rabs q <= a * k <-> Rabs q <= a) by (split; intros H; [apply (Rmult_le_reg_l k); lra|rewrite (Rmult_comm a); apply Rmult_le_compat_l; lra]).
  assert (C : ut + k * clamp a (- q) = 0 <-> clamp a (- q) = - q) by (rewrite E; split; intros H; [apply (Rmult_eq_reg_l k); lra|rewrite H; ring]).
  rewrite B, C. unfold clamp. split.
  - intros H. apply Rabs_le. pose proof (Rmax_l (- a) (Rmin a (- q))) as X. pose proof (Rmin_l a (- q)) as Y.
    assert (Z : Rmax (- a) (Rmin a (- q)) <= a) by (apply Rmax_lub; lra). lra.
  - intros H. assert (- a <= q <= a) by (split; [pose proof (Rle_abs (- q)) as X; rewrite Rabs_Ropp in X|pose proof (Rle_abs q)]; lra). rewrite Rmin_right, Rmax_right; lra.
Qed.

Section Cases.
Variables (la : lapack R) (mi : nat) (bs : list (body R)) (js : list (joint R)) (w : world R).
Hypothesis HW : engine_world la mi bs js w.
Variables (dt : R) (f v : vecR) (imps : list (R * R)) (k : nat) (c : contact R) (b1 b2 : body R).
Hypothesis Hf : world_apply_forces w (w_t w) = Ok f.
Hypothesis Hv : response w dt v imps.
Hypothesis H1 : nth_error (w_bodies w) (c_i1 c) = Some b1.
Hypothesis H2 : nth_error (w_bodies w) (c_i2 c) = Some b2.
Hypothesis Hu : unit_vec (c_normal c).
Notation nn := (c_normal c).

Lemma collision : clear_of w (c_i1 c) k c -> clear_of w (c_i2 c) k c -> 0 < b_mass b1 -> 0 < b_inertia b1 -> 0 < b_mass b2 -> 0 < b_inertia b2 ->
  central nn (c_p1 c) -> central nn (c_p2 c) -> v3_at f (c_i1 c) = (0, (0, 0)) -> v3_at f (c_i2 c) = (0, (0, 0)) -> mixed w b_fric c = 0 -> 0 <= mixed w b_rest c ->
  let u := component nn (v2sub (snd (b_v b1)) (snd (b_v b2))) in
  u <= 0 ->
  v3_at v (c_i1 c) = (fst (b_v b1), v2sub (snd (b_v b1)) (v2scale ((1 + mixed w b_rest c) * u * b_mass b2 / (b_mass b1 + b_mass b2)) nn)) /\
  v3_at v (c_i2 c) = (fst (b_v b2), v2add (snd (b_v b2)) (v2scale ((1 + mixed w b_rest c) * u * b_mass b1 / (b_mass b1 + b_mass b2)) nn)).
Proof.
  intros K1 K2 M1 I1 M2 I2 C1 C2 F1 F2 Mu He u Hap. pose proof (pair_impact la mi bs js w HW dt f v imps k c Hf Hv b1 b2 H1 H2 K1 K2 M1 I1 M2 I2 Hu C1 C2) as Q.
  cbv zeta in Q. rewrite F1, F2, !free_zero, Mu, impact_frictionless in Q.
  assert (N : normal_velocity (w_v w) c = u).
  { unfold normal_velocity. rewrite (relative_reads la mi bs js w c b1 b2 HW H1 H2), component_sub, !central_normal by assumption. unfold u. now rewrite component_sub. }
  assert (N' : component nn (v2sub (point_velocity (b_v b1) (c_p1 c)) (point_velocity (b_v b2) (c_p2 c))) = u).
  { rewrite component_sub, !central_normal by assumption. unfold u. now rewrite component_sub. }
  rewrite N, N' in Q. set (e := mixed w b_rest c) in *.
  assert (El : Rmax 0 (- (u + e * u) / (yield_normal b1 + yield_normal b2)) = - ((1 + e) * u) * (b_mass b1 * b_mass b2) / (b_mass b1 + b_mass b2)).
  { assert (E : - (u + e * u) / (yield_normal b1 + yield_normal b2) = - ((1 + e) * u) * (b_mass b1 * b_mass b2) / (b_mass b1 + b_mass b2)) by (unfold yield_normal; field; lra).
    rewrite E. apply Rmax_right. apply Rmult_le_pos; [|left; apply Rinv_0_lt_compat; lra]. apply Rmult_le_pos; [|nra]. assert ((1 + e) * u <= 0) by nra. lra. }
  rewrite El in Q. destruct Q as (_ & V1 & V2). rewrite V1, V2, <- kick_opp, !kick_normal by assumption.
  set (u' := u) in *. clearbody u'. split; apply v3_ext; unfold v3add, v3scale, v2add, v2sub, v2scale; cbn [fst snd]; rnum; field; lra.
Qed.
Lemma bounce_first : clear_of w (c_i1 c) k c -> fixed_in_place w (c_i2 c) -> 0 < b_mass b1 -> 0 < b_inertia b1 -> central nn (c_p1 c) ->
  v3_at f (c_i1 c) = (0, (0, 0)) -> b_v b2 = (0, (0, 0)) -> mixed w b_fric c = 0 -> 0 <= mixed w b_rest c ->
  let u := component nn (snd (b_v b1)) in
  u <= 0 -> v3_at v (c_i1 c) = (fst (b_v b1), v2sub (snd (b_v b1)) (v2scale ((1 + mixed w b_rest c) * u) nn)).
Proof.
  intros K1 F M1 I1 C1 F1 V0 Mu He u Hap. pose proof (fixed_second la mi bs js w HW dt f v imps k c Hf Hv b1 H1 K1 F M1 I1 Hu C1) as Q.
  cbv zeta in Q. rewrite F1, !free_zero, Mu, impact_frictionless in Q.
  assert (N : normal_velocity (w_v w) c = u).
  { unfold normal_velocity. rewrite (relative_reads la mi bs js w c b1 b2 HW H1 H2), component_sub, central_normal by assumption. rewrite V0. unfold u, component, point_velocity. destruct (c_p2 c). cbn [fst snd]. rnum. ring. }
  assert (N' : component nn (point_velocity (b_v b1) (c_p1 c)) = u) by (rewrite central_normal by assumption; reflexivity).
  rewrite N, N' in Q. set (e := mixed w b_rest c) in *.
  assert (El : Rmax 0 (- (u + e * u) / yield_normal b1) = - ((1 + e) * u) * b_mass b1).
  { assert (E : - (u + e * u) / yield_normal b1 = - ((1 + e) * u) * b_mass b1) by (unfold yield_normal; field; lra).
    rewrite E. apply Rmax_right. apply Rmult_le_pos; [|lra]. assert ((1 + e) * u <= 0) by nra. lra. }
  rewrite El in Q. destruct Q as (_ & V1 & _). rewrite V1, kick_normal by assumption.
  set (u' := u) in *. clearbody u'. apply v3_ext; unfold v3add, v2add, v2sub, v2scale; cbn [fst snd]; rnum; field; lra.
Qed.
Lemma bounce_second : clear_of w (c_i2 c) k c -> fixed_in_place w (c_i1 c) -> 0 < b_mass b2 -> 0 < b_inertia b2 -> central nn (c_p2 c) ->
  v3_at f (c_i2 c) = (0, (0, 0)) -> b_v b1 = (0, (0, 0)) -> mixed w b_fric c = 0 -> 0 <= mixed w b_rest c ->
  let u := component nn (snd (b_v b2)) in
  0 <= u -> v3_at v (c_i2 c) = (fst (b_v b2), v2sub (snd (b_v b2)) (v2scale ((1 + mixed w b_rest c) * u) nn)).
Proof.
  intros K2 F M2 I2 C2 F2 V0 Mu He u Hap. pose proof (fixed_first la mi bs js w HW dt f v imps k c Hf Hv b2 H2 K2 F M2 I2 Hu C2) as Q.
  cbv zeta in Q. rewrite F2, !free_zero, Mu, impact_frictionless in Q.
  assert (N : normal_velocity (w_v w) c = - u).
  { unfold normal_velocity. rewrite (relative_reads la mi bs js w c b1 b2 HW H1 H2), component_sub, (central_normal _ (c_p2 c)) by assumption. rewrite V0. unfold u, component, point_velocity. destruct (c_p1 c). cbn [fst snd]. rnum. ring. }
  assert (N' : component nn (v2opp (point_velocity (b_v b2) (c_p2 c))) = - u) by (transitivity (- component nn (point_velocity (b_v b2) (c_p2 c))); [unfold component, v2opp; cbn [fst snd]; rnum; ring|rewrite central_normal by assumption; reflexivity]).
  rewrite N, N' in Q. set (e := mixed w b_rest c) in *.
  assert (El : Rmax 0 (- (- u + e * - u) / yield_normal b2) = (1 + e) * u * b_mass b2).
  { assert (E : - (- u + e * - u) / yield_normal b2 = (1 + e) * u * b_mass b2) by (unfold yield_normal; field; lra).
    rewrite E. apply Rmax_right. apply Rmult_le_pos; [|lra]. apply Rmult_le_pos; lra. }
  rewrite El in Q. destruct Q as (_ & V2 & _). rewrite V2, <- kick_opp, kick_normal by assumption.
  set (u' := u) in *. clearbody u'. apply v3_ext; unfold v3add, v3scale, v2add, v2sub, v2scale; cbn [fst snd]; rnum; field; lra.
Qed.
(** a body at rest on a fixed one: does it roll or slip? *)
Lemma incline F : clear_of w (c_i1 c) k c -> fixed_in_place w (c_i2 c) -> 0 < b_mass b1 -> 0 < b_inertia b1 -> central nn (c_p1 c) ->
  v3_at f (c_i1 c) = (0, F) -> b_v b1 = (0, (0, 0)) -> b_v b2 = (0, (0, 0)) -> 0 < dt -> component nn F <= 0 -> 0 <= mixed w b_fric c ->
  let r2 := fst (c_p1 c) * fst (c_p1 c) + snd (c_p1 c) * snd (c_p1 c) in
  component nn (snd (v3_at v (c_i1 c))) = 0 /\
  (slip_velocity v c = 0 <-> Rabs (component (tangent nn) F) <= mixed w b_fric c * (1 + b_mass b1 * r2 / b_inertia b1) * - component nn F).
Proof.
  intros K1 Fx M1 I1 C1 F1 V1 V2 Hdt Hp Hmu r2. pose proof (fixed_second la mi bs js w HW dt f v imps k c Hf Hv b1 H1 K1 Fx M1 I1 Hu C1) as Q. cbv zeta in Q.
  assert (N : normal_velocity (w_v w) c = 0).
  { unfold normal_velocity. rewrite (relative_reads la mi bs js w c b1 b2 HW H1 H2), V1, V2. unfold component, v2sub, point_velocity. destruct (c_p1 c), (c_p2 c). cbn [fst snd]. rnum. ring. }
  assert (U : free_velocity dt (v3_at f (c_i1 c)) b1 = (0, v2scale (dt / b_mass b1) F)).
  { rewrite F1. unfold free_velocity. rewrite V1. apply v3_ext; unfold v3add, v3scale, acceleration, v2add, v2scale; cbn [fst snd]; rnum; field; lra. }
  rewrite U, N in Q.
  assert (P : point_velocity (0, v2scale (dt / b_mass b1) F) (c_p1 c) = v2scale (dt / b_mass b1) F) by (unfold point_velocity, v2scale; destruct (c_p1 c); cbn [fst snd]; rnum; apply f_equal2; ring).
  assert (Co : forall d, component d (v2scale (dt / b_mass b1) F) = dt / b_mass b1 * component d F) by (intros d; unfold component, v2scale; cbn [fst snd]; rnum; ring).
  rewrite P, !Co in Q. unfold impact in Q. cbv zeta in Q.
  assert (El : Rmax 0 (- (dt / b_mass b1 * component nn F + mixed w b_rest c * 0) / yield_normal b1) = dt * - component nn F).
  { assert (E : - (dt / b_mass b1 * component nn F + mixed w b_rest c * 0) / yield_normal b1 = dt * - component nn F) by (unfold yield_normal; field; lra). rewrite E. apply Rmax_right. apply Rmult_le_pos; lra. }
  rewrite El in Q. set (l := dt * - component nn F) in *. set (mu := mixed w b_fric c) in *. set (kt := yield_tangent b1 (c_p1 c)) in *.
  assert (Hl : 0 <= l) by (unfold l; apply Rmult_le_pos; lra). assert (Hr : 0 <= r2) by (unfold r2; nra).
  assert (Hk : kt = / b_mass b1 + r2 * / b_inertia b1) by reflexivity. pose proof (Rinv_0_lt_compat _ M1) as J1. pose proof (Rinv_0_lt_compat _ I1) as J2.
  assert (Hkt : 0 < kt) by (rewrite Hk; pose proof (Rmult_le_pos _ _ Hr (Rlt_le _ _ J2)); lra).
  set (ut := dt / b_mass b1 * component (tangent nn) F) in *. set (t := clamp (mu * l) (- ut / kt)) in *. destruct Q as (_ & W1 & W2).
  assert (Kv : kick b1 (c_p1 c) (impulse_of nn l t) = (/ b_inertia b1 * cross_2d (c_p1 c) (impulse_of nn l t), v2scale (/ b_mass b1) (impulse_of nn l t))) by (unfold kick, Rdiv; f_equal; apply Rmult_comm).
  assert (Z2 : v3_at v (c_i2 c) = v3add (0, (0, 0)) (v3scale (-1) (0 * cross_2d (c_p2 c) (impulse_of nn l t), v2scale 0 (impulse_of nn l t)))) by (rewrite W2, scale0, add0; reflexivity).
  assert (P2 : point_velocity (0, (0, 0)) (c_p2 c) = (0, 0)) by (destruct (c_p2 c); unfold point_velocity; cbn [fst snd]; rnum; apply f_equal2; ring).
  assert (S0 : forall a : v2 R, v2sub a (0, 0) = a) by (intros [x y]; unfold v2sub; cbn [fst snd]; rnum; apply f_equal2; ring).
  assert (Nv : normal_velocity v c = dt / b_mass b1 * component nn F + / b_mass b1 * l).
  { unfold normal_velocity, relative_velocity. rewrite Z2, W1, Kv.
    pose proof (normal_after nn (c_p1 c) (c_p2 c) (0, v2scale (dt / b_mass b1) F) (0, (0, 0)) (/ b_mass b1) (/ b_inertia b1) 0 0 Hu (or_intror C1) (or_introl eq_refl) l t) as X. cbv zeta in X.
    rewrite X, P, P2, S0, Co. ring. }
  assert (Sv : slip_velocity v c = ut + kt * t).
  { unfold slip_velocity, relative_velocity. rewrite Z2, W1, Kv.
    pose proof (slip_after nn (c_p1 c) (c_p2 c) (0, v2scale (dt / b_mass b1) F) (0, (0, 0)) (/ b_mass b1) (/ b_inertia b1) 0 0 Hu (or_intror C1) (or_introl eq_refl) l t) as X. cbv zeta in X.
    rewrite X, P, P2, S0, Co. fold r2. unfold ut. rewrite Hk. ring. }
  split.
  - transitivity (normal_velocity v c).
    + unfold normal_velocity, relative_velocity. rewrite W2, P2, S0, central_normal by assumption. reflexivity.
    + rewrite Nv. unfold l. field. lra.
  - rewrite Sv. unfold t. rewrite grips by (auto; apply Rmult_le_pos; assumption). unfold ut. rewrite Rabs_mult, (Rabs_right (dt / b_mass b1)) by (left; apply Rdiv_lt_0_compat; lra).
    assert (Y : mu * l * kt = dt / b_mass b1 * (mu * (1 + b_mass b1 * r2 / b_inertia b1) * - component nn F)) by (unfold l; rewrite Hk; field; lra).
    rewrite Y. assert (0 < dt / b_mass b1) by (apply Rdiv_lt_0_compat; lra). split; intros X; [apply (Rmult_le_reg_l (dt / b_mass b1)); assumption|apply Rmult_le_compat_l; lra].
Qed.
End Cases.
