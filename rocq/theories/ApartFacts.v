(** Proofs for C101: bodies with room between them have no contacts *)
From Coq Require Import List Arith ZArith Lia Bool Reals Lra.
From Verif Require Import Num Tensor Utils Bodies Forces Constraints Contacts World Lapack Pdipm Engines
     Spec GeoSpec BodySpec JointSpec FreshSpec ContactSpec LapackSpec EngineSpec StaticsSpec StrictSpec ApartSpec RBase ResFacts LinAlg BodyFacts RigidFacts GeomFacts PlaneFacts BodyReach WorldFacts HandlerFacts ContactFacts
     LayoutFacts HistFacts SatFacts FreshFacts CollideFacts RunTotal CacheFacts GameProps GameFree InferFacts StrictFacts StaticsProps CoastRun BesideRun DemoFacts ChainFacts ScatterFacts.
Import ListNotations.
Open Scope R_scope.

Lemma strip_handler gf o eps clk bs i j b1 b2 t cs bs' clk' : tidy b1 -> tidy b2 -> is_circle b1 = true \/ is_circle b2 = true -> t < - eps -> overlap_at_most t b1 b2 ->
  nth_error bs i = Some b1 -> nth_error bs j = Some b2 -> diff_handler (T := R) gf o eps clk bs i j = Ok (cs, bs', clk') -> cs = [].
Proof.
  intros T1 T2 Hc Ht Ho H1 H2 H. destruct (is_circle b1) eqn:C1, (is_circle b2) eqn:C2.
  - destruct cs as [|c cs]; [reflexivity|exfalso]. pose proof (handler_depth _ _ _ _ _ _ _ _ _ _ _ _ c t H1 H2 T1 T2 (or_introl C1) Ho H (or_introl eq_refl)) as P.
    unfold diff_handler, get_body in H. rewrite H1, H2 in H. cbn [bind] in H. destruct (existsb _ _); [discriminate|]. rewrite C1, C2 in H. cbn [andb] in H.
    rewrite circle_circle_eq in H. cbv zeta in H. destruct (Rltb_spec (b_rad b1 + b_rad b2 - dist (b_pos b1) (b_pos b2)) (- eps)) as [Q|Q]; [discriminate|].
    cbn [mk_contacts map] in H. injection H as E _ _ _. rewrite <- E in P. cbn [c_pen] in P. lra.
  - exact (spaced_handler _ _ _ _ _ _ _ b1 b2 t _ _ _ T1 T2 C1 C2 Ht Ho (or_introl (conj H1 H2)) H).
  - exact (spaced_handler _ _ _ _ _ _ _ b2 b1 t _ _ _ T2 T1 C2 C1 Ht (overlap_sym _ _ _ Ho) (or_intror (conj H1 H2)) H).
  - destruct Hc; discriminate.
Qed.
Lemma min_exists {A} (f : A -> R) l : l <> [] -> exists m, is_min f l m.
Proof.
  induction l as [|a l IH]; intros H; [congruence|]. destruct l as [|b l].
  - exists (f a). split; [exists a; split; [now left|reflexivity]|]. intros x [<-|[]]. lra.
  - destruct IH as (m & (x & Hx & Ex) & Hm); [discriminate|]. destruct (Rle_lt_dec (f a) m) as [L|L].
    + exists (f a). split; [exists a; split; [now left|reflexivity]|]. intros y [<-|Hy]; [lra|]. specialize (Hm y Hy). lra.
    + exists m. split; [exists x; split; [now right|exact Ex]|]. intros y [<-|Hy]; [lra|]. exact (Hm y Hy).
Qed.
Definition outside (d : R) (b1 b2 : body R) : Prop := exists e, In e (edges (b_verts b1)) /\ forall v, In v (b_verts b2) -> d < edge_dist e (v2add v (offset b1 b2)).
Lemma outside_sat eps b1 b2 s : (0 < length (b_verts b1))%nat -> (0 < length (b_verts b2))%nat -> outside eps b1 b2 -> test_separations b1 b2 eps = Ok s -> eps < sep_dist s.
Proof.
  intros L1 L2 (e & He & Hv) H. destruct (sat_value _ _ _ _ L1 H) as (_ & _ & [Q|Q]); [exact Q|].
  destruct (min_exists (fun v => edge_dist e (v2add v (offset b1 b2))) (b_verts b2)) as [m Hm]; [intros E; rewrite E in L2; cbn in L2; lia|].
  specialize (Q e m He Hm). destruct Hm as [(v & Iv & Ev) _]. specialize (Hv v Iv). lra.
Qed.
Lemma tidy_verts b : tidy b -> is_circle b = false -> (0 < length (b_verts b))%nat.
Proof. intros T C. unfold tidy in T. rewrite C in T. destruct T as (_ & T & _). lia. Qed.
Lemma outside_handler gf o eps clk bs i j b1 b2 cs bs' clk' : tidy b1 -> tidy b2 -> is_circle b1 = false -> is_circle b2 = false -> outside eps b1 b2 \/ outside eps b2 b1 ->
  nth_error bs i = Some b1 -> nth_error bs j = Some b2 -> diff_handler (T := R) gf o eps clk bs i j = Ok (cs, bs', clk') -> cs = [].
Proof.
  intros T1 T2 C1 C2 Hs H1 H2 H. unfold diff_handler, get_body in H. rewrite H1, H2 in H. cbn [bind] in H. destruct (existsb _ _); [now injection H|]. rewrite C1, C2 in H. cbn [andb orb] in H.
  bind_inv H as r Er. destruct r as [[ps b1'] b2']. injection H as <- _ _. unfold hull_hull in Er. bind_inv Er as s Es.
  pose proof (tidy_verts _ T1 C1) as L1. pose proof (tidy_verts _ T2 C2) as L2.
  change (nltb eps (sep_dist s)) with (Rltb eps (sep_dist s)) in Er. destruct (Rltb_spec eps (sep_dist s)) as [_|Q]; [injection Er as <- _ _; reflexivity|].
  destruct Hs as [Hs|Hs]; [pose proof (outside_sat _ _ _ _ L1 L2 Hs Es); lra|]. bind_inv Er as s2 Es2.
  assert (V : b_verts (set_last b1 (sep_idx s)) = b_verts b1) by (unfold b_verts, set_last; destruct b1 as [? k ? ? ? ? ? ? ? ? ?]; now destruct k).
  assert (P : b_pos (set_last b1 (sep_idx s)) = b_pos b1) by (unfold b_pos, set_last; destruct b1 as [? k ? ? ? ? ? ? ? ? ?]; now destruct k).
  assert (Q2 : eps < sep_dist s2). { refine (outside_sat _ _ _ _ L2 _ _ Es2); [now rewrite V|]. unfold outside, offset. rewrite V, P. exact Hs. }
  change (nltb eps (sep_dist s2)) with (Rltb eps (sep_dist s2)) in Er. destruct (Rltb_spec eps (sep_dist s2)) as [_|Q3]; [injection Er as <- _ _; reflexivity|lra].
Qed.
(** *** bodies in their poses *)
Lemma placed_verts (b b' : body R) : poly_wf b -> EngineSpec.moved b b' -> b_verts b' = verts_at b (b_p b').
Proof. intros Wf M. destruct (moved_rel _ rigid_steps _ _ M Wf) as (_ & V & _). exact V. Qed.
Lemma placed_class (b b' : body R) : poly_wf b -> EngineSpec.moved b b' -> is_circle b' = is_circle b.
Proof. intros Wf M. destruct (moved_rel _ rigid_steps _ _ M Wf) as (_ & _ & C). unfold same_class in C. unfold is_circle. destruct (b_kind b), (b_kind b'); tauto. Qed.
Lemma placed_points (b b' : body R) q : poly_wf b -> EngineSpec.moved b b' -> body_points b' q -> occupies b (b_p b') q.
Proof.
  intros Wf M. destruct (moved_rel _ rigid_steps _ _ M Wf) as (_ & V & C). unfold same_class in C. unfold moved_rigidly in V. unfold body_points, occupies, verts_at.
  destruct (b_kind b), (b_kind b'); try tauto; [now subst| |]; now rewrite V.
Qed.
Lemma points_still b b' q : still b = still b' -> body_points b' q -> body_points b q.
Proof.
  intros E Hq. destruct (still_shape b b' E) as (_ & Hp & Hc & Hr & Hv & _). unfold body_points, is_circle, b_rad in *. rewrite Hv, Hp. destruct (b_kind b), (b_kind b'); try discriminate; try exact Hq. now rewrite Hr.
Qed.
Lemma strip_overlap d b1 b2 a1 a2 c1 c2 : poly_wf b1 -> poly_wf b2 -> EngineSpec.moved b1 a1 -> EngineSpec.moved b2 a2 -> still c1 = still a1 -> still c2 = still a2 -> strip d b1 (b_p a1) b2 (b_p a2) ->
  exists t, t < - d /\ overlap_at_most t c1 c2.
Proof.
  intros W1 W2 M1 M2 E1 E2 (n & s & Un & Hs & H). exists (- s). split; [lra|]. exists (v2opp n). split; [now apply unit_opp|]. intros q1 q2 Q1 Q2.
  specialize (H q1 q2 (placed_points _ _ _ W1 M1 (points_still _ _ _ (eq_sym E1) Q1)) (placed_points _ _ _ W2 M2 (points_still _ _ _ (eq_sym E2) Q2))).
  unfold v2opp. cbn [fst snd]. rnum. lra.
Qed.
Lemma strip_sym d b1 p1 b2 p2 : strip d b1 p1 b2 p2 -> strip d b2 p2 b1 p1.
Proof. intros (n & s & Un & Hs & H). exists (v2opp n), s. split; [now apply unit_opp|]. split; [exact Hs|]. intros q1 q2 Q1 Q2. specialize (H q2 q1 Q2 Q1). unfold v2opp. cbn [fst snd]. rnum. lra. Qed.
Lemma room_sym d b1 p1 b2 p2 : room d b1 p1 b2 p2 -> room d b2 p2 b1 p1.
Proof. unfold room. rewrite (orb_comm (is_circle b2)). destruct (_ || _); [apply strip_sym|tauto]. Qed.
Lemma along_outside d b1 b2 a1 a2 c1 c2 : poly_wf b1 -> poly_wf b2 -> EngineSpec.moved b1 a1 -> EngineSpec.moved b2 a2 -> still c1 = still a1 -> still c2 = still a2 -> strip_along d b1 (b_p a1) b2 (b_p a2) -> outside d c1 c2.
Proof.
  intros W1 W2 M1 M2 E1 E2 H. unfold strip_along in H. rewrite <- (placed_verts _ _ W1 M1), <- (placed_verts _ _ W2 M2) in H. change (snd (b_p a1)) with (b_pos a1) in H. change (snd (b_p a2)) with (b_pos a2) in H.
  destruct (still_shape _ _ E1) as (_ & P1 & _ & _ & V1 & _). destruct (still_shape _ _ E2) as (_ & P2 & _ & _ & V2 & _). unfold outside, offset. rewrite V1, V2, P1, P2. exact H.
Qed.
Theorem room_silent gf (o : oracle R) bs eps (a : world R) ps : broadphase_sane o -> Forall (fit gf) bs -> all_room eps bs ps ->
  Forall2 EngineSpec.moved bs (w_bodies a) -> w_eps a = eps -> map b_p (w_bodies a) = ps -> contacts_current o (diff_handler gf o) a -> w_contacts a = [].
Proof.
  intros Ho Fi Ar Mv Eps Hp Cu. destruct (w_contacts a) as [|c cs] eqn:Ec; [reflexivity|exfalso].
  assert (Hc : In c (w_contacts a)) by (rewrite Ec; now left). clear Ec cs.
  destruct (current_report _ _ _ _ Cu Hc Ho) as (Hne & L1 & L2 & new & Hin & clk & bs0 & bs1 & clk1 & Hst & Hd).
  assert (G : forall i, (i < length (w_bodies a))%nat -> exists e b d, nth_error (w_bodies a) i = Some b /\ nth_error bs i = Some d /\ EngineSpec.moved d b /\ nth_error ps i = Some (b_p b) /\ poly_wf d /\ nth_error bs0 i = Some e /\ still e = still b /\ tidy e).
  { intros i Hi. destruct (nth_error (w_bodies a) i) as [b|] eqn:Hb; [|apply nth_error_None in Hb; lia]. destruct (Forall2_nth _ _ _ _ _ Mv Hb) as (d & Hdd & Hm). destruct (still_nth _ _ _ _ Hst Hb) as (e & He & Es).
    assert (Fd : fit gf d) by (rewrite Forall_forall in Fi; apply Fi; eapply nth_error_In; eauto). exists e, b, d. do 3 (split; [auto|]). split; [rewrite <- Hp, nth_error_map, Hb; reflexivity|]. split; [exact (proj1 Fd)|]. do 2 (split; [auto|]).
    apply (still_tidy b); [now symmetry|]. pose proof (moved_rel _ (fit_steps gf) _ _ Hm Fd) as (_ & _ & F & _). exact F. }
  destruct (G _ L1) as (e1 & a1 & b1 & A1 & B1 & M1 & P1 & W1 & H1 & S1 & T1). destruct (G _ L2) as (e2 & a2 & b2 & A2 & B2 & M2 & P2 & W2 & H2 & S2 & T2). clear G.
  assert (Hr : excluded b1 b2 \/ room eps b1 (b_p a1) b2 (b_p a2)).
  { destruct (Nat.lt_total (c_i1 c) (c_i2 c)) as [L|[L|L]]; [|lia|].
    - destruct (Ar _ _ _ _ _ _ L B1 B2 P1 P2) as [[Q _]|Q]; auto.
    - destruct (Ar _ _ _ _ _ _ L B2 B1 P2 P1) as [[_ Q]|Q]; [auto|right; now apply room_sym]. }
  rewrite Eps in Hd. assert (Z : new = []); [|rewrite Z in Hin; destruct Hin]. destruct Hr as [Hx|Hr].
  - assert (Xa : forall e b d, still e = still b -> EngineSpec.moved d b -> excl e = excl d).
    { intros e b d He Hm. rewrite <- (moved_excl _ _ Hm). apply (f_equal excl) in He. unfold still in He. now rewrite !excl_with_v, !excl_forget in He. }
    pose proof (Xa _ _ _ S1 M1) as X1. pose proof (Xa _ _ _ S2 M2) as X2.
    assert (Y : existsb (Nat.eqb (b_id e1)) (g_no_contact (b_geom e2)) = true).
    { unfold excl in X1, X2. injection X1 as -> _. injection X2 as _ ->. apply existsb_exists. exists (b_id b1). split; [exact Hx|apply Nat.eqb_refl]. }
    unfold diff_handler, get_body in Hd. rewrite H1, H2 in Hd. cbn [bind] in Hd. rewrite Y in Hd. now injection Hd.
  - assert (K1 : is_circle e1 = is_circle b1) by (destruct (still_shape _ _ S1) as (_ & _ & -> & _); exact (placed_class _ _ W1 M1)).
    assert (K2 : is_circle e2 = is_circle b2) by (destruct (still_shape _ _ S2) as (_ & _ & -> & _); exact (placed_class _ _ W2 M2)).
    unfold room in Hr. destruct (is_circle b1 || is_circle b2) eqn:Ek.
    + destruct (strip_overlap _ _ _ _ _ _ _ W1 W2 M1 M2 S1 S2 Hr) as (t & Ht & Hov). refine (strip_handler _ _ _ _ _ _ _ e1 e2 t _ _ _ T1 T2 _ Ht Hov H1 H2 Hd). rewrite K1, K2. now apply orb_true_iff.
    + apply orb_false_iff in Ek. destruct Ek as [Ek1 Ek2]. refine (outside_handler _ _ _ _ _ _ _ e1 e2 _ _ _ T1 T2 _ _ _ H1 H2 Hd); [congruence|congruence|].
      destruct Hr as [Hr|Hr]; [left; exact (along_outside _ _ _ _ _ _ _ W1 W2 M1 M2 S1 S2 Hr)|right; exact (along_outside _ _ _ _ _ _ _ W2 W1 M2 M1 S2 S1 Hr)].
Qed.
(** *** bodies inside discs that are apart *)
Lemma unit_toward (p q : pt) : 0 < dist p q -> exists n, unit_vec n /\ fst n * (fst q - fst p) + snd n * (snd q - snd p) = dist p q.
Proof.
  intros H. set (D := dist p q) in *. exists ((fst q - fst p) / D, (snd q - snd p) / D).
  assert (E : (fst q - fst p) * (fst q - fst p) + (snd q - snd p) * (snd q - snd p) = D * D).
  { unfold D, dist. rewrite sqrt_sqrt; [ring|]. pose proof (Rle_0_sqr (fst p - fst q)). pose proof (Rle_0_sqr (snd p - snd q)). unfold Rsqr in *. lra. }
  split; [unfold unit_vec, v2dot|]; cbn [fst snd]; rnum; field_simplify_eq; try lra.
Qed.
Lemma inside_occupies r b p q n : inside r b -> unit_vec n -> occupies b p q -> Rabs (fst n * (fst q - fst (snd p)) + snd n * (snd q - snd (snd p))) <= r.
Proof.
  intros Hi Un Hq. assert (U2 : fst n * fst n + snd n * snd n = 1) by (unfold unit_vec, v2dot in Un; rnum; lra).
  assert (CS : forall x y k, sqrt (x * x + y * y) <= k -> Rabs (fst n * x + snd n * y) <= k).
  { intros x y k Hk. eapply Rle_trans; [|exact Hk]. rewrite <- sqrt_Rsqr_abs. apply sqrt_le_1_alt. unfold Rsqr.
    assert (Z : x * x + y * y - (fst n * x + snd n * y) * (fst n * x + snd n * y) = (fst n * y - snd n * x) * (fst n * y - snd n * x) + (x * x + y * y) * (1 - (fst n * fst n + snd n * snd n))) by ring.
    rewrite U2 in Z. pose proof (Rle_0_sqr (fst n * y - snd n * x)) as Sq. unfold Rsqr in Sq. lra. }
  unfold occupies, inside, is_circle, b_rad in *.
  assert (Hull : (forall v, In v (b_verts b) -> dist v (0, 0) <= r) -> in_hull (verts_at b p) (v2sub q (snd p)) -> Rabs (fst n * (fst q - fst (snd p)) + snd n * (snd q - snd (snd p))) <= r).
  { intros Hv Hh. assert (B : forall v, In v (verts_at b p) -> Rabs (fst n * fst v + snd n * snd v) <= r).
    { intros v Iv. unfold verts_at in Iv. apply in_map_iff in Iv. destruct Iv as (u & <- & Iu). apply CS. specialize (Hv u Iu). rewrite <- (RunTotal.dist_rotate (fst p - b_rot b)) in Hv. unfold dist in Hv. cbn [fst snd] in Hv. now rewrite !Rminus_0_r in Hv. }
    assert (A : forall v k, Rabs v <= k -> - k <= v <= k) by (intros v k H; apply Rabs_def2' || (unfold Rabs in H; destruct (Rcase_abs v); lra)).
    pose proof (in_hull_aff _ _ 0 (fst n) (snd n) r Hh) as U. pose proof (in_hull_aff _ _ 0 (- fst n) (- snd n) r Hh) as L. unfold aff in U, L. unfold v2sub in U, L. cbn [fst snd] in U, L. rnum.
    apply Rabs_le. split; [|]; [enough (0 + - fst n * (fst q - fst (snd p)) + - snd n * (snd q - snd (snd p)) <= r) by lra; apply L|enough (0 + fst n * (fst q - fst (snd p)) + snd n * (snd q - snd (snd p)) <= r) by lra; apply U]; intros v Iv; specialize (A _ _ (B v Iv)); lra. }
  destruct (b_kind b) as [r0| |]; [|now apply Hull|now apply Hull]. apply CS. unfold dist in Hq. lra.
Qed.
Theorem discs_strip d b1 p1 b2 p2 r1 r2 : inside r1 b1 -> inside r2 b2 -> 0 <= r1 -> 0 <= r2 -> 0 <= d -> r1 + r2 + d < dist (snd p1) (snd p2) -> strip d b1 p1 b2 p2.
Proof.
  intros I1 I2 R1 R2 Hd H. destruct (unit_toward (snd p1) (snd p2) ltac:(lra)) as (n & Un & En). exists n, (dist (snd p1) (snd p2) - r1 - r2). split; [exact Un|]. split; [lra|]. intros q1 q2 Q1 Q2.
  pose proof (inside_occupies _ _ _ _ _ I1 Un Q1) as A1. pose proof (inside_occupies _ _ _ _ _ I2 Un Q2) as A2.
  pose proof (Rle_abs (fst n * (fst q1 - fst (snd p1)) + snd n * (snd q1 - snd (snd p1)))). pose proof (Rle_abs (- (fst n * (fst q2 - fst (snd p2)) + snd n * (snd q2 - snd (snd p2))))) as B. rewrite Rabs_Ropp in B. lra.
Qed.
Lemma handled_fit gf bs : Forall (handled gf) bs -> Forall (fit gf) bs.
Proof. apply Forall_impl. intros b (H1 & H2 & H3 & H4). now apply available_fit. Qed.
Lemma handled_available gf bs : Forall (handled gf) bs -> Forall available bs.
Proof. apply Forall_impl. now intros b (H1 & _). Qed.
Lemma init_poses (o : oracle R) gf hh bs js dt eps tol fd ps st w : world_init o (diff_handler gf o) hh bs js dt eps tol fd ps st = Ok w -> map b_p (w_bodies w) = map b_p bs.
Proof.
  intros H. pose proof (init_forget _ _ _ _ _ _ _ _ _ _ _ _ (diff_handler_frame gf o) H) as E. apply (f_equal (map b_p)) in E. rewrite !map_map in E.
  now rewrite !(map_ext (fun x => b_p (forget x)) b_p) in E by (intros; apply forget_p).
Qed.
Theorem room_starts gf o bs js hh dt eps tol fd ps : broadphase_sane o -> bs <> [] -> Forall (handled gf) bs -> NoDup (map b_id bs) -> Forall (built bs) js ->
  all_room eps bs (map b_p bs) -> exists w, world_init (T := R) o (diff_handler gf o) hh bs js dt eps tol fd ps true = Ok w /\ w_contacts w = [].
Proof.
  intros Ho Hne Hh Hn Hb Hr. assert (Q : forall st w, world_init o (diff_handler gf o) hh bs js dt eps tol fd ps st = Ok w -> w_contacts w = []).
  { intros st w H. refine (room_silent gf o bs eps w _ Ho (handled_fit _ _ Hh) Hr _ _ (init_poses _ _ _ _ _ _ _ _ _ _ _ _ H) _).
    - apply Forall2_forget'; [apply FlightFacts.moved_steps|]. exact (init_forget _ _ _ _ _ _ _ _ _ _ _ _ (diff_handler_frame gf o) H).
    - destruct (world_init_inv _ _ _ _ _ _ _ _ _ _ _ _ H) as (_ & -> & _). reflexivity.
    - eapply init_current; [apply diff_handler_frame|exact H]. }
  destruct (scene_starts gf o bs js Ho Hne (handled_available _ _ Hh) (handled_fit _ _ Hh) Hn Hb hh dt eps tol fd ps (Q false)) as [w H]. exists w. split; [exact H|exact (Q true w H)].
Qed.
Theorem room_runs gf o bs js hh dt eps tol ps st w rest F la mi K lfuel fuel run_time :
    broadphase_sane o -> Forall (handled gf) bs -> NoDup (map b_id bs) -> Forall (built bs) js ->
    world_init o (diff_handler gf o) hh bs js dt eps tol 2 ps st = Ok w -> loop_free js -> Forall (fun b : body R => 0 < b_mass b /\ 0 < b_inertia b) bs ->
    (forall t, world_apply_forces w t = Ok (F t)) -> jointed w rest F -> lapack_ok la -> (0 < mi)%nat ->
    (forall m, (m < K)%nat -> in_balance w rest (F (INR m * dt))) ->
    (forall m, (m <= K)%nat -> all_room eps bs (map fst (coasting w rest F m))) ->
    (forall m, (m < K)%nat -> INR m * dt < run_time) -> run_time <= INR K * dt -> (K < fuel)%nat ->
    exists w', run_world fuel (S lfuel) o (diff_handler gf o) (pdipm_engine la mi) run_time w = Ok w' /\
      map (fun b => (b_p b, b_v b)) (w_bodies w') = coasting w rest F K /\ w_t w' = INR K * dt /\ w_contacts w' = [].
Proof.
  intros Ho Hh Hn Hb Hw Hl Hm HF Hj HL Hmi HB Hr Hlt Hle Hfu.
  refine (beside_run gf o bs js Ho (handled_available _ _ Hh) (handled_fit _ _ Hh) Hn Hb hh dt eps tol ps st w rest F la mi Hw Hl Hm HF Hj HL Hmi K lfuel fuel run_time HB _ Hlt Hle Hfu).
  intros m Hk a Mv Eps Hp Cu. refine (room_silent gf o bs eps a _ Ho (handled_fit _ _ Hh) (Hr m Hk) _ _ Hp Cu).
  - eapply Forall2_trans'; [apply FlightFacts.moved_steps|exact (beside_moved _ _ _ _ _ _ _ _ _ _ _ Hw)|exact Mv].
  - rewrite Eps. destruct (beside_clock _ _ _ _ _ _ _ _ _ _ _ Hw) as (_ & _ & Q & _). exact Q.
Qed.
(** *** room is distance *)
Lemma strip_far d b1 p1 b2 p2 q1 q2 : strip d b1 p1 b2 p2 -> occupies b1 p1 q1 -> occupies b2 p2 q2 -> d < dist q1 q2.
Proof. intros (n & s & Un & Hs & H) Q1 Q2. specialize (H _ _ Q1 Q2). pose proof (unit_dot n q2 q1 Un). rewrite (dist_sym q1 q2). lra. Qed.
Lemma along_far d b1 p1 b2 p2 q1 q2 : is_circle b1 = false -> is_circle b2 = false -> tidy b1 -> strip_along d b1 p1 b2 p2 -> occupies b1 p1 q1 -> occupies b2 p2 q2 -> d < dist q1 q2.
Proof.
  intros C1 C2 T1 (e & He & Hv) Q1 Q2. assert (O : forall b p q, is_circle b = false -> occupies b p q -> in_hull (verts_at b p) (v2sub q (snd p))) by (intros b p q C Q; unfold is_circle, occupies in *; destruct (b_kind b); [discriminate|exact Q|exact Q]).
  apply O in Q1; [|exact C1]. apply O in Q2; [|exact C2]. unfold tidy in T1. rewrite C1 in T1. assert (S1 : strictly_convex (verts_at b1 p1)) by now apply convex_rotate.
  assert (Pe : fst e <> snd e) by (destruct e as [p q]; exact (HellyFacts.strictly_proper _ S1 p q He)).
  pose proof (convex_inside _ e _ (HellyFacts.strictly_convex_convex _ S1) He Pe Q1) as I1.
  assert (Nv : verts_at b2 p2 <> []). { intros E. rewrite E in Q2. destruct Q2 as (ws & L & _ & S & _). destruct ws; [|discriminate]. unfold Rsum in S. cbn in S. lra. }
  destruct (min_exists (fun v => edge_dist e (v2add v (v2sub (snd p2) (snd p1)))) _ Nv) as [m Hm].
  pose proof (separation_outside _ _ _ _ _ Hm Q2) as I2. destruct Hm as [(v & Iv & Ev) _]. specialize (Hv v Iv). cbv beta in Ev.
  pose proof (edge_dist_lipschitz e (v2sub q1 (snd p1)) (v2add (v2sub q2 (snd p2)) (v2sub (snd p2) (snd p1))) Pe) as L.
  assert (E : dist (v2sub q1 (snd p1)) (v2add (v2sub q2 (snd p2)) (v2sub (snd p2) (snd p1))) = dist q1 q2).
  { unfold dist, v2add, v2sub. cbn [fst snd]. rnum. f_equal. ring. }
  lra.
Qed.
Theorem room_far d b1 p1 b2 p2 q1 q2 : tidy b1 -> tidy b2 -> room d b1 p1 b2 p2 -> occupies b1 p1 q1 -> occupies b2 p2 q2 -> d < dist q1 q2.
Proof.
  intros T1 T2 H Q1 Q2. unfold room in H. destruct (is_circle b1 || is_circle b2) eqn:E; [eapply strip_far; eauto|]. apply orb_false_iff in E. destruct E as [E1 E2].
  destruct H as [H|H]; [exact (along_far _ _ _ _ _ _ _ E1 E2 T1 H Q1 Q2)|rewrite dist_sym; exact (along_far _ _ _ _ _ _ _ E2 E1 T2 H Q2 Q1)].
Qed.
