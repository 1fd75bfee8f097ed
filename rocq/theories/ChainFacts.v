(** chain_demo: what it builds, and that nothing touches (proofs for C99) *)
From Coq Require Import List Arith ZArith Lia Bool Reals Lra.
From Verif Require Import Num Tensor Utils Bodies Forces Constraints Contacts World Lapack Pdipm Engines Game Infer Chain
     Spec GeoSpec BodySpec JointSpec FreshSpec ContactSpec LapackSpec EngineSpec GameSpec StaticsSpec InferSpec DemoSpec ChainSpec RBase ResFacts LinAlg BodyFacts RigidFacts GeomFacts BodyReach WorldFacts HandlerFacts
     LayoutFacts HistFacts SatFacts FreshFacts CollideFacts EngineFacts JointFacts JeFacts HeldFacts MomentumFacts FlightFacts EngineProps EngineMore SceneInit RunTotal FuelFacts CacheFacts GroupFacts EnergyRun
     SysFacts StaticsFacts StaticsProps CoastRun GameFacts GameProps GameStart GameFree InferFacts InferRun BesideRun DemoFacts.
Import ListNotations.
Open Scope R_scope.

(** *** the bodies *)
Definition begin (i : nat) : v3 R * v3 R := if (i <? 10)%nat then (link_place i, (0, (0, 0))) else if (i =? 10)%nat then ((0, (50, 500)), (0, (0, 0))) else ((0, (975, 575)), (1, (0, 0))).
Definition uses (i : nat) : list nat := match i with O => [] | S k => if (k <? 10)%nat then [k] else [] end.
Record item (i : nat) (b : body R) : Prop := {
  it_available : available b;
  it_kind : b_kind b = if (i <? 10)%nat then KRect (20, 60) (corners 20 60) 0 else KCircle 20;
  it_p : b_p b = fst (begin i);
  it_v : b_v b = snd (begin i);
  it_id : b_id b = i;
  it_mass : b_mass b = 1;
  it_inertia : b_inertia b = if (i <? 10)%nat then 1000 / 3 else 200;
  it_rest : b_rest b = if (i <? 11)%nat then 9 / 10 else 1 / 2;
  it_fric : b_fric b = 9 / 10;
  it_forces : b_forces b = uses i }.
Lemma item_like i b b' : like b b' -> item i b -> item i b'.
Proof. intros L [A K P V I M J Rs Fr F]. pose proof (like_available _ _ L A) as A'. destruct L as [nc ->]. constructor; auto. Qed.
Lemma slab_item i b fs : (i < 10)%nat -> slab i (link_place i) 20 60 1 b -> b_rest b = 9 / 10 -> b_fric b = 9 / 10 -> fs = uses i -> item i (with_forces b fs).
Proof.
  intros Hi B Rs Fr ->. pose proof (slab_forces _ _ _ _ _ _ (uses i) B) as [A K P I V M J]. unfold link_place in K. cbn [fst] in K. rewrite map_rotate_0 in K.
  assert (L : (i <? 10)%nat = true) by (now apply Nat.ltb_lt). assert (L' : (i <? 11)%nat = true) by (apply Nat.ltb_lt; lia).
  constructor; rewrite ?L, ?L'; auto; unfold begin; rewrite ?L; auto. rewrite J. lra.
Qed.
Lemma demo_link_ok i : exists b, demo_link (T := R) i = Ok b /\ slab i (link_place i) 20 60 1 b /\ b_forces b = [] /\ b_fric b = 9 / 10 /\ b_rest b = 9 / 10.
Proof.
  unfold demo_link. unfold link_place. rewrite place_eq. rnum.
  destruct (slab_ok i [300; IZR (50 + 50 * Z.of_nat i)] (0, (300, IZR (50 + 50 * Z.of_nat i))) 20 60 1 (9 / 10) FRIC_COEFF EPSILON eq_refl (or_intror eq_refl) ltac:(lra) ltac:(lra)) as (b & E & B & F & Fr & Rs).
  exists b. split; [exact E|]. split; [exact B|]. split; [exact F|]. split; [rewrite Fr; unfold FRIC_COEFF; rnum; reflexivity|exact Rs].
Qed.
Definition own : forceobj R := FGrav 100 (Some (0, (0, 100))).
Lemma demo_links_ok m : forall s h prev, (0 < s)%nat -> (s + m <= 10)%nat -> length h = (s - 1)%nat -> b_pos prev = snd (link_place (s - 1)) -> b_id prev = (s - 1)%nat ->
  exists rs, demo_links (seq s m) h prev = Ok (h ++ repeat own m, rs, map hinge (seq s m)) /\ length rs = m /\ forall k b, nth_error rs k = Some b -> item (s + k) b.
Proof.
  induction m as [|m IH]; intros s h prev Hs Hm Hh Hp Hi.
  - exists []. cbn. rewrite app_nil_r. split; [reflexivity|]. split; [reflexivity|]. intros [|k] b E; discriminate.
  - cbn [seq demo_links]. destruct (demo_link_ok s) as (r & E & B & F & Fr & Rs). rewrite E. cbn [bind]. unfold add_force. rewrite nth_error_last. cbn [bind].
    rewrite upd_last, F. cbn [app]. set (r1 := with_forces r [length h]).
    assert (B1 : item s r1).
    { apply slab_item; auto; [lia|]. rewrite Hh. unfold uses. destruct s as [|s']; [lia|]. destruct (Nat.ltb_spec s' 10) as [_|]; [|lia]. f_equal. lia. }
    assert (Ls : (s <? 10)%nat = true) by (apply Nat.ltb_lt; lia).
    assert (P1' : b_p r1 = link_place s) by (rewrite (it_p _ _ B1); unfold begin; now rewrite Ls).
    destruct (IH (S s) (h ++ [set_body (FGrav (nofZ 100) None) (b_mass r)]) r1) as (rs & E2 & L & Q).
    { lia. } { lia. } { rewrite app_length. cbn. lia. } { unfold b_pos. rewrite P1'. f_equal. f_equal. lia. } { rewrite (it_id _ _ B1). lia. }
    rewrite E2. cbn [bind]. exists (r1 :: rs). split; [|split].
    + apply f_equal. apply f_equal2; [apply f_equal2|].
      * rewrite <- app_assoc. f_equal. cbn [app repeat]. apply f_equal2; [|reflexivity]. unfold own, set_body. rewrite (sl_mass _ _ _ _ _ _ B). unfold v3mulr, DOWN. cbn [fst snd]. rnum. f_equal. f_equal. apply f_equal2; [ring|apply f_equal2; ring].
      * reflexivity.
      * cbn [map]. apply f_equal2; [|reflexivity]. unfold hinge, joint_init. rewrite anchor_eq.
        assert (P1 : b_pos r1 = b_pos (ideal s)) by (unfold b_pos; rewrite P1'; reflexivity). assert (P2 : b_pos prev = b_pos (ideal (s - 1))) by exact Hp.
        rewrite P1, P2, Hi, (it_id _ _ B1). reflexivity.
    + cbn. lia.
    + intros [|k] b Ek.
      * cbn in Ek. injection Ek as <-. rewrite Nat.add_0_r. exact B1.
      * specialize (Q k b Ek). replace (s + S k)%nat with (S s + k)%nat by lia. exact Q.
Qed.

(** *** the world *)
Definition chain_pairs : list (nat * nat) := pairs_of 10.
Definition chain_heap : fheap R := repeat own 9 ++ [FExt hor_impulse 2000].
Definition chain_js : list (joint R) := x_init (ideal 0) :: y_init (ideal 0) :: map hinge (seq 1 9).
Record rig (bs : list (body R)) : Prop := {
  rg_len : length bs = 12%nat;
  rg_item : forall i b, nth_error bs i = Some b -> item i b;
  rg_excl : exists bs0, length bs0 = 12%nat /\ bs = no_contact_ops bs0 chain_pairs }.
Lemma disc_item i fs (b : body R) x y w rest : (10 <= i)%nat -> begin i = ((0, (x, y)), (w, (0, 0))) -> rest = (if (i <? 11)%nat then 9 / 10 else 1 / 2) -> fs = uses i ->
  circle_init (T := R) i [x; y] 20 [w; 0; 0] 1 rest FRIC_COEFF EPSILON = Ok b -> item i (with_forces b fs).
Proof.
  intros Hi Hb Hr -> E. assert (L : (i <? 10)%nat = false) by (apply Nat.ltb_ge; lia). pose proof E as E0. unfold circle_init, body_init in E. cbn [to_v3 bind] in E. injection E as <-.
  constructor; rewrite ?L, ?Hb; try reflexivity.
  - eexists _, [BForces (uses i)]. split; [|reflexivity]. left. exists i, [x; y], 20, [w; 0; 0], 1, rest, FRIC_COEFF, EPSILON. exact E0.
  - cbn. unfold circle_inertia. rnum. lra.
  - exact Hr.
Qed.
Lemma chain_demo_rig o hd : exists bs, rig bs /\ chain_demo (T := R) o hd = world_init o hd chain_heap bs chain_js STEP EPSILON TOL 2 true true.
Proof.
  unfold chain_demo. destruct (demo_link_ok 0) as (r0 & E0 & B0 & F0 & Fr0 & Rs0). rewrite E0. cbn [bind].
  assert (D0 : item 0 r0). { pose proof (slab_item 0 r0 [] ltac:(lia) B0 Rs0 Fr0 eq_refl) as D. destruct r0. cbn in F0. subst. exact D. }
  destruct (demo_links_ok 9 1 [] r0) as (rs & E1 & L & Q); [lia|lia|reflexivity|unfold b_pos; now rewrite (sl_p _ _ _ _ _ _ B0)|exact (sl_id _ _ _ _ _ _ B0)|].
  rewrite E1. cbn [bind app].
  assert (Ec : exists c, circle_init (T := R) 10 [50; 500] 20 [0; 0; 0] 1 (9 / 10) FRIC_COEFF EPSILON = Ok c /\ b_forces c = []) by (unfold circle_init, body_init; cbn [to_v3 bind]; eexists; split; reflexivity).
  assert (Ek : exists c, circle_init (T := R) 11 [975; 575] 20 [1; 0; 0] 1 RESTITUTION FRIC_COEFF EPSILON = Ok c /\ b_forces c = []) by (unfold circle_init, body_init; cbn [to_v3 bind]; eexists; split; reflexivity).
  destruct Ec as (c & Ec & Fc). destruct Ek as (k & Ek & Fk). rnum. rewrite Ec. cbn [bind]. unfold add_force. rewrite nth_error_last. cbn [bind]. rewrite upd_last, Fc, Ek. cbn [bind fst snd set_body app].
  pose proof (disc_item 10 [9%nat] c 50 500 0 (9 / 10) ltac:(lia) eq_refl eq_refl eq_refl Ec) as Dc.
  assert (Dk : item 11 k). { pose proof (disc_item 11 [] k 975 575 1 RESTITUTION ltac:(lia) eq_refl eq_refl eq_refl Ek) as D. destruct k. cbn in Fk. subst. exact D. }
  rewrite repeat_length. rewrite exclude_ops. set (l := r0 :: rs ++ [with_forces c [9%nat]; k]).
  assert (Ll : length l = 12%nat) by (unfold l; cbn [length]; rewrite app_length, L; reflexivity).
  assert (Ql : forall i b, nth_error l i = Some b -> item i b).
  { intros [|i] b Hb; [cbn in Hb; injection Hb as <-; exact D0|]. unfold l in Hb. cbn [nth_error] in Hb. destruct (Nat.lt_ge_cases i 9) as [Hi|Hi].
    - rewrite nth_error_app1 in Hb by lia. exact (Q i b Hb).
    - rewrite nth_error_app2, L in Hb by lia. destruct (i - 9)%nat as [|[|j]] eqn:Ei; cbn in Hb.
      + injection Hb as <-. replace (S i) with 10%nat by lia. exact Dc.
      + injection Hb as <-. replace (S i) with 11%nat by lia. exact Dk.
      + destruct j; discriminate Hb. }
  exists (no_contact_ops l chain_pairs). split.
  - constructor.
    + now rewrite nc_ops_length.
    + intros i b Hb. destruct (Forall2_nth _ _ _ _ _ (nc_ops_like l chain_pairs) Hb) as (a & Ha & Hl). exact (item_like _ _ _ Hl (Ql _ _ Ha)).
    + eauto.
  - assert (Ex : forall kd, axis_init kd r0 = axis_init kd (ideal 0)).
    { intros kd. unfold axis_init, b_pos, b_rot. rewrite (sl_p _ _ _ _ _ _ B0), (sl_id _ _ _ _ _ _ B0). reflexivity. }
    unfold chain_js, x_init, y_init. rewrite !Ex. unfold chain_heap. reflexivity.
Qed.

(** *** nothing touches *)
Lemma item_upright i b b' : (i < 10)%nat -> item i b -> moved b b' -> b_p b' = link_place i -> upright b' (Box 290 310 (20 + 50 * INR i) (80 + 50 * INR i)).
Proof.
  intros Hi B M Hp. assert (L : (i <? 10)%nat = true) by (now apply Nat.ltb_lt). pose proof (it_kind _ _ B) as K. rewrite L in K. pose proof (it_p _ _ B) as P. unfold begin in P. rewrite L in P. cbn [fst] in P.
  destruct (moved_rel _ rigid_steps _ _ M) as (_ & V & C); [apply shape_poly_wf, available_shape, (it_available _ _ B)|].
  exists 300, (50 + 50 * INR i), 20, 60. split; [apply box_eq; lra|]. split; [lra|]. split; [lra|]. split; [exact Hp|].
  unfold moved_rigidly in V. unfold b_rot in V. rewrite Hp, P in V. unfold link_place in V. cbn [fst] in V. rewrite Rminus_0_r, map_rotate_0 in V.
  split; [rewrite V; unfold b_verts; now rewrite K|]. unfold same_class in C. rewrite K in C. unfold is_circle. destruct (b_kind b'); tauto.
Qed.
Lemma item_round i b b' c : (10 <= i)%nat -> item i b -> moved b b' -> b_pos b' = c -> round b' c 20.
Proof.
  intros Hi B M Hp. assert (L : (i <? 10)%nat = false) by (now apply Nat.ltb_ge). pose proof (it_kind _ _ B) as K. rewrite L in K.
  destruct (moved_rel _ rigid_steps _ _ M) as (_ & _ & C); [unfold poly_wf; now rewrite K|].
  split; [|exact Hp]. unfold same_class in C. rewrite K in C. destruct (b_kind b'); try tauto. now rewrite C.
Qed.
Lemma rig_clear bs gf o (a : world R) x y : rig bs -> broadphase_sane o -> Forall2 moved bs (w_bodies a) -> w_eps a = 1 / 10 ->
  (forall i b, (i < 10)%nat -> nth_error (w_bodies a) i = Some b -> b_p b = link_place i) -> (forall b, nth_error (w_bodies a) 10 = Some b -> b_pos b = (x, y)) ->
  (forall b, nth_error (w_bodies a) 11 = Some b -> b_pos b = (975, 575)) -> x + 20 + 1 / 10 < 290 ->
  contacts_current o (diff_handler gf o) a -> w_contacts a = [].
Proof.
  intros Ch Ho Mv Eps Hl Hs Hk Hx Cu. destruct (w_contacts a) as [|c cs] eqn:Ec; [reflexivity|exfalso].
  assert (Hc : In c (w_contacts a)) by (rewrite Ec; now left). clear Ec cs.
  destruct (current_report _ _ _ _ Cu Hc Ho) as (Hne & L1 & L2 & new & Hin & Hrep). assert (La : length (w_bodies a) = 12%nat) by (rewrite <- (rg_len _ Ch); symmetry; eapply BodyReach.Forall2_len; eauto).
  rewrite La in L1, L2. destruct (nth_error (w_bodies a) (c_i1 c)) as [b1|] eqn:B1; [|apply nth_error_None in B1; lia]. destruct (nth_error (w_bodies a) (c_i2 c)) as [b2|] eqn:B2; [|apply nth_error_None in B2; lia].
  destruct Hrep as (clk & bs0 & bs1 & clk1 & Hst & Hd). destruct (still_nth _ _ _ _ Hst B1) as (a1 & A1 & E1). destruct (still_nth _ _ _ _ Hst B2) as (a2 & A2 & E2). rewrite Eps in Hd.
  destruct (Forall2_nth _ _ _ _ _ Mv B1) as (d1 & D1 & M1). destruct (Forall2_nth _ _ _ _ _ Mv B2) as (d2 & D2 & M2).
  assert (U : forall i b d e, (i < 10)%nat -> nth_error (w_bodies a) i = Some b -> nth_error bs i = Some d -> moved d b -> still e = still b -> upright e (Box 290 310 (20 + 50 * INR i) (80 + 50 * INR i))).
  { intros i b d e Hi Hb Hdi Hm He. apply (upright_still b); [now symmetry|]. eapply item_upright; [exact Hi|exact (rg_item _ Ch i d Hdi)|exact Hm|exact (Hl i b Hi Hb)]. }
  assert (RR : forall i b d e, (10 <= i < 12)%nat -> nth_error (w_bodies a) i = Some b -> nth_error bs i = Some d -> moved d b -> still e = still b ->
    exists q, round e q 20 /\ b_pos b = q /\ is_circle b = true /\ b_rad b = 20 /\ (i = 10%nat /\ q = (x, y) \/ i = 11%nat /\ q = (975, 575))).
  { intros i b d e Hi Hb Hdi Hm He. pose proof (item_round i d b (b_pos b) ltac:(lia) (rg_item _ Ch i d Hdi) Hm eq_refl) as Rd. exists (b_pos b). split; [apply (round_still b); [now symmetry|exact Rd]|]. split; [reflexivity|].
    destruct Rd as [K _]. split; [unfold is_circle; now rewrite K|]. split; [unfold b_rad; now rewrite K|]. assert (Q : (i = 10 \/ i = 11)%nat) by lia. destruct Q as [Q|Q]; subst i; [left|right]; split; auto. }
  assert (Fa : forall i q j, i = 10%nat /\ q = (x, y) \/ i = 11%nat /\ q = (975, 575) -> far (1 / 10) (Disc q 20) (Box 290 310 (20 + 50 * INR j) (80 + 50 * INR j))).
  { intros i q j Q. destruct Q as [Q|Q]; destruct Q as [_ Q]; subst q; [left|right; left]; cbn; lra. }
  assert (Nc : forall i j, In (i, j) chain_pairs -> (i = c_i1 c /\ j = c_i2 c \/ i = c_i2 c /\ j = c_i1 c) -> False).
  { intros i j Hij Hor. assert (Hij' : i <> j) by lia.
    destruct (rg_excl _ Ch) as (bz & Lz & Ebz).
    unfold diff_handler, get_body in Hd. rewrite A1, A2 in Hd. cbn [bind] in Hd.
    assert (Xa : forall e b d, still e = still b -> moved d b -> excl e = excl d).
    { intros e b d He Hm. rewrite <- (moved_excl _ _ Hm). apply (f_equal excl) in He. unfold still in He. now rewrite !excl_with_v, !excl_forget in He. }
    pose proof (Xa _ _ _ E1 M1) as X1. pose proof (Xa _ _ _ E2 M2) as X2.
    assert (In (b_id d1) (g_no_contact (b_geom d2))) as Hn.
    { rewrite Ebz in D1, D2. destruct Hor as [[I1 I2]|[I1 I2]]; subst i j.
      - destruct (nc_ops_excluded bz chain_pairs (c_i1 c) (c_i2 c) Hij ltac:(lia) ltac:(lia) Hij' _ _ D1 D2) as [Q1 Q2]. auto.
      - destruct (nc_ops_excluded bz chain_pairs (c_i2 c) (c_i1 c) Hij ltac:(lia) ltac:(lia) Hij' _ _ D2 D1) as [Q1 Q2]. auto. }
    assert (Y : existsb (Nat.eqb (b_id a1)) (g_no_contact (b_geom a2)) = true).
    { unfold excl in X1, X2. injection X1 as -> _. injection X2 as _ ->. apply existsb_exists. exists (b_id d1). split; [exact Hn|apply Nat.eqb_refl]. }
    rewrite Y in Hd. injection Hd as <- _ _. destruct Hin. }
  assert (Ap : forall i j, (S i < j)%nat -> apart (1 / 10) (Box 290 310 (20 + 50 * INR i) (80 + 50 * INR i)) (Box 290 310 (20 + 50 * INR j) (80 + 50 * INR j))).
  { intros i j Hij. right. right. left. apply le_INR in Hij. rewrite !S_INR in Hij. lra. }
  assert (P20 : 0 <= 20) by lra.
  assert (I1 : (c_i1 c < 10 \/ 10 <= c_i1 c < 12)%nat) by lia. assert (I2 : (c_i2 c < 10 \/ 10 <= c_i2 c < 12)%nat) by lia. destruct I1 as [I1|I1], I2 as [I2|I2].
  - pose proof (U _ _ _ _ I1 B1 D1 M1 E1) as U1. pose proof (U _ _ _ _ I2 B2 D2 M2 E2) as U2.
    destruct (Nat.lt_total (c_i1 c) (c_i2 c)) as [L|[L|L]]; [|lia|].
    + destruct (Nat.eq_dec (c_i2 c) (S (c_i1 c))) as [Q|Q]; [apply (Nc (c_i2 c) (c_i1 c)); [now apply pairs_in|auto]|].
      assert (G : (S (c_i1 c) < c_i2 c)%nat) by lia. rewrite (apart_handler _ _ _ _ _ _ _ _ _ _ _ _ _ _ A1 A2 U1 U2 (Ap _ _ G) Hd) in Hin. destruct Hin.
    + destruct (Nat.eq_dec (c_i1 c) (S (c_i2 c))) as [Q|Q]; [apply (Nc (c_i1 c) (c_i2 c)); [now apply pairs_in|auto]|].
      assert (G : (S (c_i2 c) < c_i1 c)%nat) by lia. rewrite (apart_handler _ _ _ _ _ _ _ _ _ _ _ _ _ _ A1 A2 U1 U2 (apart_sym _ _ _ (Ap _ _ G)) Hd) in Hin. destruct Hin.
  - pose proof (U _ _ _ _ I1 B1 D1 M1 E1) as U1. destruct (RR _ _ _ _ I2 B2 D2 M2 E2) as (q & Rq & _ & _ & _ & Q).
    rewrite (far_handler _ _ _ _ _ _ _ _ _ q 20 _ _ _ _ P20 Rq U1 (Fa _ _ _ Q) (or_intror (conj A1 A2)) Hd) in Hin. destruct Hin.
  - pose proof (U _ _ _ _ I2 B2 D2 M2 E2) as U2. destruct (RR _ _ _ _ I1 B1 D1 M1 E1) as (q & Rq & _ & _ & _ & Q).
    rewrite (far_handler _ _ _ _ _ _ _ _ _ q 20 _ _ _ _ P20 Rq U2 (Fa _ _ _ Q) (or_introl (conj A1 A2)) Hd) in Hin. destruct Hin.
  - destruct (RR _ _ _ _ I1 B1 D1 M1 E1) as (q1 & _ & Q1 & C1 & R1 & W1). destruct (RR _ _ _ _ I2 B2 D2 M2 E2) as (q2 & _ & Q2 & C2 & R2 & W2).
    assert (Hdist : 60 < dist q1 q2).
    { assert (Gen : forall u v u' v', 60 < Rabs (u - u') -> 60 < dist (u, v) (u', v')).
      { intros u v u' v' H. unfold dist. cbn [fst snd]. eapply Rlt_le_trans; [exact H|]. rewrite <- sqrt_Rsqr_abs. apply sqrt_le_1_alt. unfold Rsqr. pose proof (Rle_0_sqr (v - v')) as Sq. unfold Rsqr in Sq. lra. }
      destruct W1 as [W1|W1], W2 as [W2|W2]; destruct W1 as [J1 ->], W2 as [J2 ->]; try (exfalso; lia); apply Gen; [rewrite Rabs_left|rewrite Rabs_right]; lra. }
    destruct (current_circles gf o a c b1 b2 Cu Hc B1 B2 C1 C2) as [Q _].
    + rewrite Q1, Q2. intros E. rewrite E in Hdist. unfold dist in Hdist. rewrite !Rminus_diag_eq, Rmult_0_l, Rplus_0_l, sqrt_0 in Hdist by reflexivity. lra.
    + unfold gap in Q. rewrite R1, R2, Q1, Q2, Eps in Q. lra.
Qed.
