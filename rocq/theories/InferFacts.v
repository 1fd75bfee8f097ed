(** The world of the mass-inference experiment (proofs for C80) *)
From Coq Require Import List Arith ZArith Lia Bool Reals Lra.
From Verif Require Import Num Tensor Utils Bodies Forces Constraints Contacts World Lapack Engines Game Infer
     Spec GeoSpec BodySpec JointSpec FreshSpec ContactSpec LapackSpec EngineSpec GameSpec StaticsSpec InferSpec ResFacts RBase BodyFacts RigidFacts GeomFacts BodyReach WorldFacts HandlerFacts
     LayoutFacts HistFacts SatFacts FreshFacts CollideFacts EngineFacts JointFacts JeFacts MomentumFacts FlightFacts EngineProps EngineMore SceneInit RunTotal GameFacts GameProps GameStart GameFree.
Import ListNotations.
Open Scope R_scope.

(** *** the links *)
Record beam (mass : R) (n i : nat) (b : body R) : Prop := {
  be_available : available b;
  be_kind : b_kind b = KRect (20, 60) (corners 20 60) 0;
  be_p : b_p b = link_place i;
  be_id : b_id b = i;
  be_v : b_v b = (0, (0, 0));
  be_mass : b_mass b = mass / INR n;
  be_inertia : b_inertia b = mass / INR n * (4000 / 12);
  be_surface : b_rest b = 1 / 2 /\ b_fric b = 9 / 10 }.
Lemma beam_like mass n i b b' : like b b' -> beam mass n i b -> beam mass n i b'.
Proof. intros L [A K P I V M J Su]. pose proof (like_available _ _ L A) as A'. destruct L as [nc ->]. constructor; auto. Qed.
Lemma beam_forces mass n i b fs : beam mass n i b -> beam mass n i (with_forces b fs).
Proof.
  intros [(b0 & ops & H & E) K P I V M J Su]. constructor; auto. exists b0, (ops ++ [BForces fs]). split; [exact H|]. unfold bexec in *. rewrite fold_left_app, <- E. reflexivity.
Qed.
Lemma place_eq i : (300, 50 + 50 * INR i) = (nofZ 300, nofZ (50 + 50 * Z.of_nat i)) :> v2 R.
Proof. rnum. rewrite plus_IZR, mult_IZR, INR_IZR_INZ. reflexivity. Qed.
Lemma link_ok (mass : R) n i : exists b, link mass n i = Ok b /\ beam mass n i b /\ b_forces b = [].
Proof.
  unfold link. rnum.
  assert (E : exists b, rect_init (T := R) i [300; IZR (50 + 50 * Z.of_nat i)] (20, 60) [0; 0; 0] (mass / IZR (Z.of_nat n)) RESTITUTION FRIC_COEFF EPSILON = Ok b).
  { unfold rect_init, hull_init_gen. rewrite rect_verts_corners. cbn [to_v3 bind length corners Nat.ltb Nat.leb andb Nat.eqb].
    assert (C : is_clockwise (corners (fst (20, 60)) (snd (20, 60))) = true) by (apply is_clockwise_area; rewrite corners_area; cbn; nra).
    unfold corners in *. rewrite C. cbn. eexists. reflexivity. }
  destruct E as [b E]. exists b. split; [exact E|]. assert (Cb : constructed b) by (right; right; do 8 eexists; exact E).
  pose proof (rect_init_inv _ _ _ _ _ _ _ _ _ E) as (p & Ep & _ & Hp & Hm & Hi & Hv & Hk & Hid & Hf & Hr & _ & Hvel).
  cbn in Ep. injection Ep as <-. cbn [fst snd] in *. assert (H0 : b_rot b = 0) by (unfold b_rot; rewrite Hp; reflexivity).
  rewrite H0, map_rotate_0 in Hv. rewrite Hv in Hk. cbn in Hvel. injection Hvel as Hvel.
  split; [|now apply constructed_forces]. constructor; auto.
  - exists b, []. split; [exact Cb|reflexivity].
  - rewrite Hp. unfold link_place. rewrite place_eq. reflexivity.
  - rewrite Hm, INR_IZR_INZ. reflexivity.
  - rewrite Hi, INR_IZR_INZ. lra.
Qed.
Definition weight (mass : R) (n : nat) : v3 R := (0, (0, mass / INR n * 100)).
Definition pull (mass : R) (n : nat) : forceobj R := FGrav 100 (Some (weight mass n)).

(** the joint between the links at [i] and at [i - 1] *)
Definition ideal (i : nat) : body R := mkBody i (KCircle 0) (link_place i) v3zero 0 0 0 0 0 [] (mkGeom (GSphere 0) (0, 0) None []).
Definition hinge (i : nat) : joint R := joint_init (ideal i) (Some (ideal (i - 1))) (300, 25 + 50 * INR i).
Definition nail : joint R := joint_init (ideal 0) None (300, 30).
Lemma upd_last {A} (l : list A) x y : upd (l ++ [x]) (length l) y = l ++ [y].
Proof. induction l as [|a l IH]; [reflexivity|]. cbn. now rewrite IH. Qed.
Lemma nth_error_last {A} (l : list A) x : nth_error (l ++ [x]) (length l) = Some x.
Proof. rewrite nth_error_app2, Nat.sub_diag by lia. reflexivity. Qed.
Lemma anchor_eq i : (nofZ 300, nofZ (25 + 50 * Z.of_nat i)) = (300, 25 + 50 * INR i) :> v2 R.
Proof. rnum. rewrite plus_IZR, mult_IZR, INR_IZR_INZ. reflexivity. Qed.
Lemma links_ok (mass : R) n m : forall s h prev, (0 < s)%nat -> b_pos prev = snd (link_place (s - 1)) -> b_id prev = (s - 1)%nat ->
  exists rs, links mass n (seq s m) h prev = Ok (h ++ repeat (pull mass n) m, rs, map hinge (seq s m)) /\ length rs = m /\
    forall k b, nth_error rs k = Some b -> beam mass n (s + k) b /\ b_forces b = [(length h + k)%nat].
Proof.
  induction m as [|m IH]; intros s h prev Hs Hp Hi.
  - exists []. cbn. rewrite app_nil_r. split; [reflexivity|]. split; [reflexivity|]. intros [|k] b E; discriminate.
  - cbn [seq links]. destruct (link_ok mass n s) as (r & E & B & F). rewrite E. cbn [bind]. unfold add_force. rewrite nth_error_last. cbn [bind].
    rewrite upd_last. set (r1 := with_forces r (b_forces r ++ [length h])). pose proof (beam_forces _ _ _ _ (b_forces r ++ [length h]) B) as B1. fold r1 in B1.
    destruct (IH (S s) (h ++ [set_body (FGrav (nofZ 100) None) (b_mass r)]) r1) as (rs & E2 & L & Q).
    { lia. } { unfold b_pos. rewrite (be_p _ _ _ _ B1). f_equal. f_equal. lia. } { rewrite (be_id _ _ _ _ B1). lia. }
    rewrite E2. cbn [bind]. exists (r1 :: rs). split; [|split].
    + apply f_equal. apply f_equal2; [apply f_equal2|].
      * rewrite <- app_assoc. f_equal. cbn [app repeat]. apply f_equal2; [|reflexivity]. unfold pull, weight, set_body. rewrite (be_mass _ _ _ _ B). unfold v3mulr, DOWN. cbn [fst snd]. rnum. f_equal. f_equal. apply f_equal2; [ring|apply f_equal2; ring].
      * reflexivity.
      * cbn [map]. apply f_equal2; [|reflexivity]. unfold hinge, joint_init. rewrite anchor_eq.
        assert (P1 : b_pos r1 = b_pos (ideal s)) by (unfold b_pos; rewrite (be_p _ _ _ _ B1); reflexivity). assert (P2 : b_pos prev = b_pos (ideal (s - 1))) by exact Hp.
        rewrite P1, P2, Hi, (be_id _ _ _ _ B1). reflexivity.
    + cbn. lia.
    + intros [|k] b Ek.
      * cbn in Ek. injection Ek as <-. rewrite Nat.add_0_r. split; [exact B1|]. unfold r1. cbn. rewrite F, Nat.add_0_r. reflexivity.
      * destruct (Q k b Ek) as [Q1 Q2]. replace (s + S k)%nat with (S s + k)%nat by lia. split; [exact Q1|]. rewrite Q2, app_length. cbn. f_equal. lia.
Qed.

(** *** the projectile *)
Record bullet (n : nat) (b : body R) : Prop := {
  bu_available : available b;
  bu_kind : b_kind b = KCircle 20;
  bu_p : b_p b = (0, (50, 50 + 50 * INR (n - 1)));
  bu_id : b_id b = n;
  bu_v : b_v b = (0, (0, 0));
  bu_mass : b_mass b = 1;
  bu_inertia : b_inertia b = 200;
  bu_surface : b_rest b = 1 /\ b_fric b = 9 / 10 }.
Lemma bullet_like n b b' : like b b' -> bullet n b -> bullet n b'.
Proof. intros L [A K P I V M J Su]. pose proof (like_available _ _ L A) as A'. destruct L as [nc ->]. constructor; auto. Qed.
Lemma bullet_forces n b fs : bullet n b -> bullet n (with_forces b fs).
Proof.
  intros [(b0 & ops & H & E) K P I V M J Su]. constructor; auto. exists b0, (ops ++ [BForces fs]). split; [exact H|]. unfold bexec in *. rewrite fold_left_app, <- E. reflexivity.
Qed.
Lemma bullet_ok n y : y = 50 + 50 * INR (n - 1) -> exists b, circle_init (T := R) n [nofZ 50; y] (nofZ 20) [0; 0; 0] 1 1 FRIC_COEFF EPSILON = Ok b /\ bullet n b /\ b_forces b = [].
Proof.
  intros ->. rnum. unfold circle_init, body_init. cbn [to_v3 bind]. eexists. split; [reflexivity|]. split; [|reflexivity]. constructor; try reflexivity.
  - eexists _, []. split; [|reflexivity]. left. exists n, [50; 50 + 50 * INR (n - 1)], 20, [0; 0; 0], 1, 1, FRIC_COEFF, EPSILON. reflexivity.
  - cbn. unfold circle_inertia. rnum. lra.
  - cbn. unfold FRIC_COEFF. rnum. auto.
Qed.
Definition engines (fs : list (R -> v3 R)) : list (forceobj R) := map (fun f => FExt f 1500) fs.
Lemma push_ok n fs : forall h b k, bullet n b -> b_forces b = seq k (length h - k) -> (k <= length h)%nat ->
  exists b', push fs h b = Ok (h ++ engines fs, b') /\ bullet n b' /\ b_forces b' = seq k (length h - k + length fs).
Proof.
  induction fs as [|f fs IH]; intros h b k B F Hk; cbn [push engines map].
  - exists b. rewrite app_nil_r, Nat.add_0_r. auto.
  - unfold add_force. rewrite nth_error_last. cbn [bind]. rewrite upd_last. cbn [set_body].
    destruct (IH (h ++ [FExt f (nofZ 1500)]) (with_forces b (b_forces b ++ [length h])) k) as (b' & E & B' & F').
    + now apply bullet_forces.
    + cbn [b_forces with_forces]. rewrite app_length, F. cbn [length]. replace (length h + 1 - k)%nat with (S (length h - k)) by lia. rewrite seq_S. f_equal. f_equal. lia.
    + rewrite app_length. cbn. lia.
    + exists b'. rewrite E, <- app_assoc. split; [reflexivity|]. split; [exact B'|]. rewrite F', app_length. cbn [length]. f_equal. lia.
Qed.

Lemma last_nth {A} (l : list A) d : l <> [] -> nth_error l (length l - 1) = Some (last l d).
Proof.
  induction l as [|a [|b l] IH]; intros H; [congruence|reflexivity|]. replace (length (a :: b :: l) - 1)%nat with (S (length (b :: l) - 1)) by (cbn; lia). cbn [nth_error]. rewrite IH by discriminate. reflexivity.
Qed.
(** *** the whole world *)
Definition pairs_of (n : nat) : list (nat * nat) := map (fun i => (i, i - 1)%nat) (seq 1 (n - 1)).
Definition chain_heap (fs : list (R -> v3 R)) (mass : R) (n : nat) : fheap R := repeat (pull mass n) (n - 1) ++ engines fs.
Definition chain_joints (n : nat) : list (joint R) := nail :: map hinge (seq 1 (n - 1)).
Record chained (fs : list (R -> v3 R)) (mass : R) (n : nat) (bs : list (body R)) : Prop := {
  ch_len : length bs = S n;
  ch_link : forall i b, (i < n)%nat -> nth_error bs i = Some b -> beam mass n i b /\ b_forces b = match i with O => [] | S k => [k] end;
  ch_shot : forall b, nth_error bs n = Some b -> bullet n b /\ b_forces b = seq (n - 1) (length fs);
  ch_excl : exists bs0, bs = no_contact_ops bs0 (pairs_of n) }.
Lemma make_world_chain o hd fs (mass : R) n : (1 <= n)%nat -> exists bs, chained fs mass n bs /\
  make_world o hd fs mass n = world_init o hd (chain_heap fs mass n) bs (chain_joints n) STEP EPSILON TOL 2 true true.
Proof.
  intros Hn. unfold make_world. destruct (link_ok mass n 0) as (r0 & E0 & B0 & F0). rewrite E0. cbn [bind].
  destruct (links_ok mass n (n - 1) 1 [] r0) as (rs & E1 & L & Q); [lia|unfold b_pos; now rewrite (be_p _ _ _ _ B0)|exact (be_id _ _ _ _ B0)|].
  rewrite E1. cbn [bind app]. assert (Ln : length (r0 :: rs) = n) by (cbn; lia). rewrite Ln.
  assert (Qs : forall i b, nth_error (r0 :: rs) i = Some b -> beam mass n i b /\ b_forces b = match i with O => [] | S k => [k] end).
  { intros [|i] b Hb; [cbn in Hb; injection Hb as <-; auto|]. exact (Q i b Hb). }
  assert (Ey : snd (b_pos (last (r0 :: rs) r0)) = 50 + 50 * INR (n - 1)).
  { assert (E : nth_error (r0 :: rs) (n - 1) = Some (last (r0 :: rs) r0)).
    { rewrite <- Ln. apply last_nth. discriminate. }
    destruct (Qs _ _ E) as [B _]. unfold b_pos. rewrite (be_p _ _ _ _ B). reflexivity. }
  destruct (bullet_ok n _ Ey) as (c & Ec & Bc & Fc). rnum. rewrite Ec. cbn [bind].
  destruct (push_ok n fs (repeat (pull mass n) (n - 1)) c (n - 1)) as (c' & Ep & Bc' & Fc').
  { exact Bc. } { rewrite repeat_length, Nat.sub_diag. exact Fc. } { now rewrite repeat_length. }
  rewrite Ep. cbn [bind]. rewrite repeat_length, Nat.sub_diag in Fc'. rewrite exclude_ops. exists (no_contact_ops ((r0 :: rs) ++ [c']) (pairs_of n)). split.
  - pose proof (nc_ops_like ((r0 :: rs) ++ [c']) (pairs_of n)) as Lk. constructor.
    + rewrite nc_ops_length, app_length, Ln. cbn. lia.
    + intros i b Hi Hb. destruct (Forall2_nth _ _ _ _ _ Lk Hb) as (a & Ha & Hl). rewrite nth_error_app1 in Ha by (rewrite Ln; exact Hi). destruct (Qs _ _ Ha) as [Q1 Q2].
      split; [exact (beam_like _ _ _ _ _ Hl Q1)|]. destruct Hl as [nc ->]. exact Q2.
    + intros b Hb. destruct (Forall2_nth _ _ _ _ _ Lk Hb) as (a & Ha & Hl). rewrite nth_error_app2, Ln, Nat.sub_diag in Ha by lia. cbn in Ha. injection Ha as <-.
      split; [exact (bullet_like _ _ _ Hl Bc')|]. destruct Hl as [nc ->]. exact Fc'.
    + eauto.
  - unfold chain_joints, nail, joint_init. assert (P0 : b_pos r0 = b_pos (ideal 0)) by (unfold b_pos; rewrite (be_p _ _ _ _ B0); reflexivity).
    rewrite P0, (be_id _ _ _ _ B0). reflexivity.
Qed.

(** *** nothing touches *)
Lemma moved_rel RB (H : body_steps RB) (b b' : body R) : moved b b' -> RB b b'.
Proof.
  intros [ps E]. assert (F : RB b (fold_left set_p ps b)).
  { clear E. revert b. induction ps as [|p ps IH]; intros b; [now apply bs_refl|]. cbn [fold_left]. eapply (bs_trans _ H); [apply (bs_p _ H)|apply IH]. }
  assert (FF : forall x : body R, forget (forget x) = forget x) by (intros x; unfold forget, set_last; destruct x as [? k ? ? ? ? ? ? ? ? ?]; now destruct k).
  assert (FV : forall (x : body R) v, forget (with_v x v) = with_v (forget x) v) by (intros x v; unfold forget, set_last; destruct x as [? k ? ? ? ? ? ? ? ? ?]; now destruct k).
  eapply (bs_trans _ H); [exact F|]. set (x := fold_left set_p ps b) in *.
  eapply (bs_trans _ H); [apply (bs_forget _ H x (forget x)); symmetry; apply FF|]. eapply (bs_trans _ H); [apply (bs_v _ H _ v3zero)|]. change (with_v (forget x) v3zero) with (still x). rewrite <- E.
  eapply (bs_trans _ H); [apply (bs_v _ H _ (b_v b'))|]. apply (bs_forget _ H). unfold still. rewrite FV, FV, FF, <- FV. unfold forget, set_last. destruct b' as [? k ? ? ? ? ? ? ? ? ?]. now destruct k.
Qed.
Lemma moved_excl (b b' : body R) : moved b b' -> excl b' = excl b.
Proof.
  intros [ps E]. apply (f_equal excl) in E. unfold still in E. rewrite !excl_with_v, !excl_forget in E. rewrite E. clear. revert b. induction ps as [|p ps IH]; intros b; [reflexivity|]. cbn [fold_left]. now rewrite IH, excl_set_p.
Qed.
Lemma beam_upright mass n i b b' : beam mass n i b -> moved b b' -> b_p b' = link_place i -> upright b' (Box 290 310 (20 + 50 * INR i) (80 + 50 * INR i)).
Proof.
  intros B M Hp. destruct (moved_rel _ rigid_steps _ _ M) as (_ & V & C); [apply shape_poly_wf, available_shape, (be_available _ _ _ _ B)|].
  exists 300, (50 + 50 * INR i), 20, 60. split; [apply box_eq; lra|]. split; [lra|]. split; [lra|]. split; [exact Hp|].
  unfold moved_rigidly in V. unfold b_rot in V. rewrite Hp, (be_p _ _ _ _ B) in V. unfold link_place in V. cbn [fst] in V. rewrite Rminus_0_r, map_rotate_0 in V.
  split; [rewrite V; unfold b_verts; now rewrite (be_kind _ _ _ _ B)|]. unfold same_class in C. rewrite (be_kind _ _ _ _ B) in C. unfold is_circle. destruct (b_kind b'); tauto.
Qed.
Lemma bullet_round n b b' c : bullet n b -> moved b b' -> b_pos b' = c -> round b' c 20.
Proof.
  intros B M Hp. destruct (moved_rel _ rigid_steps _ _ M) as (_ & _ & C); [unfold poly_wf; now rewrite (bu_kind _ _ B)|].
  split; [|exact Hp]. unfold same_class in C. rewrite (bu_kind _ _ B) in C. destruct (b_kind b'); try tauto. now rewrite C.
Qed.
Lemma pairs_in n i j : (i < n)%nat -> (i = S j)%nat -> In (i, j) (pairs_of n).
Proof. intros Hi ->. unfold pairs_of. apply in_map_iff. exists (S j). split; [f_equal; lia|]. apply in_seq. lia. Qed.
Lemma chain_clear fs mass n bs gf o (a : world R) x y : chained fs mass n bs -> broadphase_sane o -> Forall2 moved bs (w_bodies a) -> w_eps a = 1 / 10 ->
  (forall i b, (i < n)%nat -> nth_error (w_bodies a) i = Some b -> b_p b = link_place i) -> (forall b, nth_error (w_bodies a) n = Some b -> b_pos b = (x, y)) -> x + 20 + 1 / 10 < 290 ->
  contacts_current o (diff_handler gf o) a -> w_contacts a = [].
Proof.
  intros Ch Ho Mv Eps Hl Hs Hx Cu. destruct (w_contacts a) as [|c cs] eqn:Ec; [reflexivity|exfalso].
  assert (Hc : In c (w_contacts a)) by (rewrite Ec; now left). clear Ec cs.
  destruct (current_report _ _ _ _ Cu Hc Ho) as (Hne & L1 & L2 & new & Hin & Hrep). assert (La : length (w_bodies a) = S n) by (rewrite <- (ch_len _ _ _ _ Ch); symmetry; eapply BodyReach.Forall2_len; eauto).
  rewrite La in L1, L2. destruct (nth_error (w_bodies a) (c_i1 c)) as [b1|] eqn:B1; [|apply nth_error_None in B1; lia]. destruct (nth_error (w_bodies a) (c_i2 c)) as [b2|] eqn:B2; [|apply nth_error_None in B2; lia].
  destruct Hrep as (clk & bs0 & bs1 & clk1 & Hst & Hd). destruct (still_nth _ _ _ _ Hst B1) as (a1 & A1 & E1). destruct (still_nth _ _ _ _ Hst B2) as (a2 & A2 & E2). rewrite Eps in Hd.
  destruct (Forall2_nth _ _ _ _ _ Mv B1) as (d1 & D1 & M1). destruct (Forall2_nth _ _ _ _ _ Mv B2) as (d2 & D2 & M2).
  assert (U : forall i b d e, (i < n)%nat -> nth_error (w_bodies a) i = Some b -> nth_error bs i = Some d -> moved d b -> still e = still b -> upright e (Box 290 310 (20 + 50 * INR i) (80 + 50 * INR i))).
  { intros i b d e Hi Hb Hdi Hm He. apply (upright_still b); [now symmetry|]. eapply beam_upright; [exact (proj1 (ch_link _ _ _ _ Ch i d Hi Hdi))|exact Hm|exact (Hl i b Hi Hb)]. }
  assert (RR : forall b d e, nth_error (w_bodies a) n = Some b -> nth_error bs n = Some d -> moved d b -> still e = still b -> round e (x, y) 20).
  { intros b d e Hb Hdi Hm He. apply (round_still b); [now symmetry|]. eapply bullet_round; [exact (proj1 (ch_shot _ _ _ _ Ch d Hdi))|exact Hm|exact (Hs b Hb)]. }
  assert (Fa : forall i, far (1 / 10) (Disc (x, y) 20) (Box 290 310 (20 + 50 * INR i) (80 + 50 * INR i))) by (intros i; left; cbn; lra).
  assert (Nc : forall i j, In (i, j) (pairs_of n) -> (i = c_i1 c /\ j = c_i2 c \/ i = c_i2 c /\ j = c_i1 c) -> False).
  { intros i j Hij Hor. assert (Hij' : i <> j) by lia.
    destruct (ch_excl _ _ _ _ Ch) as (bz & Ebz). assert (Lz : length bz = S n) by (rewrite <- (ch_len _ _ _ _ Ch), Ebz; symmetry; apply nc_ops_length).
    unfold diff_handler, get_body in Hd. rewrite A1, A2 in Hd. cbn [bind] in Hd.
    assert (Xa : forall e b d, still e = still b -> moved d b -> excl e = excl d).
    { intros e b d He Hm. rewrite <- (moved_excl _ _ Hm). apply (f_equal excl) in He. unfold still in He. now rewrite !excl_with_v, !excl_forget in He. }
    pose proof (Xa _ _ _ E1 M1) as X1. pose proof (Xa _ _ _ E2 M2) as X2.
    assert (In (b_id d1) (g_no_contact (b_geom d2))) as Hn.
    { rewrite Ebz in D1, D2. destruct Hor as [[I1 I2]|[I1 I2]]; subst i j.
      - destruct (nc_ops_excluded bz (pairs_of n) (c_i1 c) (c_i2 c) Hij ltac:(lia) ltac:(lia) Hij' _ _ D1 D2) as [Q1 Q2]. auto.
      - destruct (nc_ops_excluded bz (pairs_of n) (c_i2 c) (c_i1 c) Hij ltac:(lia) ltac:(lia) Hij' _ _ D2 D1) as [Q1 Q2]. auto. }
    assert (Y : existsb (Nat.eqb (b_id a1)) (g_no_contact (b_geom a2)) = true).
    { unfold excl in X1, X2. injection X1 as -> _. injection X2 as _ ->. apply existsb_exists. exists (b_id d1). split; [exact Hn|apply Nat.eqb_refl]. }
    rewrite Y in Hd. injection Hd as <- _ _. destruct Hin. }
  assert (Ap : forall i j, (S i < j)%nat -> apart (1 / 10) (Box 290 310 (20 + 50 * INR i) (80 + 50 * INR i)) (Box 290 310 (20 + 50 * INR j) (80 + 50 * INR j))).
  { intros i j Hij. right. right. left. apply le_INR in Hij. rewrite !S_INR in Hij. lra. }
  assert (P20 : 0 <= 20) by lra.
  assert (I1 : (c_i1 c < n \/ c_i1 c = n)%nat) by lia. assert (I2 : (c_i2 c < n \/ c_i2 c = n)%nat) by lia. destruct I1 as [I1|I1], I2 as [I2|I2]; [| | |lia].
  - pose proof (U _ _ _ _ I1 B1 D1 M1 E1) as U1. pose proof (U _ _ _ _ I2 B2 D2 M2 E2) as U2.
    destruct (Nat.lt_total (c_i1 c) (c_i2 c)) as [L|[L|L]]; [|lia|].
    + destruct (Nat.eq_dec (c_i2 c) (S (c_i1 c))) as [Q|Q]; [apply (Nc (c_i2 c) (c_i1 c)); [now apply pairs_in|auto]|].
      assert (G : (S (c_i1 c) < c_i2 c)%nat) by lia. rewrite (apart_handler _ _ _ _ _ _ _ _ _ _ _ _ _ _ A1 A2 U1 U2 (Ap _ _ G) Hd) in Hin. destruct Hin.
    + destruct (Nat.eq_dec (c_i1 c) (S (c_i2 c))) as [Q|Q]; [apply (Nc (c_i1 c) (c_i2 c)); [now apply pairs_in|auto]|].
      assert (G : (S (c_i2 c) < c_i1 c)%nat) by lia. rewrite (apart_handler _ _ _ _ _ _ _ _ _ _ _ _ _ _ A1 A2 U1 U2 (apart_sym _ _ _ (Ap _ _ G)) Hd) in Hin. destruct Hin.
  - pose proof (U _ _ _ _ I1 B1 D1 M1 E1) as U1. rewrite I2 in B2, D2. pose proof (RR _ _ _ B2 D2 M2 E2) as U2.
    rewrite (far_handler _ _ _ _ _ _ _ _ _ (x, y) 20 _ _ _ _ P20 U2 U1 (Fa _) (or_intror (conj A1 A2)) Hd) in Hin. destruct Hin.
  - pose proof (U _ _ _ _ I2 B2 D2 M2 E2) as U2. rewrite I1 in B1, D1. pose proof (RR _ _ _ B1 D1 M1 E1) as U1.
    rewrite (far_handler _ _ _ _ _ _ _ _ _ (x, y) 20 _ _ _ _ P20 U1 U2 (Fa _) (or_introl (conj A1 A2)) Hd) in Hin. destruct Hin.
Qed.

(** *** the constructor succeeds *)
Section Start.
Variables (fs : list (R -> v3 R)) (mass : R) (n gf : nat) (o : oracle R) (bs : list (body R)).
Hypothesis Hn : (1 <= n)%nat.
Hypothesis Ho : broadphase_sane o.
Hypothesis Ch : chained fs mass n bs.
Notation hd := (diff_handler gf o).
Lemma chain_nth i : (i <= n)%nat -> exists b, nth_error bs i = Some b.
Proof. intros H. destruct (nth_error bs i) as [b|] eqn:E; [eauto|]. apply nth_error_None in E. rewrite (ch_len _ _ _ _ Ch) in E. lia. Qed.
Lemma chain_cases i b : nth_error bs i = Some b -> (i < n)%nat /\ beam mass n i b \/ i = n /\ bullet n b.
Proof.
  intros H. assert (L : (i < S n)%nat) by (rewrite <- (ch_len _ _ _ _ Ch); apply nth_error_Some; congruence).
  destruct (Nat.eq_dec i n) as [->|N]; [right; split; [reflexivity|exact (proj1 (ch_shot _ _ _ _ Ch b H))]|left]. assert (Hi : (i < n)%nat) by lia. split; [exact Hi|exact (proj1 (ch_link _ _ _ _ Ch i b Hi H))].
Qed.
Lemma chain_ids : map b_id bs = seq 0 (S n).
Proof.
  apply nth_error_ext. intros i. rewrite nth_error_map. destruct (nth_error bs i) as [b|] eqn:E.
  - assert (L : (i < S n)%nat) by (rewrite <- (ch_len _ _ _ _ Ch); apply nth_error_Some; congruence). cbn [option_map]. rewrite (nth_error_nth' _ 0%nat) by (now rewrite seq_length). rewrite seq_nth by exact L. f_equal.
    destruct (chain_cases _ _ E) as [[_ B]|[-> B]]; [exact (be_id _ _ _ _ B)|exact (bu_id _ _ B)].
  - apply nth_error_None in E. rewrite (ch_len _ _ _ _ Ch) in E. cbn [option_map]. symmetry. apply nth_error_None. now rewrite seq_length.
Qed.
Lemma chain_available : Forall available bs.
Proof.
  apply Forall_forall. intros b Hb. destruct (In_nth_error _ _ Hb) as [i Hi]. destruct (chain_cases _ _ Hi) as [[_ B]|[_ B]]; [exact (be_available _ _ _ _ B)|exact (bu_available _ _ B)].
Qed.
Lemma ideal_same i b pos : nth_error bs i = Some b -> (i < n)%nat -> joint_init b None pos = joint_init (ideal i) None pos.
Proof. intros Hb Hi. destruct (ch_link _ _ _ _ Ch i b Hi Hb) as [B _]. unfold joint_init, b_pos. rewrite (be_p _ _ _ _ B), (be_id _ _ _ _ B). reflexivity. Qed.
Lemma ideal_same2 i b k c pos : nth_error bs i = Some b -> (i < n)%nat -> nth_error bs k = Some c -> (k < n)%nat -> joint_init b (Some c) pos = joint_init (ideal i) (Some (ideal k)) pos.
Proof.
  intros Hb Hi Hc Hk. destruct (ch_link _ _ _ _ Ch i b Hi Hb) as [B _]. destruct (ch_link _ _ _ _ Ch k c Hk Hc) as [C _]. unfold joint_init, b_pos. rewrite (be_p _ _ _ _ B), (be_id _ _ _ _ B), (be_p _ _ _ _ C), (be_id _ _ _ _ C). reflexivity.
Qed.
Lemma chain_built : Forall (built bs) (chain_joints n).
Proof.
  constructor.
  - destruct (chain_nth 0) as [b Hb]; [lia|]. unfold nail. rewrite <- (ideal_same 0 b) by (auto; lia). constructor. eapply nth_error_In; eauto.
  - apply Forall_forall. intros j Hj. apply in_map_iff in Hj. destruct Hj as (i & <- & Hi). apply in_seq in Hi.
    destruct (chain_nth i) as [b Hb]; [lia|]. destruct (chain_nth (i - 1)) as [c Hc]; [lia|]. unfold hinge. rewrite <- (ideal_same2 i b (i - 1) c) by (auto; lia).
    constructor; [eapply nth_error_In; eauto|eapply nth_error_In; eauto|]. destruct (ch_link _ _ _ _ Ch i b) as [B _]; [lia|auto|]. destruct (ch_link _ _ _ _ Ch (i - 1) c) as [C _]; [lia|auto|]. rewrite (be_id _ _ _ _ B), (be_id _ _ _ _ C). lia.
Qed.
Lemma chain_fit : (18 <= gf)%nat -> Forall (fit gf) bs.
Proof.
  intros Hg. apply Forall_forall. intros b Hb. destruct (In_nth_error _ _ Hb) as [i Hi]. destruct (chain_cases _ _ Hi) as [[_ B]|[_ B]].
  - apply available_fit; [exact (be_available _ _ _ _ B)| | |].
    + assert (Ic : is_circle b = false) by (unfold is_circle; now rewrite (be_kind _ _ _ _ B)). unfold tidy. rewrite Ic. refine (proj1 (rect_tidy b (20, 60) (corners 20 60) 0 (RBavailable _ (be_available _ _ _ _ B)) (be_kind _ _ _ _ B) _ _)); cbn; lra.
    + assert (Ic : is_circle b = false) by (unfold is_circle; now rewrite (be_kind _ _ _ _ B)). unfold ContactSpec.in_range. rewrite Ic. intros v Hv. unfold b_verts in Hv. rewrite (be_kind _ _ _ _ B) in Hv. apply (corners_near 20 60); auto; lra.
    + unfold gjk_rounds, b_verts. rewrite (be_kind _ _ _ _ B). cbn. lia.
  - apply available_fit; [exact (bu_available _ _ B)| | |]; unfold tidy, ContactSpec.in_range, gjk_rounds, is_circle, b_rad, b_verts; rewrite (bu_kind _ _ B); cbn [length]; [lra|lra|lia].
Qed.
Lemma chain_moved hh js dt eps tol fd ps st (w : world R) : world_init o hd hh bs js dt eps tol fd ps st = Ok w -> Forall2 moved bs (w_bodies w).
Proof. intros H. apply Forall2_forget'; [apply moved_steps|]. exact (init_forget _ _ _ _ _ _ _ _ _ _ _ _ (diff_handler_frame gf o) H). Qed.
Lemma chain_same hh js dt eps tol fd ps st (w : world R) i b c : world_init o hd hh bs js dt eps tol fd ps st = Ok w -> nth_error (w_bodies w) i = Some b -> nth_error bs i = Some c -> forget b = forget c.
Proof.
  intros H Hb Hc. pose proof (init_forget _ _ _ _ _ _ _ _ _ _ _ _ (diff_handler_frame gf o) H) as E. apply (f_equal (fun l => nth_error l i)) in E. rewrite !nth_error_map, Hb, Hc in E. now injection E.
Qed.
Lemma chain_quiet hh js dt tol fd ps st (w : world R) : world_init o hd hh bs js dt EPSILON tol fd ps st = Ok w -> w_contacts w = [].
Proof.
  intros H. destruct (chain_nth n) as [c Hc]; [lia|]. pose proof (proj1 (ch_shot _ _ _ _ Ch c Hc)) as B.
  apply (chain_clear fs mass n bs gf o w 50 (50 + 50 * INR (n - 1)) Ch Ho (chain_moved _ _ _ _ _ _ _ _ _ H)).
  - destruct (world_init_inv _ _ _ _ _ _ _ _ _ _ _ _ H) as (_ & -> & _). reflexivity.
  - intros i b Hi Hb. destruct (chain_nth i) as [d Hd]; [lia|]. rewrite (forget_eq_p _ _ (chain_same _ _ _ _ _ _ _ _ _ _ _ _ H Hb Hd)). exact (be_p _ _ _ _ (proj1 (ch_link _ _ _ _ Ch i d Hi Hd))).
  - intros b Hb. unfold b_pos. rewrite (forget_eq_p _ _ (chain_same _ _ _ _ _ _ _ _ _ _ _ _ H Hb Hc)), (bu_p _ _ B). reflexivity.
  - lra.
  - eapply init_current; [apply diff_handler_frame|exact H].
Qed.
Lemma chain_starts hh dt tol fd ps : (18 <= gf)%nat -> 0 <= tol -> exists w, world_init o hd hh bs (chain_joints n) dt EPSILON tol fd ps true = Ok w.
Proof.
  intros Hg Ht. assert (W : exists w, world_init o hd hh bs (chain_joints n) dt EPSILON tol fd ps false = Ok w).
  { unfold world_init. destruct bs as [|b0 bs0] eqn:Eb; [pose proof (ch_len _ _ _ _ Ch) as L; discriminate L|]. rewrite <- Eb in *.
    assert (EJ : exists js, mapM (fun j : joint R => do i1 <- index_of bs (j_b1 j); match j_b2 j with Some id => do i2 <- index_of bs id; Ok (j, i1, Some i2) | None => Ok (j, i1, None) end) (chain_joints n) = Ok js).
    { apply mapM_exists. intros j Hj. pose proof chain_built as HB. rewrite Forall_forall in HB. specialize (HB j Hj).
      destruct HB as [b1 pos H1|b1 b2 pos H1 H2 N|b1 b2 H1 H2 N|b1 H1|b1 H1|b1 H1|b1 H1];
        repeat match goal with |- context [joint_init ?a ?c ?p] => let K := fresh in let I1 := fresh in let I2 := fresh in destruct (joint_init_fields a c p) as (K & I1 & I2 & _); rewrite I1, I2; clear K I1 I2; cbn [option_map] end;
        cbn [j_b1 j_b2 fixed_init x_init y_init rot_init axis_init total_init]; try change (j_b1 (total_init b1)) with (b_id b1); try change (j_b2 (total_init b1)) with (@None nat);
        destruct (index_of_total bs _ H1) as (i & c & Ei & _); rewrite Ei; cbn [bind]; try (eexists; reflexivity);
        destruct (index_of_total bs _ H2) as (i' & c' & Ei' & _); rewrite Ei'; cbn [bind]; eexists; reflexivity. }
    destruct EJ as [js EJ]. rewrite EJ. cbn [bind]. unfold set_v. rewrite cat3_length, map_length. cbn [w_bodies]. rewrite Nat.eqb_refl. cbn [bind].
    match goal with |- context [find_contacts _ _ ?x] => assert (FC : exists w2, find_contacts o hd x = Ok w2) end.
    { apply find_contacts_total; [exact Ho|]. cbn [w_bodies with_state]. apply Forall_forall. intros b Hin. destruct (In_nth_error _ _ Hin) as [i Hi]. rewrite mapi_nth in Hi.
      destruct (nth_error bs i) as [c|] eqn:Ec; [|discriminate]. cbn [option_map] in Hi. injection Hi as <-. pose proof (chain_fit Hg) as HM. rewrite Forall_forall in HM.
      destruct (fit_manageable gf c (HM c (nth_error_In _ _ Ec))) as (M1 & M2 & M3 & M4). split; [exact M1|]. split; [exact M2|]. split; [exact M3|exact M4]. }
    destruct FC as [w2 ->]. cbn [bind andb]. eauto. }
  destruct W as [w W]. apply (init_strict _ _ _ _ _ _ _ _ _ _ _ W). rewrite (chain_quiet _ _ _ _ _ _ _ _ W). intros c [].
Qed.
End Start.
