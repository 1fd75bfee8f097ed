(** Runs of the mass-inference experiment before the projectile arrives (proofs for C80) *)
From Coq Require Import List Arith ZArith Lia Bool Reals Lra.
From Verif Require Import Num Tensor Utils Bodies Forces Constraints Contacts World Lapack Pdipm Engines Game Infer
     Spec GeoSpec BodySpec JointSpec FreshSpec ContactSpec LapackSpec EngineSpec GameSpec StaticsSpec InferSpec RBase ResFacts LinAlg BodyFacts RigidFacts GeomFacts BodyReach WorldFacts HandlerFacts
     LayoutFacts HistFacts SatFacts FreshFacts CollideFacts EngineFacts JointFacts JeFacts HeldFacts MomentumFacts FlightFacts EngineProps EngineMore SceneInit RunTotal FuelFacts CacheFacts GroupFacts EnergyRun
     SysFacts StaticsFacts StaticsProps CoastRun GameFacts GameProps GameStart GameFree InferFacts.
Import ListNotations.
Open Scope R_scope.

(** *** the joints hold each other in a chain *)
Lemma hinges_free m : loop_free (nail :: map hinge (seq 1 m)).
Proof.
  induction m as [|m IH].
  - apply (loop_free_add [] nail []); [constructor|]. left. exists 0%nat. split; [left; apply joint_init_fields|]. intros j [].
  - rewrite seq_S, map_app. change (nail :: map hinge (seq 1 m) ++ map hinge [(1 + m)%nat]) with ((nail :: map hinge (seq 1 m)) ++ hinge (S m) :: []).
    apply loop_free_add; rewrite app_nil_r; [exact IH|]. left. exists (S m). split; [left; apply joint_init_fields|].
    intros j [<-|Hj] Ht.
    + destruct Ht as [Ht|Ht]; unfold nail in Ht; destruct (joint_init_fields (ideal 0) None (300, 30)) as (_ & I1 & I2 & _); [rewrite I1 in Ht; discriminate Ht|rewrite I2 in Ht; discriminate Ht].
    + apply in_map_iff in Hj. destruct Hj as (i & <- & Hi). apply in_seq in Hi. unfold hinge in Ht.
      destruct Ht as [Ht|Ht]; destruct (joint_init_fields (ideal i) (Some (ideal (i - 1))) (300, 25 + 50 * INR i)) as (_ & I1 & I2 & _); [rewrite I1 in Ht; cbn in Ht; lia|rewrite I2 in Ht; cbn in Ht; injection Ht as Ht; lia].
Qed.

Section Run.
Variables (fs : list (R -> v3 R)) (mass : R) (n gf : nat) (o : oracle R) (bs : list (body R)) (w0 : world R).
Hypothesis Hn : (1 <= n)%nat.
Hypothesis Hm : 0 < mass.
Hypothesis Ho : broadphase_sane o.
Hypothesis Ch : chained fs mass n bs.
Notation hd := (diff_handler gf o).
Hypothesis Hw : world_init o hd (chain_heap fs mass n) bs (chain_joints n) STEP EPSILON TOL 2 true true = Ok w0.
Let nth_ch := chain_nth fs mass n bs Hn Ch.
Let same := chain_same gf o bs.

(** what is known of the bodies of the new world *)
Lemma w0_len : length (w_bodies w0) = S n.
Proof. rewrite <- (ch_len _ _ _ _ Ch). symmetry. eapply BodyReach.Forall2_len. eapply chain_moved; eauto. Qed.
Lemma w0_nth i b : nth_error (w_bodies w0) i = Some b -> exists c, nth_error bs i = Some c /\ forget b = forget c.
Proof.
  intros Hb. assert (L : (i < S n)%nat) by (rewrite <- w0_len; apply nth_error_Some; congruence). destruct (nth_ch i) as [c Hc]; [lia|]. exists c. split; [exact Hc|]. eapply same; eauto.
Qed.
Lemma forget_keeps (b c : body R) : forget b = forget c -> b_p b = b_p c /\ b_v b = b_v c /\ b_id b = b_id c /\ b_forces b = b_forces c /\ b_mass b = b_mass c /\ b_inertia b = b_inertia c.
Proof.
  intros E. split; [now apply forget_eq_p|]. split; [now apply forget_eq_v|].
  destruct b as [? k ? ? ? ? ? ? ? ? ?], c as [? k' ? ? ? ? ? ? ? ? ?]. destruct k, k'; cbn in *; injection E; intros; subst; auto.
Qed.
Lemma forget_surface (b c : body R) : forget b = forget c -> b_rest b = b_rest c /\ b_fric b = b_fric c.
Proof. intros E. destruct b as [? k ? ? ? ? ? ? ? ? ?], c as [? k' ? ? ? ? ? ? ? ? ?]. destruct k, k'; cbn in *; injection E; intros; subst; auto. Qed.
Lemma w0_link i b : (i < n)%nat -> nth_error (w_bodies w0) i = Some b -> b_p b = link_place i /\ b_v b = (0, (0, 0)) /\ b_id b = i /\ b_forces b = match i with O => [] | S k => [k] end.
Proof.
  intros Hi Hb. destruct (w0_nth i b Hb) as (c & Hc & E). destruct (forget_keeps _ _ E) as (-> & -> & -> & -> & _). destruct (ch_link _ _ _ _ Ch i c Hi Hc) as [B F].
  split; [exact (be_p _ _ _ _ B)|]. split; [exact (be_v _ _ _ _ B)|]. split; [exact (be_id _ _ _ _ B)|exact F].
Qed.
Lemma w0_shot b : nth_error (w_bodies w0) n = Some b -> b_p b = (0, (50, 50 + 50 * INR (n - 1))) /\ b_v b = (0, (0, 0)) /\ b_id b = n /\ b_forces b = seq (n - 1) (length fs) /\ b_mass b = 1 /\ b_inertia b = 200.
Proof.
  intros Hb. destruct (w0_nth n b Hb) as (c & Hc & E). destruct (forget_keeps _ _ E) as (-> & -> & -> & -> & -> & ->). destruct (ch_shot _ _ _ _ Ch c Hc) as [B F].
  split; [exact (bu_p _ _ B)|]. split; [exact (bu_v _ _ B)|]. split; [exact (bu_id _ _ B)|]. split; [exact F|]. split; [exact (bu_mass _ _ B)|exact (bu_inertia _ _ B)].
Qed.
Lemma w0_cases i b : nth_error (w_bodies w0) i = Some b -> (i < n)%nat \/ i = n.
Proof. intros Hb. assert (L : (i < S n)%nat) by (rewrite <- w0_len; apply nth_error_Some; congruence). lia. Qed.

(** *** the forces *)
Definition load (t : R) (i : nat) : v3 R := if (i <? n)%nat then match i with O => (0, (0, 0)) | S _ => weight mass n end else pushes fs t.
Definition loads (t : R) : vecR := cat3 (map (load t) (seq 0 (S n))).
Lemma engines_nth k : nth_error (chain_heap fs mass n) (n - 1 + k) = option_map (fun f => FExt f 1500) (nth_error fs k).
Proof. unfold chain_heap, engines. rewrite nth_error_app2 by (rewrite repeat_length; lia). rewrite repeat_length. replace (n - 1 + k - (n - 1))%nat with k by lia. apply nth_error_map. Qed.
Lemma pushes_fold t : forall l z, fold_left v3add (map (fun f : R -> v3 R => v3mulr (f t) 1500) l) z = v3add z (pushes l t).
Proof.
  induction l as [|f l IH]; intros z; cbn [map fold_left pushes].
  - destruct z as [a [b c]]. unfold v3add, v2add. cbn [fst snd]. rnum. apply f_equal2; [|apply f_equal2]; ring.
  - rewrite IH. destruct z as [a [b c]], (f t) as [a' [b' c']], (pushes l t) as [a'' [b'' c'']]. unfold v3add, v2add, v3mulr, v3scale, v2scale. cbn [fst snd]. rnum. apply f_equal2; [|apply f_equal2]; ring.
Qed.
Lemma w0_heap : w_heap w0 = chain_heap fs mass n.
Proof. destruct (world_init_inv _ _ _ _ _ _ _ _ _ _ _ _ Hw) as (_ & _ & _ & _ & _ & _ & _ & H & _). exact H. Qed.
Lemma body_load t i b : nth_error (w_bodies w0) i = Some b -> body_apply_forces (w_heap w0) b t = Ok (load t i).
Proof.
  intros Hb. rewrite w0_heap. unfold body_apply_forces, load. destruct (w0_cases i b Hb) as [Hi| ->].
  - destruct (w0_link i b Hi Hb) as (_ & _ & _ & ->). destruct (Nat.ltb_spec i n) as [_|]; [|lia]. destruct i as [|k]; [reflexivity|]. cbn [mapM].
    unfold chain_heap. rewrite nth_error_app1 by (rewrite repeat_length; lia). rewrite (nth_error_repeat (pull mass n)) by lia. cbn [pull force_value bind fold_left].
    unfold v3add, v3zero, v2add, v2zero, weight. cbn [fst snd]. rnum. apply f_equal. apply f_equal2; [|apply f_equal2]; ring.
  - destruct (w0_shot b Hb) as (_ & _ & _ & -> & _). rewrite Nat.ltb_irrefl.
    assert (E : forall l k, (forall m f, nth_error l m = Some f -> nth_error (chain_heap fs mass n) (k + m) = Some (FExt f 1500)) ->
      mapM (fun id => match nth_error (chain_heap fs mass n) id with Some f => force_value f t | None => Err EIndex end) (seq k (length l)) = Ok (map (fun f => v3mulr (f t) 1500) l)).
    { induction l as [|f l IH]; intros k Hk; [reflexivity|]. cbn [length seq mapM map]. pose proof (Hk 0%nat f eq_refl) as H0. rewrite Nat.add_0_r in H0. rewrite H0. cbn [force_value bind].
      rewrite (IH (S k)); [reflexivity|]. intros m g Hg. replace (S k + m)%nat with (k + S m)%nat by lia. exact (Hk (S m) g Hg). }
    rewrite E by (intros m f Hf; rewrite engines_nth, Hf; reflexivity). cbn [bind]. rewrite pushes_fold. destruct (pushes fs t) as [a [b' c]]. unfold v3add, v3zero, v2add, v2zero. cbn [fst snd]. rnum. apply f_equal. apply f_equal2; [|apply f_equal2]; ring.
Qed.
Lemma w0_forces t : world_apply_forces w0 t = Ok (loads t).
Proof.
  unfold world_apply_forces. assert (E : mapM (fun b => body_apply_forces (w_heap w0) b t) (w_bodies w0) = Ok (map (load t) (seq 0 (S n)))).
  { apply mapM_Forall2. apply nth_Forall2; [now rewrite map_length, seq_length, w0_len|]. intros i b Hb. exists (load t i). split; [|now apply body_load].
    assert (L : (i < S n)%nat) by (rewrite <- w0_len; apply nth_error_Some; congruence). rewrite nth_error_map, (nth_error_nth' _ 0%nat) by (now rewrite seq_length). rewrite seq_nth by exact L. reflexivity. }
  rewrite E. reflexivity.
Qed.
Lemma loads_at t i : (i <= n)%nat -> v3_at (loads t) i = load t i.
Proof. intros H. unfold loads. rewrite GroupFacts.cat3_at by lia. reflexivity. Qed.

(** *** the links are a structure in balance *)
Definition hangs (i : nat) : bool := (i <? n)%nat.
Let Hf := diff_handler_frame gf o.
Lemma nodup_ids : NoDup (map b_id bs).
Proof. rewrite (chain_ids fs mass n bs Hn Ch). apply seq_NoDup. Qed.
Lemma entry_index i id b : nth_error bs i = Some b -> b_id b = id -> i = id.
Proof.
  intros Hb <-. pose proof (chain_ids fs mass n bs Hn Ch) as E. apply (f_equal (fun l => nth_error l i)) in E. rewrite nth_error_map, Hb in E. cbn [option_map] in E.
  assert (L : (i < S n)%nat) by (rewrite <- (ch_len _ _ _ _ Ch); apply nth_error_Some; congruence). rewrite (nth_error_nth' _ 0%nat) in E by (now rewrite seq_length). rewrite seq_nth in E by exact L. injection E as E. symmetry. exact E.
Qed.
(** the constraints of the world are the nail and the hinges, at the links they were made for *)
Lemma w0_joints j i1 i2 : In (j, i1, i2) (w_joints w0) -> (i1 = 0%nat /\ i2 = None /\ j = nail) \/ (1 <= i1 < n)%nat /\ i2 = Some (i1 - 1)%nat /\ j = hinge i1.
Proof.
  intros Hin. destruct (world_init_joints _ _ _ _ _ _ _ _ _ _ _ _ Hf Hw) as [F _]. apply In_nth_error in Hin. destruct Hin as [k Hk]. destruct (Forall2_nth _ _ _ _ _ F Hk) as (j0 & Hj0 & (-> & (b1 & Hb1 & E1) & E2)).
  destruct k as [|k]; cbn [nth_error chain_joints] in Hj0.
  - left. assert (E : nail = j0) by (now injection Hj0). subst j0. unfold nail in E1, E2. destruct (joint_init_fields (ideal 0) None (300, 30)) as (_ & I1 & I2 & _). rewrite I1 in E1. rewrite I2 in E2. cbn [option_map] in E2. destruct i2; [destruct E2|].
    split; [|auto]. exact (entry_index _ _ _ Hb1 E1).
  - right. rewrite nth_error_map in Hj0. destruct (nth_error (seq 1 (n - 1)) k) as [i|] eqn:Ei; [|discriminate]. cbn [option_map] in Hj0. assert (E : hinge i = j0) by (now injection Hj0). subst j0.
    assert (Hi : (1 <= i < n)%nat) by (apply nth_error_In, in_seq in Ei; lia). unfold hinge in E1, E2. destruct (joint_init_fields (ideal i) (Some (ideal (i - 1))) (300, 25 + 50 * INR i)) as (_ & I1 & I2 & _). rewrite I1 in E1. rewrite I2 in E2. cbn [option_map] in E2.
    destruct i2 as [i2|]; [|destruct E2]. destruct E2 as (b2 & Hb2 & E2). pose proof (entry_index _ _ _ Hb1 E1) as Q1. pose proof (entry_index _ _ _ Hb2 E2) as Q2. cbn in Q1, Q2. subst. split; [exact Hi|]. split; reflexivity.
Qed.
Lemma w0_nail : In (nail, 0%nat, None) (w_joints w0).
Proof.
  destruct (world_init_joints _ _ _ _ _ _ _ _ _ _ _ _ Hf Hw) as [F _]. destruct (Forall2_nth_l _ _ _ 0%nat nail F eq_refl) as ([[j i1] i2] & He & Hent). apply nth_error_In in He.
  destruct (w0_joints _ _ _ He) as [(-> & -> & ->)|(Hi & -> & ->)]; [exact He|]. destruct Hent as (E & _). exfalso. apply (f_equal j_b2) in E. unfold hinge, nail in E. destruct (joint_init_fields (ideal i1) (Some (ideal (i1 - 1))) (300, 25 + 50 * INR i1)) as (_ & _ & I2 & _). destruct (joint_init_fields (ideal 0) None (300, 30)) as (_ & _ & I3 & _). rewrite I2, I3 in E. discriminate E.
Qed.
Lemma w0_hinge i : (1 <= i < n)%nat -> In (hinge i, i, Some (i - 1)%nat) (w_joints w0).
Proof.
  intros Hi. destruct (world_init_joints _ _ _ _ _ _ _ _ _ _ _ _ Hf Hw) as [F _]. assert (Hk : nth_error (chain_joints n) i = Some (hinge i)).
  { destruct i as [|k]; [lia|]. cbn [nth_error chain_joints]. rewrite nth_error_map, (nth_error_nth' _ 0%nat) by (rewrite seq_length; lia). rewrite seq_nth by lia. reflexivity. }
  destruct (Forall2_nth_l _ _ _ i (hinge i) F Hk) as ([[j i1] i2] & He & (-> & (b1 & Hb1 & E1) & E2)). apply nth_error_In in He. unfold hinge in E1. destruct (joint_init_fields (ideal i) (Some (ideal (i - 1))) (300, 25 + 50 * INR i)) as (_ & I1 & I2 & _). rewrite I1 in E1.
  pose proof (entry_index _ _ _ Hb1 E1) as Q. cbn in Q. subst i1. destruct (w0_joints _ _ _ He) as [(-> & _)|(_ & -> & _)]; [lia|]. exact He.
Qed.
Lemma chain_structure : jointed w0 hangs loads.
Proof.
  apply structure_jointed. split.
  - intros j i1 i2 Hin. unfold hangs. destruct (w0_joints _ _ _ Hin) as [(-> & -> & _)|(Hi & -> & _)].
    + split; [apply Nat.ltb_lt; lia|exact Logic.I].
    + split; apply Nat.ltb_lt; lia.
  - intros i b Hb Hr. unfold hangs in Hr. apply Nat.ltb_lt in Hr. exact (proj1 (proj2 (w0_link i b Hr Hb))).
Qed.
(** motions the joints allow have no vertical part *)
Lemma chain_level x : constraint_velocity w0 x = vzeros (w_num_constraints w0) -> forall i, (i < n)%nat -> snd (snd (v3_at x i)) = 0.
Proof.
  intros Cx. assert (Z : forall e a, In e (w_joints w0) -> In a (entry_vel w0 x e) -> a = 0).
  { intros e a He Ha. assert (Hin : In a (constraint_velocity w0 x)) by (rewrite cv_entries; apply in_flat_map; eauto). rewrite Cx in Hin. unfold vzeros in Hin. now apply repeat_spec in Hin. }
  assert (B : forall i, (i < n)%nat -> exists b, nth_error (w_bodies w0) i = Some b /\ b_pos b = (300, 50 + 50 * INR i)).
  { intros i Hi. destruct (nth_error (w_bodies w0) i) as [b|] eqn:E; [|apply nth_error_None in E; rewrite w0_len in E; lia]. exists b. split; [reflexivity|]. unfold b_pos. rewrite (proj1 (w0_link i b Hi E)). reflexivity. }
  induction i as [|i IH]; intros Hi.
  - destruct (B 0%nat Hi) as (b & Hb & Pb). pose proof (Z _ (snd (point_velocity (v3_at x 0) (v2sub (300, 30) (b_pos b)))) w0_nail) as Q. cbn [entry_vel] in Q. rewrite Hb in Q. unfold nail in Q. destruct (joint_init_fields (ideal 0) None (300, 30)) as (K & _). rewrite K in Q. cbn [measured] in Q.
    assert (Pj : j_pos (joint_init (ideal 0) None (300, 30)) = (300, 30)) by (unfold joint_init; destruct (cart_to_polar _); reflexivity). rewrite Pj in Q. specialize (Q (or_intror (or_introl eq_refl))). rewrite Pb in Q. unfold point_velocity, v2sub in Q. cbn [fst snd] in Q. rnum. lra.
  - destruct (B (S i) Hi) as (b & Hb & Pb). destruct (B i ltac:(lia)) as (c & Hc & Pc). specialize (IH ltac:(lia)).
    pose proof (Z _ (snd (v2sub (point_velocity (v3_at x (S i)) (v2sub (300, 25 + 50 * INR (S i)) (b_pos b))) (point_velocity (v3_at x i) (v2sub (300, 25 + 50 * INR (S i)) (b_pos c))))) (w0_hinge (S i) ltac:(lia))) as Q.
    cbn [entry_vel] in Q. replace (S i - 1)%nat with i in Q by lia. rewrite Hb, Hc in Q. unfold hinge in Q. replace (S i - 1)%nat with i in Q by lia. destruct (joint_init_fields (ideal (S i)) (Some (ideal i)) (300, 25 + 50 * INR (S i))) as (K & _). rewrite K in Q. cbn [measured] in Q.
    assert (Pj : j_pos (joint_init (ideal (S i)) (Some (ideal i)) (300, 25 + 50 * INR (S i))) = (300, 25 + 50 * INR (S i))) by (unfold joint_init; destruct (cart_to_polar _); reflexivity). rewrite Pj in Q. specialize (Q (or_intror (or_introl eq_refl))).
    rewrite Pb, Pc in Q. unfold point_velocity, v2sub in Q. cbn [fst snd] in Q. rnum. lra.
Qed.
Lemma chain_balance t : in_balance w0 hangs (loads t).
Proof.
  intros x Lx Cx Hx. assert (Ll : length (loads t) = (3 * length (w_bodies w0))%nat) by (unfold loads; rewrite cat3_length, map_length, seq_length, w0_len; reflexivity).
  rewrite (dot_fields w0) by auto. assert (E : forall i b, nth_error (w_bodies w0) i = Some b -> d3 (v3_at x i) (v3_at (loads t) i) = 0).
  { intros i b Hb. destruct (w0_cases i b Hb) as [Hi| ->].
    - rewrite loads_at by lia. pose proof (chain_level x Cx i Hi) as Q. unfold load. destruct (Nat.ltb_spec i n) as [_|]; [|lia]. destruct (v3_at x i) as [a [b1 c]]. cbn [snd] in Q. subst c. destruct i; unfold d3, weight; cbn [fst snd]; ring.
    - rewrite Hx by (unfold hangs; apply Nat.ltb_irrefl). unfold d3. cbn [fst snd]. ring. }
  rewrite (Rsum_mapi_ext _ (fun _ _ => 0)) by exact E. clear. generalize (w_bodies w0). unfold mapi. generalize 0%nat. intros k l. revert k. induction l as [|b l IH]; intros k; [reflexivity|]. cbn. specialize (IH (S k)). unfold Rsum in *. cbn. lra.
Qed.

(** *** the poses of the bodies that coast beside the chain *)
Lemma w0_clock : w_dt w0 = 1 / 30 /\ w_t w0 = 0 /\ w_eps w0 = 1 / 10 /\ w_fric_dirs w0 = 2%nat.
Proof. destruct (world_init_inv _ _ _ _ _ _ _ _ _ _ _ _ Hw) as (-> & -> & _ & -> & _ & _ & -> & _). split; [reflexivity|]. split; [reflexivity|]. split; reflexivity. Qed.
Lemma coast_ext dt acc acc' : (forall t, acc t = acc' t) -> forall k t p v, coast dt t acc p v k = coast dt t acc' p v k.
Proof. intros H. induction k as [|k IH]; intros t p v; [reflexivity|]. cbn [coast]. now rewrite H, IH. Qed.
Lemma shot_coasts b k : nth_error (w_bodies w0) n = Some b -> coast (w_dt w0) (w_t w0) (fun t => acceleration b (v3_at (loads t) n)) (b_p b) (b_v b) k = shot fs n k.
Proof.
  intros Hb. destruct w0_clock as (-> & -> & _). destruct (w0_shot b Hb) as (-> & -> & _ & _ & Em & Ei). unfold shot. apply coast_ext. intros t. unfold acceleration, shot_acceleration. rewrite Em, Ei, loads_at by lia. unfold load. rewrite Nat.ltb_irrefl.
  destruct (pushes fs t) as [a [b' c]]. unfold v2scale. cbn [fst snd]. rnum. apply f_equal2; [reflexivity|]. apply f_equal2; field.
Qed.
Lemma poses_at k : map fst (coasting w0 hangs loads k) = map link_place (seq 0 n) ++ [fst (shot fs n k)].
Proof.
  apply nth_error_ext. intros i. unfold coasting. rewrite nth_error_map, mapi_nth. destruct (nth_error (w_bodies w0) i) as [b|] eqn:Hb; cbn [option_map].
  - unfold hangs. destruct (w0_cases i b Hb) as [Hi| ->].
    + destruct (Nat.ltb_spec i n) as [_|]; [|lia]. cbn [fst]. rewrite (proj1 (w0_link i b Hi Hb)), nth_error_app1 by (now rewrite map_length, seq_length). rewrite nth_error_map, (nth_error_nth' _ 0%nat) by (now rewrite seq_length). rewrite seq_nth by exact Hi. reflexivity.
    + rewrite Nat.ltb_irrefl, (shot_coasts b k Hb), nth_error_app2, map_length, seq_length, Nat.sub_diag by (rewrite map_length, seq_length; lia). reflexivity.
  - apply nth_error_None in Hb. rewrite w0_len in Hb. symmetry. apply nth_error_None. rewrite app_length, map_length, seq_length. cbn. lia.
Qed.
Lemma run_clear k : approaching fs n k -> forall m, (m <= k)%nat -> EngineSpec.clear_at o hd w0 (map fst (coasting w0 hangs loads m)).
Proof.
  intros Ha m Hmk a Mv Eps Hp Cu. rewrite poses_at in Hp. destruct w0_clock as (_ & _ & E0 & _). rewrite E0 in Eps.
  assert (Pn : forall i b, nth_error (w_bodies a) i = Some b -> nth_error (map link_place (seq 0 n) ++ [fst (shot fs n m)]) i = Some (b_p b)) by (intros i b Hb; rewrite <- Hp, nth_error_map, Hb; reflexivity).
  refine (chain_clear fs mass n bs gf o a (fst (snd (fst (shot fs n m)))) (snd (snd (fst (shot fs n m)))) Ch Ho _ Eps _ _ (Ha m Hmk) Cu).
  - eapply Forall2_trans'; [apply moved_steps|eapply chain_moved; exact Hw|exact Mv].
  - intros i b Hi Hb. specialize (Pn i b Hb). rewrite nth_error_app1 in Pn by (now rewrite map_length, seq_length). rewrite nth_error_map, (nth_error_nth' _ 0%nat) in Pn by (now rewrite seq_length). rewrite seq_nth in Pn by exact Hi. cbn [option_map Nat.add] in Pn. injection Pn as Pn. now symmetry.
  - intros b Hb. specialize (Pn n b Hb). rewrite nth_error_app2, map_length, seq_length, Nat.sub_diag in Pn by (rewrite map_length, seq_length; lia). cbn [nth_error] in Pn. assert (E : fst (shot fs n m) = b_p b) by (now injection Pn). unfold b_pos. rewrite <- E. destruct (fst (shot fs n m)) as [r [x y]]. reflexivity.
Qed.
Lemma chain_masses : Forall (fun b : body R => 0 < b_mass b /\ 0 < b_inertia b) bs.
Proof.
  assert (Hi : 0 < INR n) by (apply lt_0_INR; lia). assert (Hq : 0 < mass / INR n) by (apply Rdiv_lt_0_compat; auto).
  apply Forall_forall. intros b Hb. destruct (In_nth_error _ _ Hb) as [i E]. destruct (chain_cases fs mass n bs Hn Ch _ _ E) as [[_ B]|[_ B]].
  - rewrite (be_mass _ _ _ _ B), (be_inertia _ _ _ _ B). split; [exact Hq|]. apply Rmult_lt_0_compat; lra.
  - rewrite (bu_mass _ _ B), (bu_inertia _ _ B). lra.
Qed.
Lemma chain_session la mi : session la mi o hd bs (chain_joints n) w0.
Proof.
  eapply session_history with (gf := gf) (w0 := w0) (ops := []) (fuel := 0%nat); [left; reflexivity|exact Ho|exact nodup_ids|exact (chain_built fs mass n bs Hn Ch)|exact (chain_available fs mass n bs Hn Ch)|exact Hw|reflexivity].
Qed.
(** [a]: the recorded frame of a state in which the bodies are where they should be *)
Lemma frame_of a k : map (fun b => (b_p b, b_v b)) (w_bodies a) = coasting w0 hangs loads k -> frame a = expected_frame fs n k.
Proof. intros E. unfold frame, expected_frame. rewrite <- poses_at, <- E, map_map. reflexivity. Qed.

Lemma recorded fuel lfuel e run_time : forall w l w', positions_run_world fuel lfuel o hd e run_time w = Ok (l, w') -> forall k fr, nth_error l k = Some fr ->
  exists a, exec lfuel o hd e (map (@OStep R) (repeat false k)) w = Ok a /\ fr = frame a.
Proof.
  induction fuel as [|fuel IH]; intros w l w' H k fr Hk; [discriminate|]. cbn [positions_run_world] in H. destruct (nltb (w_t w) run_time).
  - bind_inv H as w1 E1. bind_inv H as r Er. destruct r as [l1 w2]. cbn [fst snd] in H. injection H as <- <-. destruct k as [|k]; cbn [nth_error] in Hk.
    + injection Hk as <-. exists w. split; reflexivity.
    + destruct (IH w1 l1 w2 Er k fr Hk) as (a & Ea & ->). exists a. split; [|reflexivity]. cbn [repeat map exec]. rewrite E1. cbn [bind]. exact Ea.
  - injection H as <- <-. destruct k as [|[|k]]; cbn in Hk; try discriminate. injection Hk as <-. exists w. split; reflexivity.
Qed.
Theorem frames_known la mi fuel lfuel run_time l w' k fr : lapack_ok la -> positions_run_world fuel lfuel o hd (pdipm_engine la mi) run_time w0 = Ok (l, w') ->
  nth_error l k = Some fr -> approaching fs n k -> fr = expected_frame fs n k.
Proof.
  intros HL H Hk Ha. destruct (recorded _ _ _ _ _ _ _ H k fr Hk) as (a & Ea & ->). apply frame_of. rewrite <- (repeat_length false k) at 1.
  refine (proj2 (proj2 (session_coast la mi o hd bs (chain_joints n) w0 hangs loads lfuel (repeat false k) a HL (chain_session la mi) chain_masses _ w0_forces chain_structure _ _ Ea))).
  - destruct w0_clock as (-> & _). lra.
  - intros m _. apply chain_balance.
  - rewrite repeat_length. apply run_clear. exact Ha.
Qed.
Theorem run_known la mi fuel lfuel run_time K : lapack_ok la -> (0 < mi)%nat -> (18 <= gf)%nat -> approaching fs n K ->
  (forall m, (m < K)%nat -> INR m / 30 < run_time) -> run_time <= INR K / 30 -> (K < fuel)%nat ->
  exists w', positions_run_world fuel (S lfuel) o hd (pdipm_engine la mi) run_time w0 = Ok (map (expected_frame fs n) (seq 0 (S K)), w').
Proof.
  intros HL Hmi Hg Ha Hlt Hle Hfu. destruct w0_clock as (Edt & Et & _ & Efd). assert (Hdt : 0 < w_dt w0) by (rewrite Edt; lra).
  destruct (session_facts _ _ _ _ _ _ _ (chain_session la mi)) as (_ & Hr & _ & Gm & J0 & Sd & V).
  assert (Bal : forall m, (m < K)%nat -> in_balance w0 hangs (loads (w_t w0 + INR m * w_dt w0))) by (intros; apply chain_balance).
  pose proof (run_clear K Ha) as HC.
  pose proof (coast_start la o hd bs (chain_joints n) J0 w0 hangs loads Sd V Gm (session_current _ _ _ _ _ _ _ (chain_session la mi)) chain_structure (HC 0%nat ltac:(lia))) as C0.
  assert (F0 : Forall (fit gf) (w_bodies w0)).
  { refine (fit_all _ _ _ _ (chain_fit fs mass n gf bs Hn Ch Hg)). apply Forall2_forget'; [apply fit_steps|]. exact (init_forget _ _ _ _ _ _ _ _ _ _ _ _ Hf Hw). }
  assert (G : forall d j a f, (j + d = K)%nat -> (d < f)%nat -> coasted la bs (chain_joints n) J0 w0 hangs loads j a -> Forall (fit gf) (w_bodies a) ->
    exists w', positions_run_world f (S lfuel) o hd (pdipm_engine la mi) run_time a = Ok (map (expected_frame fs n) (seq j (S d)), w')).
  { induction d as [|d IH]; intros j a f Hj Hd Ca Fa; (destruct f as [|f]; [lia|]); cbn [positions_run_world]; rewrite (cs_t _ _ _ _ _ _ _ _ _ Ca), Et, Edt.
    - replace j with K by lia. change (nltb (0 + INR K * (1 / 30)) run_time) with (Rltb (0 + INR K * (1 / 30)) run_time). destruct (Rltb_spec (0 + INR K * (1 / 30)) run_time) as [Q|Q]; [lra|]. exists a. cbn [seq map]. apply f_equal. apply f_equal2; [|reflexivity]. apply f_equal2; [|reflexivity]. apply frame_of. replace K with j by lia. exact (cs_state _ _ _ _ _ _ _ _ _ Ca).
    - assert (Hjk : (j < K)%nat) by lia. change (nltb (0 + INR j * (1 / 30)) run_time) with (Rltb (0 + INR j * (1 / 30)) run_time). destruct (Rltb_spec (0 + INR j * (1 / 30)) run_time) as [_|Q]; [|specialize (Hlt j Hjk); lra].
      destruct (coasted_total la mi gf o bs (chain_joints n) J0 w0 hangs loads K HL Hmi Ho (hinges_free (n - 1)) Sd chain_masses w0_forces Efd chain_structure Bal HC j a lfuel Hjk Ca Fa) as [a' Ea'].
      unfold step. rewrite (coasted_dt _ _ _ _ _ _ _ _ _ Ca), Ea'. cbn [bind].
      assert (Ca' : coasted la bs (chain_joints n) J0 w0 hangs loads (S j) a') by (eapply (coasted_step la mi (S lfuel) o hd bs (chain_joints n) J0 w0 hangs loads K); eauto using chain_masses, w0_forces, chain_structure).
      assert (Fa' : Forall (fit gf) (w_bodies a')) by (eapply (coasted_fit la mi gf o); eauto).
      destruct (IH (S j) a' f ltac:(lia) ltac:(lia) Ca' Fa') as [w' ->]. cbn [bind fst snd]. exists w'. cbn [seq map]. apply f_equal. apply f_equal2; [|reflexivity]. apply f_equal2; [|reflexivity].
      apply frame_of. exact (cs_state _ _ _ _ _ _ _ _ _ Ca). }
  apply (G K 0%nat w0 fuel); auto.
Qed.
End Run.

(** *** the horizontal impulse *)
Lemma coast_free dt acc : 0 <= dt -> forall k t p v, (forall s, t <= s -> acc s = (0, (0, 0))) -> coast dt t acc p v k = (v3add p (v3scale (INR k * dt) v), v).
Proof.
  intros Hd. induction k as [|k IH]; intros t p v H.
  - cbn [coast INR]. apply f_equal2; [|reflexivity]. destruct p as [a [b c]], v as [a' [b' c']]. unfold v3add, v3scale, v2add, v2scale. cbn [fst snd]. rnum. apply f_equal2; [|apply f_equal2]; ring.
  - cbn [coast]. rewrite (H t) by lra. rewrite IH by (intros s Hs; apply H; lra). rewrite S_INR. destruct p as [a [b c]], v as [a' [b' c']]. unfold v3add, v3scale, v2add, v2scale. cbn [fst snd]. rnum. apply f_equal2; (apply f_equal2; [|apply f_equal2]; ring).
Qed.
Lemma impulse_acc t : shot_acceleration [hor_impulse] t = (0, (if Rlt_dec t (1 / 10) then 1500 else 0, 0)).
Proof.
  unfold shot_acceleration, pushes, hor_impulse. change (nltb t (ncst C_0_1)) with (Rltb t (1 / 10)). destruct (Rltb_spec t (1 / 10)) as [Q|Q]; destruct (Rlt_dec t (1 / 10)) as [Q'|Q']; try lra;
    unfold v3add, v3scale, v2add, v2scale, RIGHT, ZEROS; cbn [fst snd]; rnum; (apply f_equal2; [field|apply f_equal2; field]).
Qed.
Lemma impulse_shot n k : shot [hor_impulse] n k = ((0, (match k with 0 => 50 | 1 => 155 / 3 | _ => 45 + 5 * INR k end, 50 + 50 * INR (n - 1))), (0, (match k with 0 => 0 | 1 => 50 | 2 => 100 | _ => 150 end, 0))).
Proof.
  unfold shot. set (y := 50 + 50 * INR (n - 1)). assert (A : forall t, t < 1 / 10 -> shot_acceleration [hor_impulse] t = (0, (1500, 0))) by (intros t Ht; rewrite impulse_acc; destruct (Rlt_dec t (1 / 10)); [reflexivity|lra]).
  assert (B : forall t, 1 / 10 <= t -> shot_acceleration [hor_impulse] t = (0, (0, 0))) by (intros t Ht; rewrite impulse_acc; destruct (Rlt_dec t (1 / 10)); [lra|reflexivity]).
  assert (E : forall a b c d e f a' b' c' d' e' f' : R, a = a' -> b = b' -> c = c' -> d = d' -> e = e' -> f = f' -> ((a, (b, c)), (d, (e, f))) = ((a', (b', c')), (d', (e', f')))) by (intros; subst; reflexivity).
  destruct k as [|k]; [reflexivity|]. cbn [coast]. rewrite A by lra. destruct k as [|k]; [cbn [coast]; unfold v3add, v3scale, v2add, v2scale; cbn [fst snd]; rnum; apply E; lra|].
  cbn [coast]. rewrite A by lra. destruct k as [|k]; [cbn [coast]; unfold v3add, v3scale, v2add, v2scale; cbn [fst snd INR]; rnum; apply E; lra|].
  cbn [coast]. rewrite A by lra. rewrite coast_free; [|lra|intros s Hs; apply B; lra]. rewrite !S_INR. unfold v3add, v3scale, v2add, v2scale. cbn [fst snd]. rnum. apply E; lra.
Qed.
Lemma impulse_approaches n k : (k <= 44)%nat -> approaching [hor_impulse] n k.
Proof.
  intros Hk m Hm. rewrite impulse_shot. cbn [fst snd]. assert (L : (m <= 44)%nat) by lia. apply le_INR in L. replace (INR 44) with 44 in L by (rewrite INR_IZR_INZ; reflexivity). destruct m as [|[|m]]; lra.
Qed.
(** *** the loss *)
Lemma squares_zero : forall p g : list R, length p = length g -> 0 <= vsum (map (fun a => a * a) (vsub p g)) /\ (vsum (map (fun a => a * a) (vsub p g)) = 0 <-> p = g).
Proof.
  induction p as [|a p IH]; intros [|b g] L; try discriminate; [cbn; split; [lra|tauto]|]. injection L as L. destruct (IH g L) as [P Q]. unfold vsub, vsum in *. cbn [vmap2 map fold_right]. revert P Q. rnum. intros P Q.
  set (q := fold_right Rplus 0 _) in *. clearbody q. pose proof (Rle_0_sqr (a - b)) as Sq. unfold Rsqr in Sq. split; [lra|]. split.
  - intros H. assert (q = 0) by lra. assert ((a - b) * (a - b) = 0) by lra. apply Q in H0. subst g. f_equal. apply Rmult_integral in H1. lra.
  - intros H. injection H as -> H. apply Q in H. rewrite H. ring.
Qed.
Theorem loss_zero (p g : list (vec R)) : concat p <> [] -> concat g <> [] -> 0 <= loss p g /\ (loss p g = 0 <-> clipped p g = clipped g p).
Proof.
  intros Hp Hg. unfold loss, clipped. set (P := concat p) in *. set (G := concat g) in *. assert (L : length (firstn (length G) P) = Nat.min (length G) (length P)) by apply firstn_length.
  assert (E : firstn (length (firstn (length G) P)) G = firstn (length P) G).
  { rewrite L. destruct (Nat.le_ge_cases (length G) (length P)) as [H|H]; [rewrite Nat.min_l, !firstn_all2 by lia; reflexivity|now rewrite Nat.min_r]. }
  rewrite E. destruct (squares_zero (firstn (length G) P) (firstn (length P) G)) as [A B]; [rewrite !firstn_length; lia|].
  assert (N : (0 < length (firstn (length G) P))%nat) by (rewrite L; destruct P, G; try congruence; cbn; lia). apply lt_INR in N. rewrite INR_IZR_INZ in N. rewrite INR_IZR_INZ in N. cbn [Z.of_nat] in N.
  revert A B. unfold nmul, ndiv, nofZ. cbn [RNum]. rnum. intros A B. split.
  - apply Rmult_le_pos; [exact A|]. left. now apply Rinv_0_lt_compat.
  - rewrite <- B. split; intros H.
    + apply (f_equal (fun a => a * IZR (Z.of_nat (length (firstn (length G) P))))) in H. unfold Rdiv in H. rewrite Rmult_assoc, Rinv_l, Rmult_1_r, Rmult_0_l in H by lra. exact H.
    + rewrite H. unfold Rdiv. ring.
Qed.

(** *** the experiment *)
Lemma loads_expected fs mass n t : (1 <= n)%nat -> loads fs mass n t = expected_loads fs mass n t.
Proof.
  intros Hn. unfold loads, expected_loads. apply f_equal. destruct n as [|m]; [lia|]. rewrite Nat.sub_succ, Nat.sub_0_r. rewrite <- (Nat.add_1_r (S m)), seq_app, map_app. cbn [seq map Nat.add app]. apply f_equal2; [reflexivity|]. apply f_equal2.
  - apply nth_error_ext. intros i. rewrite nth_error_map. destruct (Nat.lt_ge_cases i m) as [Hi|Hi].
    + rewrite (nth_error_nth' _ 0%nat) by (now rewrite seq_length). rewrite seq_nth by exact Hi. rewrite (nth_error_repeat _ Hi). cbn [option_map Nat.add]. unfold load. destruct (Nat.ltb_spec (S i) (S m)) as [_|]; [|lia]. unfold weight. apply f_equal. apply f_equal2; [|apply f_equal2]; try reflexivity. ring.
    + rewrite !(proj2 (nth_error_None _ _)) by (rewrite ?seq_length, ?repeat_length; lia). reflexivity.
  - unfold load. rewrite Nat.ltb_irrefl. reflexivity.
Qed.
Theorem world_made fs mass n gf o : (1 <= n)%nat -> (18 <= gf)%nat -> broadphase_sane o ->
  exists w, make_world o (diff_handler gf o) fs mass n = Ok w /\ frame w = expected_frame fs n 0 /\ map b_mass (w_bodies w) = repeat (mass / INR n) n ++ [1] /\
    map (fun b => (b_rest b, b_fric b)) (w_bodies w) = repeat (1 / 2, 9 / 10) n ++ [(1, 9 / 10)] /\
    (forall t, world_apply_forces w t = Ok (expected_loads fs mass n t)) /\ w_contacts w = [] /\ w_t w = 0.
Proof.
  intros Hn Hg Ho. destruct (make_world_chain o (diff_handler gf o) fs mass n Hn) as (bs & Ch & ->).
  destruct (chain_starts fs mass n gf o bs Hn Ho Ch (chain_heap fs mass n) STEP TOL 2 true Hg) as [w Hw]; [unfold TOL; rnum; lra|]. exists w. split; [exact Hw|].
  split; [|split; [|split; [|split; [intros t; rewrite <- loads_expected by exact Hn; exact (w0_forces fs mass n gf o bs w Hn Ch Hw t)|]]]].
  3: { apply nth_error_ext. intros i. rewrite nth_error_map. destruct (nth_error (w_bodies w) i) as [b|] eqn:Hb; cbn [option_map].
    - destruct (w0_nth fs mass n gf o bs w Hn Ch Hw i b Hb) as (c & Hc & E). destruct (forget_surface _ _ E) as [-> ->]. destruct (w0_cases fs mass n gf o bs w Hn Ch Hw i b Hb) as [Hi| ->].
      + destruct (ch_link _ _ _ _ Ch i c Hi Hc) as [B _]. destruct (be_surface _ _ _ _ B) as [-> ->]. rewrite nth_error_app1 by (now rewrite repeat_length). symmetry. now apply nth_error_repeat.
      + destruct (ch_shot _ _ _ _ Ch c Hc) as [B _]. destruct (bu_surface _ _ B) as [-> ->]. rewrite nth_error_app2, repeat_length, Nat.sub_diag by (rewrite repeat_length; lia). reflexivity.
    - apply nth_error_None in Hb. rewrite (w0_len fs mass n gf o bs w Ch Hw) in Hb. symmetry. apply nth_error_None. rewrite app_length, repeat_length. cbn. lia. }
  2: { apply nth_error_ext. intros i. rewrite nth_error_map. destruct (nth_error (w_bodies w) i) as [b|] eqn:Hb; cbn [option_map].
    - destruct (w0_nth fs mass n gf o bs w Hn Ch Hw i b Hb) as (c & Hc & E). destruct (forget_keeps _ _ E) as (_ & _ & _ & _ & Em & _). rewrite Em. destruct (w0_cases fs mass n gf o bs w Hn Ch Hw i b Hb) as [Hi| ->].
      + destruct (ch_link _ _ _ _ Ch i c Hi Hc) as [B _]. rewrite (be_mass _ _ _ _ B), nth_error_app1 by (now rewrite repeat_length). symmetry. now apply nth_error_repeat.
      + destruct (ch_shot _ _ _ _ Ch c Hc) as [B _]. rewrite (bu_mass _ _ B), nth_error_app2, repeat_length, Nat.sub_diag by (rewrite repeat_length; lia). reflexivity.
    - apply nth_error_None in Hb. rewrite (w0_len fs mass n gf o bs w Ch Hw) in Hb. symmetry. apply nth_error_None. rewrite app_length, repeat_length. cbn. lia. }
  2: { split; [exact (chain_quiet fs mass n gf o bs Hn Ho Ch _ _ _ _ _ _ _ _ Hw)|destruct (world_init_inv _ _ _ _ _ _ _ _ _ _ _ _ Hw) as (_ & _ & _ & _ & _ & _ & -> & _); reflexivity]. }
  apply (frame_of fs mass n gf o bs w Hn Ch Hw). symmetry. apply coasting_0. exact (proj2 (chain_structure fs mass n gf o bs w Hn Ch Hw)).
Qed.
Theorem frames_before fs mass n gf o w la mi fuel lfuel run_time l w' k fr : (1 <= n)%nat -> 0 < mass -> broadphase_sane o -> lapack_ok la ->
  make_world o (diff_handler gf o) fs mass n = Ok w -> positions_run_world fuel lfuel o (diff_handler gf o) (pdipm_engine la mi) run_time w = Ok (l, w') ->
  nth_error l k = Some fr -> approaching fs n k -> fr = expected_frame fs n k.
Proof.
  intros Hn Hm Ho HL Hw. destruct (make_world_chain o (diff_handler gf o) fs mass n Hn) as (bs & Ch & E). rewrite E in Hw. eapply frames_known; eauto.
Qed.
Theorem run_before fs mass n gf o w la mi fuel lfuel run_time K : (1 <= n)%nat -> 0 < mass -> broadphase_sane o -> lapack_ok la -> (0 < mi)%nat -> (18 <= gf)%nat ->
  make_world o (diff_handler gf o) fs mass n = Ok w -> approaching fs n K -> (forall m, (m < K)%nat -> INR m / 30 < run_time) -> run_time <= INR K / 30 -> (K < fuel)%nat ->
  exists w', positions_run_world fuel (S lfuel) o (diff_handler gf o) (pdipm_engine la mi) run_time w = Ok (map (expected_frame fs n) (seq 0 (S K)), w').
Proof.
  intros Hn Hm Ho HL Hmi Hg Hw. destruct (make_world_chain o (diff_handler gf o) fs mass n Hn) as (bs & Ch & E). rewrite E in Hw. eapply run_known; eauto.
Qed.
Lemma frames_concat fs n K : concat (map (expected_frame fs n) (seq 0 (S K))) <> [].
Proof.
  cbn [seq map concat]. unfold expected_frame at 1. intros H. apply (f_equal (@length R)) in H. rewrite app_length, cat3_length, app_length in H. cbn in H. lia.
Qed.
Theorem impulse_arrives n k :
  shot [hor_impulse] n k = ((0, (match k with 0 => 50 | 1 => 155 / 3 | _ => 45 + 5 * INR k end, 50 + 50 * INR (n - 1))), (0, (match k with 0 => 0 | 1 => 50 | 2 => 100 | _ => 150 end, 0))) /\
  (approaching [hor_impulse] n k <-> (k <= 44)%nat).
Proof.
  split; [apply impulse_shot|]. split; [|apply impulse_approaches]. intros H. destruct (Nat.le_gt_cases k 44) as [|L]; [assumption|]. specialize (H 45%nat L). rewrite impulse_shot in H. cbn [fst snd] in H.
  rewrite INR_IZR_INZ in H. cbn in H. lra.
Qed.
Theorem masses_alike mass mass' n gf o la mi fuel lfuel run_time K : (1 <= n)%nat -> 0 < mass -> 0 < mass' -> broadphase_sane o -> lapack_ok la -> (0 < mi)%nat -> (18 <= gf)%nat ->
  (K <= 44)%nat -> (forall m, (m < K)%nat -> INR m / 30 < run_time) -> run_time <= INR K / 30 -> (K < fuel)%nat ->
  exists w w' l l' z z',
    make_world o (diff_handler gf o) [hor_impulse] mass n = Ok w /\ positions_run_world fuel (S lfuel) o (diff_handler gf o) (pdipm_engine la mi) run_time w = Ok (l, z) /\
    make_world o (diff_handler gf o) [hor_impulse] mass' n = Ok w' /\ positions_run_world fuel (S lfuel) o (diff_handler gf o) (pdipm_engine la mi) run_time w' = Ok (l', z') /\
    length l = S K /\ loss l l' = 0.
Proof.
  intros Hn Hm Hm' Ho HL Hmi Hg HK H1 H2 H3. destruct (world_made [hor_impulse] mass n gf o Hn Hg Ho) as (w & E & _). destruct (world_made [hor_impulse] mass' n gf o Hn Hg Ho) as (w' & E' & _).
  destruct (run_before [hor_impulse] mass n gf o w la mi fuel lfuel run_time K Hn Hm Ho HL Hmi Hg E (impulse_approaches n K HK) H1 H2 H3) as [z Hz].
  destruct (run_before [hor_impulse] mass' n gf o w' la mi fuel lfuel run_time K Hn Hm' Ho HL Hmi Hg E' (impulse_approaches n K HK) H1 H2 H3) as [z' Hz'].
  exists w, w'. do 2 eexists. exists z, z'. split; [exact E|]. split; [exact Hz|]. split; [exact E'|]. split; [exact Hz'|]. split; [now rewrite map_length, seq_length|].
  apply loss_zero; [apply frames_concat|apply frames_concat|reflexivity].
Qed.
