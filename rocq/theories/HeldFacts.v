(** One-body constraints hold for ever; the centre of mass moves with the total momentum *)
From Coq Require Import List Arith ZArith Bool Reals Lra Lia.
From Verif Require Import Num Tensor Utils Bodies Forces Constraints Contacts World Lapack Pdipm Lcp Engines Spec GeoSpec JointSpec EngineSpec
     RBase ResFacts LinAlg LapackSpec KktSpec PdipmSpec WorldFacts HandlerFacts LayoutFacts HistFacts SysFacts RewindFacts JointFacts JeFacts
     CacheFacts BodyReach GeomFacts PdipmFacts PdipmLoop SolverFacts EngineFacts ContactSys EngineBalance MomentumFacts PostFacts.
Import ListNotations.
Open Scope R_scope.

Lemma flat_map_eq {A B} (f g : A -> list B) l : (forall a, In a l -> length (f a) = length (g a)) -> flat_map f l = flat_map g l -> forall a, In a l -> f a = g a.
Proof.
  induction l as [|b l IH]; intros HL E a Ha; [destruct Ha|]. cbn [flat_map] in E. apply app_split in E; [|apply HL; now left]. destruct E as [E1 E2].
  destruct Ha as [<-|Ha]; [exact E1|]. apply IH; auto. intros c Hc. apply HL. now right.
Qed.
Lemma vopp_flat_map {A} (f : A -> vecR) l : vopp (flat_map f l) = flat_map (fun a => vopp (f a)) l.
Proof. induction l as [|a l IH]; [reflexivity|]. cbn [flat_map]. unfold vopp in *. now rewrite map_app, IH. Qed.
Lemma cv_entries w x : constraint_velocity w x = flat_map (entry_vel w x) (w_joints w).
Proof. reflexivity. Qed.
Lemma entry_vel_length w x y e : length (entry_vel w x e) = length (entry_vel w y e).
Proof.
  destruct e as [[j i1] i2]. unfold entry_vel. destruct (nth_error (w_bodies w) i1) as [b1|]; [|reflexivity]. unfold measured.
  destruct (j_kind j); try reflexivity; destruct i2 as [i|]; try reflexivity; destruct (nth_error (w_bodies w) i) as [b2|]; reflexivity.
Qed.

Lemma zero_still w x j i1 i2 b1 : nth_error (w_bodies w) i1 = Some b1 -> Forall (fun a => a = 0) (entry_vel w x (j, i1, i2)) -> held (j_kind j) (0, (0, 0)) (v3_at x i1).
Proof.
  intros Hb H. unfold entry_vel in H. rewrite Hb in H. unfold measured in H. unfold held. destruct (j_kind j); try exact I; cbn [fst snd];
    repeat match goal with H : Forall _ (_ :: _) |- _ => apply Forall_cons_iff in H; destruct H as [? H] end; auto.
  rewrite (surjective_pairing (v3_at x i1)), (surjective_pairing (snd (v3_at x i1))). rewrite H0, H1, H2. reflexivity.
Qed.
Lemma still_zero w x j i1 i2 b1 : nth_error (w_bodies w) i1 = Some b1 -> held (j_kind j) (0, (0, 0)) (v3_at x i1) ->
  match j_kind j with JX | JY | JRot | JTotal => Forall (fun a => a = 0) (entry_vel w x (j, i1, i2)) | _ => True end.
Proof.
  intros Hb H. unfold entry_vel. rewrite Hb. unfold measured. unfold held in H. destruct (j_kind j); try exact I; cbn [fst snd] in H; try (constructor; [exact H|constructor]).
  rewrite H. cbn. repeat constructor.
Qed.
Lemma held_move k p v dp a b : held k (0, (0, 0)) v -> held k (0, (0, 0)) dp -> held k p (v3add (v3add p (v3scale a v)) (v3scale b dp)).
Proof.
  destruct p as [pr [px py]], v as [vr [vx vy]], dp as [dr [dx dy]]. unfold held, v3add, v3scale, v2add, v2scale. cbn [fst snd]. rnum.
  destruct k; try trivial; intros H1 H2; try (rewrite H1, H2; ring). injection H1 as -> -> ->. injection H2 as -> -> ->. apply f_equal2; [|apply f_equal2]; ring.
Qed.
Lemma held_trans k p q r : held k p q -> held k q r -> held k p r.
Proof. destruct k; cbn; try trivial; intros; congruence. Qed.

Section Entries.
Variables (bs : list (body R)) (js : list (joint R)) (J0 : list jent).
(** the entry of a constraint, in every sound world *)
Lemma entry_found w j i b0 : sound bs js J0 w -> In j js -> nth_error bs i = Some b0 -> b_id b0 = j_b1 j ->
  exists j' i2 b, In (j', i, i2) (w_joints w) /\ j_kind j' = j_kind j /\ nth_error (w_bodies w) i = Some b.
Proof.
  intros HS Hin Hb0 Hid. destruct (so_found _ _ _ _ HS) as (Hnd & _ & He & [_ Hj] & _). apply In_nth_error in Hin. destruct Hin as [k Hk].
  destruct (nth_error_Forall2_l _ _ _ _ _ He Hk) as ([[j0 m1] m2] & Hn0 & (-> & (c1 & Hc1 & E1) & _)).
  destruct (nth_error_Forall2_l _ _ _ _ _ Hj Hn0) as ([[j' k1] k2] & Hn1 & (-> & -> & a1 & b1 & b2 & Ha & Hb & Hok)).
  assert (m1 = i).
  { apply (NoDup_nth_error (map b_id bs)); [exact Hnd|rewrite map_length; apply nth_error_Some; congruence|]. rewrite !nth_error_map, Hc1, Hb0. cbn. congruence. }
  subst m1. apply joint_bodies_Ok in Hb. destruct Hb as [Hb1 _]. exists j', m2, b1. split; [eapply nth_error_In; eauto|]. split; [apply Hok|exact Hb1].
Qed.
Lemma solved_still w j i b0 v : sound bs js J0 w -> In j js -> nth_error bs i = Some b0 -> b_id b0 = j_b1 j ->
  constraint_velocity w v = vzeros (w_num_constraints w) -> held (j_kind j) (0, (0, 0)) (v3_at v i).
Proof.
  intros HS Hin Hb0 Hid E. destruct (entry_found w j i b0 HS Hin Hb0 Hid) as (j' & i2 & b & He & <- & Hb). apply (zero_still w v j' i i2 b Hb).
  rewrite cv_entries in E. apply Forall_forall. intros a Ha. assert (In a (flat_map (entry_vel w v) (w_joints w))) as Q by (apply in_flat_map; eauto).
  rewrite E in Q. exact (repeat_spec _ _ _ Q).
Qed.
Lemma corrected_still w j i b0 v dp : sound bs js J0 w -> In j js -> nth_error bs i = Some b0 -> b_id b0 = j_b1 j ->
  held (j_kind j) (0, (0, 0)) (v3_at v i) -> constraint_velocity w dp = vopp (constraint_velocity w v) -> held (j_kind j) (0, (0, 0)) (v3_at dp i).
Proof.
  intros HS Hin Hb0 Hid Hv E. destruct (entry_found w j i b0 HS Hin Hb0 Hid) as (j' & i2 & b & He & K & Hb). rewrite <- K in *.
  rewrite !cv_entries, vopp_flat_map in E.
  pose proof (flat_map_eq _ _ _ (fun a _ => eq_trans (entry_vel_length w dp v a) (eq_sym (vopp_length _))) E _ He) as Q. cbv beta in Q.
  pose proof (still_zero w v j' i i2 b Hb Hv) as Z. pose proof (zero_still w dp j' i i2 b Hb) as Y.
  destruct (j_kind j'); try exact I; apply Y; rewrite Q; unfold vopp; apply Forall_map; (eapply Forall_impl; [|exact Z]); intros a ->; cbn; rnum; lra.
Qed.
End Entries.

Section Steps.
Variables (la : lapack R) (mi fuel : nat) (o : oracle R) (hd : handler R) (bs : list (body R)) (js : list (joint R)) (J0 : list jent).
Hypothesis HL : lapack_ok la.
Hypothesis Hf : handler_frame hd.
Hypothesis Hr : handler_respects hd.
Hypothesis Ho : broadphase_sane o.
Notation eng := (pdipm_engine la mi).

Lemma step_held w dt w' j i b0 b b' : sound bs js J0 w -> valid la w -> Forall geom_ok (w_bodies w) -> step_dt fuel o hd eng w dt = Ok w' ->
  In j js -> nth_error bs i = Some b0 -> b_id b0 = j_b1 j -> nth_error (w_bodies w) i = Some b -> nth_error (w_bodies w') i = Some b' -> held (j_kind j) (b_p b) (b_p b').
Proof.
  intros HS HV HG H Hin Hb0 Hid Hb Hb'. destruct (step_poses la mi fuel o hd bs js J0 Hf Hr Ho w dt w' HS HV HG H) as (v & c & k & w2 & dp & Es & S2 & V2 & Ev & Hdp & Et & _ & HP).
  destruct (solve_balance bs js J0 w la mi HS HL HV dt v c Es) as (f & imps & y & _ & _ & _ & EC).
  pose proof (solved_still bs js J0 w j i b0 v HS Hin Hb0 Hid EC) as Sv.
  destruct (HP i b Hb) as (b1 & Hb1 & Pb1). rewrite Hb' in Hb1. injection Hb1 as <-. rewrite Pb1. apply held_move; [exact Sv|].
  destruct Hdp as [[_ ->]|[_ Hdp]].
  - assert (Z : v3_at (vzeros (3 * length (w_bodies w))) i = (0, (0, 0))) by (unfold v3_at; rewrite !vget_zeros; reflexivity). rewrite Z. destruct (j_kind j); cbn; trivial.
  - destruct (post_balance bs js J0 w2 la S2 HL V2 dp Hdp) as (_ & E & _). rewrite Ev in E. exact (corrected_still bs js J0 w2 j i b0 v dp S2 Hin Hb0 Hid Sv E).
Qed.

Lemma exec_held ops w w' : sound bs js J0 w -> valid la w -> Forall geom_ok (w_bodies w) -> exec fuel o hd eng ops w = Ok w' ->
  forall j i b0 b b', In j js -> nth_error bs i = Some b0 -> b_id b0 = j_b1 j -> nth_error (w_bodies w) i = Some b -> nth_error (w_bodies w') i = Some b' -> held (j_kind j) (b_p b) (b_p b').
Proof.
  intros HS HV HG H. set (P := fun a : world R => sound bs js J0 a /\ valid la a /\ Forall geom_ok (w_bodies a) /\
    forall j i b0 b b', In j js -> nth_error bs i = Some b0 -> b_id b0 = j_b1 j -> nth_error (w_bodies w) i = Some b -> nth_error (w_bodies a) i = Some b' -> held (j_kind j) (b_p b) (b_p b')).
  enough (P w') by apply H0. apply (exec_invariant fuel o hd eng P) with ops w; auto.
  - intros a dt a' (S1 & V1 & G1 & E1) Hs. split; [exact (sound_step_dt bs js J0 o hd Hf Hr Ho fuel eng a dt a' S1 Hs)|]. split; [exact (valid_step _ _ _ _ _ _ _ _ Hf V1 Hs)|]. split.
    + assert (Q : Forall2 geom_rel (w_bodies a) (w_bodies a')) by (eapply step_dt_bodies; eauto; [apply geom_steps|apply Forall2_refl', geom_steps]).
      clear - Q G1. revert G1. induction Q as [|x y l l' Hxy Q IH]; intros G; constructor; apply Forall_cons_iff in G; [now apply Hxy|apply IH, G].
    + intros j i b0 b b' Hj Hb0 Hid Hb Hb'. assert (LA : length (w_bodies a) = length (w_bodies w)) by (rewrite (so_len _ _ _ _ S1), (so_len _ _ _ _ HS); reflexivity).
      destruct (nth_error (w_bodies a) i) as [b1|] eqn:Hb1.
      * apply (held_trans _ _ (b_p b1)); [exact (E1 j i b0 b b1 Hj Hb0 Hid Hb Hb1)|]. exact (step_held a dt a' j i b0 b1 b' S1 V1 G1 Hs Hj Hb0 Hid Hb1 Hb').
      * apply nth_error_None in Hb1. assert (i < length (w_bodies w))%nat by (apply nth_error_Some; congruence). lia.
  - intros a v a' (S1 & V1 & G1 & E1) Hs. split; [exact (sound_set_v _ _ _ _ _ _ S1 Hs)|]. pose proof Hs as Hs'. apply set_v_inv in Hs'. destruct Hs' as [_ ->]. split; [|split].
    + apply (valid_kinds la a); auto. exact (kinds_set_v _ _ _ Hs).
    + cbn. now apply with_vs_geom.
    + cbn. intros j i b0 b b' Hj Hb0 Hid Hb Hb'. rewrite mapi_nth in Hb'. destruct (nth_error (w_bodies a) i) as [b1|] eqn:Hb1; [|discriminate]. injection Hb' as <-. exact (E1 j i b0 b b1 Hj Hb0 Hid Hb Hb1).
  - split; [exact HS|]. split; [exact HV|]. split; [exact HG|]. intros j i b0 b b' _ _ _ Hb Hb'. rewrite Hb in Hb'. injection Hb' as <-. destruct (j_kind j); cbn; trivial.
Qed.

(** the centre of mass *)
Lemma step_centre w dt w' : sound bs js J0 w -> valid la w -> Forall geom_ok (w_bodies w) -> Forall pushless js -> step_dt fuel o hd eng w dt = Ok w' ->
  mass_centre w' = v2add (mass_centre w) (v2scale (w_t w' - w_t w) (momentum w' (w_v w'))).
Proof.
  intros HS HV HG Hp H. pose proof (step_dt_attrs _ _ _ _ _ _ _ Hf H) as HA.
  destruct (step_poses la mi fuel o hd bs js J0 Hf Hr Ho w dt w' HS HV HG H) as (v & c & k & w2 & dp & Es & S2 & V2 & Ev & Hdp & Et & _ & HP).
  destruct (step_dt_v _ _ _ _ _ _ _ H) as (v' & c' & Es' & Ev'). cbn [e_solve pdipm_engine] in Es'. rewrite Es in Es'. injection Es' as <- <-.
  assert (LA : length (w_bodies w2) = length (w_bodies w)) by (rewrite (so_len _ _ _ _ S2), (so_len _ _ _ _ HS); reflexivity).
  assert (Z : momentum w dp = (0, 0)).
  { destruct Hdp as [[_ ->]|[_ Hdp]].
    - unfold momentum. apply f_equal2; rewrite (Rsum_mapi_ext _ (fun _ _ => 0)).
      2,4: intros i b _; unfold v3_at; rewrite !vget_zeros; cbn [fst snd]; ring.
      all: unfold mapi; generalize 0%nat; clear; induction (w_bodies w) as [|b l IH]; intros m; [reflexivity|]; cbn [mapi_from Rsum fold_right]; specialize (IH (S m)); unfold Rsum in IH; rewrite IH; ring.
    - destruct (post_balance bs js J0 w2 la S2 HL V2 dp Hdp) as (Ld & _ & lam & y & Ll & Ly & B).
      assert (A2 : Forall2 same_attrs (w_bodies w) (w_bodies w2)).
      { pose proof (so_attrs _ _ _ _ HS) as A. pose proof (so_attrs _ _ _ _ S2) as A'. clear - A A'. revert A'. generalize (w_bodies w2) as l2. induction A as [|a b l l' Hab A IH]; intros l2 A'; inversion A' as [|? d ? ? Had Q]; subst; constructor; [|now apply IH].
        clear - Hab Had. unfold same_attrs in *. intuition congruence. }
      rewrite <- (momentum_same w w2 dp A2).
      assert (C : forall d, component d (momentum w2 dp) = 0).
      { intros d. rewrite <- kinetic_translation. rewrite B by apply translation_length.
        rewrite contact_power_zero by (intros c0 Hc0; now apply (translation_contacts bs js J0 w2 S2)).
        rewrite constraint_velocity_zero by (intros j i1 i2 Hin; now apply (translation_constraints bs js J0 w2 S2)). ring. }
      pose proof (C (1, 0)) as C1. pose proof (C (0, 1)) as C2. unfold component in *. cbn [fst snd] in *. rewrite (surjective_pairing (momentum w2 dp)). apply f_equal2; lra. }
  rewrite Ev', (momentum_same w w' v HA), Et. unfold mass_centre, momentum in *. injection Z as Z1 Z2. unfold v2add, v2scale. cbn [fst snd]. rnum.
  replace (w_t w + dt / 2 ^ k - w_t w) with (dt / 2 ^ k) by ring. set (a := dt / 2 ^ k) in *.
  assert (K : forall g : v2 R -> R, (forall x y s, g (v2add x (v2scale s y)) = g x + s * g y) ->
     Rsum (mapi (fun i b => b_mass b * g (snd (v3_at dp i))) (w_bodies w)) = 0 ->
     Rsum (mapi (fun _ b => b_mass b * g (b_pos b)) (w_bodies w')) =
     Rsum (mapi (fun _ b => b_mass b * g (b_pos b)) (w_bodies w)) + a * Rsum (mapi (fun i b => b_mass b * g (snd (v3_at v i))) (w_bodies w))).
  { intros g Hg Hz.
    assert (E : Rsum (mapi (fun _ b => b_mass b * g (b_pos b)) (w_bodies w')) =
      1 * Rsum (mapi (fun i b => 1 * (b_mass b * g (b_pos b)) + a * (b_mass b * g (snd (v3_at v i)))) (w_bodies w)) + a / 2 * Rsum (mapi (fun i b => b_mass b * g (snd (v3_at dp i))) (w_bodies w))).
    2:{ rewrite E, Hz, <- Rsum_mapi_lin. ring. }
    rewrite Rsum_mapi_lin. apply (f_equal Rsum). apply nth_error_ext. intros i. rewrite !mapi_nth.
    destruct (nth_error (w_bodies w) i) as [b|] eqn:Hb.
    - destruct (HP i b Hb) as (b' & Hb' & Pb). rewrite Hb'. cbn [option_map]. apply (f_equal Some).
      destruct (nth_error_Forall2_l _ _ _ _ _ HA Hb) as (b'' & Hb'' & (_ & Em & _)). rewrite Hb' in Hb''. injection Hb'' as <-. rewrite Em.
      unfold b_pos. rewrite Pb. unfold v3add, v3scale. cbn [fst snd]. rewrite !Hg. field.
    - assert (HLn : length (w_bodies w') = length (w_bodies w)) by (symmetry; apply (Forall2_len _ _ _ HA)).
      destruct (nth_error (w_bodies w') i) as [b'|] eqn:Hb'; [|reflexivity]. apply nth_error_None in Hb. assert (i < length (w_bodies w'))%nat by (apply nth_error_Some; congruence). lia. }
  apply f_equal2; [apply (K fst)|apply (K snd)]; auto; intros [x1 x2] [y1 y2] s; reflexivity.
Qed.
End Steps.
