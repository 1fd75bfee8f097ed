(** Linear and angular momentum *)
From Coq Require Import List Arith ZArith Bool Reals Lra Lia Psatz.
From Verif Require Import Num Tensor Utils Bodies Forces Constraints Contacts World Lapack Pdipm Lcp Engines Spec GeoSpec JointSpec EngineSpec
     RBase ResFacts LinAlg LapackSpec KktSpec PdipmSpec WorldFacts HandlerFacts LayoutFacts HistFacts SysFacts RewindFacts JointFacts JeFacts
     CacheFacts BodyReach GeomFacts PdipmFacts PdipmLoop SolverFacts EngineFacts ContactSys EngineBalance.
Import ListNotations.
Open Scope R_scope.

Lemma Rsum_mapi_ext {A} (f g : nat -> A -> R) l : (forall i b, nth_error l i = Some b -> f i b = g i b) -> Rsum (mapi f l) = Rsum (mapi g l).
Proof.
  intros H. unfold mapi. assert (K : forall k, (forall i b, nth_error l i = Some b -> f (k + i)%nat b = g (k + i)%nat b) -> Rsum (mapi_from k f l) = Rsum (mapi_from k g l)).
  { clear. induction l as [|b l IH]; intros k H; [reflexivity|]. cbn [mapi_from Rsum fold_right]. apply f_equal2.
    - specialize (H 0%nat b eq_refl). now rewrite Nat.add_0_r in H.
    - apply IH. intros i b' Hb. specialize (H (S i) b' Hb). now rewrite Nat.add_succ_r in H. }
  apply K. exact H.
Qed.
Lemma Rsum_mapi_lin {A} (f g : nat -> A -> R) a b l : a * Rsum (mapi f l) + b * Rsum (mapi g l) = Rsum (mapi (fun i c => a * f i c + b * g i c) l).
Proof. unfold mapi. generalize 0%nat. induction l as [|c l IH]; intros k; cbn [mapi_from Rsum fold_right]; [ring|]. specialize (IH (S k)). unfold Rsum in IH. rewrite <- IH. ring. Qed.
Lemma dot_mapi {A} (l : list A) (x y : vecR) : length x = (3 * length l)%nat -> length y = (3 * length l)%nat ->
  dot x y = Rsum (mapi (fun i _ => d3 (v3_at x i) (v3_at y i)) l).
Proof.
  intros Hx Hy. rewrite (dot_sum3 (length l)) by auto. unfold sum3, Rsum. f_equal. unfold mapi. generalize 0%nat.
  induction l as [|a l IH] in |- *; intros k; [reflexivity|]. cbn [length seq map mapi_from]. f_equal. apply IH.
Qed.
Lemma at_field {A} (g : A -> v3 R) l i b : nth_error l i = Some b -> v3_at (cat3 (map g l)) i = g b.
Proof.
  intros H. rewrite (v3_at_cat3 _ i v3zero) by (rewrite map_length; apply nth_error_Some; congruence). apply nth_error_nth. now apply map_nth_error.
Qed.

Definition translation (w : world R) (d : v2 R) : vecR := cat3 (map (fun _ => (0, d)) (w_bodies w)).
Definition rotation (w : world R) (o : v2 R) : vecR := cat3 (map (fun b => (1, (- (snd (b_pos b) - snd o), fst (b_pos b) - fst o))) (w_bodies w)).

Section Fields.
Variable w : world R.
Notation n := (3 * length (w_bodies w))%nat.
Lemma translation_length d : length (translation w d) = n.
Proof. unfold translation. now rewrite cat3_length, map_length. Qed.
Lemma rotation_length o : length (rotation w o) = n.
Proof. unfold rotation. now rewrite cat3_length, map_length. Qed.
Lemma kinetic_translation d v : kinetic w (translation w d) v = component d (momentum w v).
Proof.
  unfold component, momentum. cbn [fst snd]. rewrite Rsum_mapi_lin. apply Rsum_mapi_ext. intros i b Hb. unfold translation. rewrite (at_field _ _ _ _ Hb). unfold component. cbn [fst snd]. ring.
Qed.
Lemma kinetic_rotation o v : kinetic w (rotation w o) v = angular_momentum o w v.
Proof.
  apply Rsum_mapi_ext. intros i b Hb. unfold rotation. rewrite (at_field _ _ _ _ Hb). unfold component, cross_2d, v2sub. cbn [fst snd]. rnum. ring.
Qed.
Lemma dot_translation d f : length f = n -> dot (translation w d) f = component d (total_force w f).
Proof.
  intros Hf. rewrite (dot_mapi (w_bodies w)) by (auto using translation_length). unfold component, total_force. cbn [fst snd]. rewrite Rsum_mapi_lin.
  apply Rsum_mapi_ext. intros i b Hb. unfold translation. rewrite (at_field _ _ _ _ Hb). unfold d3. cbn [fst snd]. ring.
Qed.
Lemma dot_rotation o f : length f = n -> dot (rotation w o) f = total_torque o w f.
Proof.
  intros Hf. rewrite (dot_mapi (w_bodies w)) by (auto using rotation_length). apply Rsum_mapi_ext. intros i b Hb.
  unfold rotation. rewrite (at_field _ _ _ _ Hb). unfold d3, cross_2d, v2sub. cbn [fst snd]. rnum. ring.
Qed.
(** the fields the contacts do not see *)
Lemma contact_power_zero imps x : (forall c, In c (w_contacts w) -> relative_velocity x c = (0, 0)) -> contact_power (w_contacts w) imps x = 0.
Proof.
  intros H. unfold contact_power. revert imps. induction (w_contacts w) as [|c cs IH]; intros imps; [reflexivity|]. destruct imps as [|im imps]; [reflexivity|].
  cbn [map2 Rsum fold_right]. specialize (IH ltac:(intros; apply H; now right) imps). unfold Rsum in IH. rewrite IH, (H c ltac:(now left)). unfold component. cbn [fst snd]. ring.
Qed.
Lemma constraint_velocity_zero x y : (forall j i1 i2, In (j, i1, i2) (w_joints w) -> Forall (fun a => a = 0) (entry_vel w x (j, i1, i2))) -> dot y (constraint_velocity w x) = 0.
Proof.
  intros H. assert (G : Forall (fun a => a = 0) (constraint_velocity w x)).
  { apply Forall_forall. intros a Ha. apply in_flat_map in Ha. destruct Ha as ([[j i1] i2] & Hin & Ha). specialize (H _ _ _ Hin). rewrite Forall_forall in H. apply H. exact Ha. }
  revert y. induction G as [|a l Ha G IH]; intros y; [apply dot_nil_r|]. destruct y as [|b y]; [apply dot_nil_l|]. rewrite dot_cons, IH, Ha. ring.
Qed.
End Fields.

Section Engine.
Variables (bs : list (body R)) (js : list (joint R)) (J0 : list jent) (w : world R).
Hypothesis HS : sound bs js J0 w.
Notation n := (3 * length (w_bodies w))%nat.

Lemma entry_bodies j i1 i2 : In (j, i1, i2) (w_joints w) -> exists j0 b1, In j0 js /\ j_kind j = j_kind j0 /\ nth_error (w_bodies w) i1 = Some b1 /\
  (j_b2 j0 <> None -> exists i b2, i2 = Some i /\ nth_error (w_bodies w) i = Some b2).
Proof.
  intros Hin. destruct (so_found _ _ _ _ HS) as (_ & _ & He & [_ Hj] & _). apply In_nth_error in Hin. destruct Hin as [k Hk].
  destruct (nth_error_Forall2 _ _ _ _ _ Hj Hk) as ([[j0 m1] m2] & Hn0 & (-> & -> & a1 & b1 & b2 & Ha & Hb & Hok)).
  destruct (nth_error_Forall2 _ _ _ _ _ He Hn0) as (j' & Hj' & (-> & _ & H2)).
  apply joint_bodies_Ok in Hb. destruct Hb as [Hb1 Hb2]. exists j', b1. split; [eapply nth_error_In; eauto|]. split; [apply Hok|]. split; [exact Hb1|].
  intros Hn. destruct (j_b2 j') as [id|]; [|congruence]. destruct m2 as [i|]; [|contradiction]. destruct Hb2 as (b & _ & Hb). eauto.
Qed.
Lemma contact_bodies c : In c (w_contacts w) -> exists b1 b2, nth_error (w_bodies w) (c_i1 c) = Some b1 /\ nth_error (w_bodies w) (c_i2 c) = Some b2.
Proof.
  intros Hin. pose proof (so_range _ _ _ _ HS) as H. rewrite Forall_forall in H. destruct (H c Hin) as (_ & H1 & H2).
  destruct (nth_error (w_bodies w) (c_i1 c)) as [b1|] eqn:E1; [|apply nth_error_None in E1; lia]. destruct (nth_error (w_bodies w) (c_i2 c)) as [b2|] eqn:E2; [|apply nth_error_None in E2; lia]. eauto.
Qed.
Lemma translation_contacts d c : In c (w_contacts w) -> relative_velocity (translation w d) c = (0, 0).
Proof.
  intros Hin. destruct (contact_bodies c Hin) as (b1 & b2 & H1 & H2). unfold relative_velocity, translation. rewrite (at_field _ _ _ _ H1), (at_field _ _ _ _ H2).
  unfold v2sub, point_velocity. cbn [fst snd]. rnum. apply f_equal2; ring.
Qed.
Lemma rotation_contacts o c : consistent w -> In c (w_contacts w) -> relative_velocity (rotation w o) c = (0, 0).
Proof.
  intros Hc Hin. destruct (contact_bodies c Hin) as (b1 & b2 & H1 & H2). specialize (Hc c b1 b2 Hin H1 H2). unfold relative_velocity, rotation. rewrite (at_field _ _ _ _ H1), (at_field _ _ _ _ H2).
  unfold v2add in Hc. rnum. pose proof (f_equal fst Hc) as E1. pose proof (f_equal snd Hc) as E2. cbn in E1, E2. unfold v2sub, point_velocity. cbn [fst snd]. rnum. apply f_equal2; lra.
Qed.
Lemma translation_constraints d j i1 i2 : Forall pushless js -> In (j, i1, i2) (w_joints w) -> Forall (fun a => a = 0) (entry_vel w (translation w d) (j, i1, i2)).
Proof.
  intros Hp Hin. destruct (entry_bodies _ _ _ Hin) as (j0 & b1 & Hj0 & K & H1 & H2). rewrite Forall_forall in Hp. specialize (Hp _ Hj0).
  unfold entry_vel. rewrite H1. unfold translation. rewrite (at_field _ _ _ _ H1). destruct Hp as [[Hk Hb]|Hk].
  - destruct (H2 Hb) as (i & b2 & -> & Hb2). rewrite Hb2, (at_field _ _ _ _ Hb2). rewrite K. unfold measured. destruct Hk as [-> | ->]; unfold v2l, v2sub, point_velocity; cbn [fst snd app]; rnum; repeat (apply Forall_cons; [ring|]); apply Forall_nil.
  - rewrite K, Hk. cbn. repeat constructor.
Qed.
Lemma rotation_constraints o j i1 i2 : Forall between_bodies js -> In (j, i1, i2) (w_joints w) -> Forall (fun a => a = 0) (entry_vel w (rotation w o) (j, i1, i2)).
Proof.
  intros Hp Hin. destruct (entry_bodies _ _ _ Hin) as (j0 & b1 & Hj0 & K & H1 & H2). rewrite Forall_forall in Hp. destruct (Hp _ Hj0) as [Hk Hb].
  unfold entry_vel. rewrite H1. unfold rotation. rewrite (at_field _ _ _ _ H1).
  destruct (H2 Hb) as (i & b2 & -> & Hb2). rewrite Hb2, (at_field _ _ _ _ Hb2). rewrite K. unfold measured. destruct Hk as [-> | ->]; unfold v2l, v2sub, point_velocity; cbn [fst snd app]; rnum; repeat (apply Forall_cons; [ring|]); apply Forall_nil.
Qed.
Lemma balance_momentum dt f v imps y : length f = n -> Forall pushless js -> balance w dt f v imps y (vzeros n) ->
  momentum w v = v2add (momentum w (w_v w)) (v2scale dt (total_force w f)).
Proof.
  intros Lf Hp (_ & _ & B).
  assert (G : forall d, component d (momentum w v) = component d (momentum w (w_v w)) + dt * component d (total_force w f)).
  { intros d. specialize (B _ (translation_length w d)). rewrite !kinetic_translation, dot_translation in B by auto. rewrite contact_power_zero in B by (intros c Hc; now apply translation_contacts).
    rewrite constraint_velocity_zero in B by (intros j i1 i2 Hin; now apply translation_constraints). rewrite dot_zeros_l in B. lra. }
  pose proof (G (1, 0)) as G1. pose proof (G (0, 1)) as G2. unfold component in G1, G2. cbn [fst snd] in G1, G2.
  rewrite (surjective_pairing (momentum w v)). unfold v2add, v2scale. cbn [fst snd]. rnum. apply f_equal2; lra.
Qed.
Lemma balance_angular o dt f v imps y : length f = n -> Forall between_bodies js -> consistent w -> balance w dt f v imps y (vzeros n) ->
  angular_momentum o w v = angular_momentum o w (w_v w) + dt * total_torque o w f.
Proof.
  intros Lf Hp Hc (_ & _ & B). specialize (B _ (rotation_length w o)). rewrite !kinetic_rotation, dot_rotation in B by auto. rewrite contact_power_zero in B by (intros c Hc'; now apply rotation_contacts).
  rewrite constraint_velocity_zero in B by (intros j i1 i2 Hin; now apply rotation_constraints). rewrite dot_zeros_l in B. lra.
Qed.
End Engine.

(** *** steps *)
Lemma step_dt_v fuel o hd e (w : world R) dt w' : step_dt fuel o hd e w dt = Ok w' -> exists v c, e_solve e w dt = Ok (v, c) /\ w_v w' = v.
Proof.
  unfold step_dt. intros H. cbv zeta in H. bind_inv H as sol Es. destruct sol as [v c]. exists v, c. split; [exact Es|].
  bind_inv H as w1 E1. bind_inv H as r Er. destruct r as [w2 dt']. apply step_loop_tries in Er. destruct Er as (k & _ & Ht). apply tries_v in Ht.
  apply set_v_inv in E1. destruct E1 as [_ ->]. cbn in Ht. bind_inv H as w3 E3. injection H as <-. cbn.
  destruct (w_post_stab w2); [|injection E3 as <-; exact Ht].
  bind_inv E3 as dp Ep. bind_inv E3 as wa Ea. bind_inv E3 as wb Eb. bind_inv E3 as wc Ec. apply set_v_inv in Ec. destruct Ec as [_ ->].
  apply find_contacts_inv in E3. destruct E3 as (cs & b & clk & ->). cbn. exact Ht.
Qed.
Lemma mapi_attrs {A} (f : nat -> body R -> A) (l l' : list (body R)) : Forall2 same_attrs l l' -> (forall i b b', same_attrs b b' -> f i b' = f i b) -> mapi f l' = mapi f l.
Proof. intros H Hf. unfold mapi. generalize 0%nat. induction H as [|b b' l l' Hb H IH]; intros k; [reflexivity|]. cbn [mapi_from]. rewrite IH, (Hf k b b' Hb). reflexivity. Qed.
Lemma momentum_same w w' v : Forall2 same_attrs (w_bodies w) (w_bodies w') -> momentum w' v = momentum w v.
Proof.
  intros H. unfold momentum. rewrite !(mapi_attrs _ _ _ H); [reflexivity| |]; intros i b b' Hb; destruct Hb as (_ & -> & _); reflexivity.
Qed.
Lemma step_dt_attrs fuel o hd e (w : world R) dt w' : handler_frame hd -> step_dt fuel o hd e w dt = Ok w' -> Forall2 same_attrs (w_bodies w) (w_bodies w').
Proof. intros Hf H. apply (attrs_exec fuel o hd e [OStepDt dt] w w' Hf). cbn [exec]. rewrite H. reflexivity. Qed.
Lemma valid_step fuel o hd la mi (w : world R) dt w' : handler_frame hd -> valid la w -> step_dt fuel o hd (pdipm_engine la mi) w dt = Ok w' -> valid la w'.
Proof. intros Hf V H. apply (proj2 (exec_uncached la mi fuel o hd [OStepDt dt] Hf w V)). cbn [exec]. rewrite H. reflexivity. Qed.
Lemma exec_undisturbed fuel o hd e (P : world R -> Prop) : (forall w dt w', P w -> step_dt fuel o hd e w dt = Ok w' -> P w') ->
  forall ops w w', undisturbed ops -> P w -> exec fuel o hd e ops w = Ok w' -> P w'.
Proof.
  intros Hs. induction ops as [|[fx|dt|v] ops IH]; intros w w' HU Hw H; cbn [exec] in H.
  - injection H as <-. exact Hw.
  - apply Forall_cons_iff in HU. destruct HU as [_ HU]. bind_inv H as w1 E1. apply (IH w1); auto. unfold step in E1. destruct fx.
    + apply (fixed_loop_inv _ _ _ _ _ _ _ _ P) in E1; [tauto| |exact Hw]. intros a a' Ha _ Hd. exact (Hs _ _ _ Ha Hd).
    + exact (Hs _ _ _ Hw E1).
  - apply Forall_cons_iff in HU. destruct HU as [_ HU]. bind_inv H as w1 E1. apply (IH w1); auto. exact (Hs _ _ _ Hw E1).
  - apply Forall_cons_iff in HU. destruct HU as [[] _].
Qed.
Lemma no_forces bs js J0 w f : sound bs js J0 w -> Forall (fun b : body R => b_forces b = []) bs -> world_apply_forces w (w_t w) = Ok f -> f = vzeros (3 * length (w_bodies w)).
Proof.
  intros HS Hf H. destruct (apply_forces_layout _ _ _ H) as [L A]. apply (dot_unit (3 * length (w_bodies w))); [exact L|apply vzeros_length|]. intros g Hg.
  rewrite dot_zeros_l, (dot_mapi (w_bodies w)) by auto. rewrite (Rsum_mapi_ext _ (fun _ _ => 0)).
  - unfold mapi. generalize 0%nat. clear. induction (w_bodies w) as [|b l IH]; intros k; [reflexivity|]. cbn [mapi_from Rsum fold_right]. specialize (IH (S k)). unfold Rsum in IH. rewrite IH. ring.
  - intros i b Hb. specialize (A i b Hb). destruct (nth_error_Forall2 _ _ _ _ _ (so_attrs _ _ _ _ HS) Hb) as (b0 & Hb0 & E).
    assert (F : b_forces b = []). { rewrite Forall_forall in Hf. specialize (Hf b0 (nth_error_In _ _ Hb0)). destruct E as (_ & _ & _ & _ & _ & _ & E & _). congruence. }
    unfold body_apply_forces in A. rewrite F in A. change (Ok (v3zero : v3 R) = Ok (v3_at f i)) in A.
    assert (A' : v3_at f i = (0, (0, 0))) by (change ((0, (0, 0)) : v3 R) with (v3zero : v3 R); congruence). rewrite A'. unfold d3. cbn [fst snd]. ring.
Qed.
Section Steps.
Variables (la : lapack R) (mi fuel : nat) (o : oracle R) (hd : handler R) (bs : list (body R)) (js : list (joint R)) (J0 : list jent).
Hypothesis HL : lapack_ok la.
Hypothesis Hf : handler_frame hd.
Hypothesis Hr : handler_respects hd.
Hypothesis Ho : broadphase_sane o.
Notation eng := (pdipm_engine la mi).

Lemma step_momentum w dt w' : sound bs js J0 w -> valid la w -> Forall pushless js -> step_dt fuel o hd eng w dt = Ok w' -> exists f,
  world_apply_forces w (w_t w) = Ok f /\ momentum w' (w_v w') = v2add (momentum w (w_v w)) (v2scale dt (total_force w f)).
Proof.
  intros HS HV Hp H. destruct (step_dt_v _ _ _ _ _ _ _ H) as (v & c & Es & Ev). cbn [e_solve pdipm_engine] in Es.
  destruct (solve_balance bs js J0 w la mi HS HL HV dt v c Es) as (f & imps & y & Ef & Lv & B & _). exists f. split; [exact Ef|].
  destruct (apply_forces_layout _ _ _ Ef) as [Lf _]. rewrite Ev, (momentum_same w) by (eapply step_dt_attrs; eauto). eapply balance_momentum; eauto.
Qed.
Lemma exec_momentum ops w w' : sound bs js J0 w -> valid la w -> Forall pushless js -> Forall (fun b : body R => b_forces b = []) bs -> undisturbed ops ->
  exec fuel o hd eng ops w = Ok w' -> momentum w' (w_v w') = momentum w (w_v w).
Proof.
  intros HS HV Hp HF HU H. set (P := fun a => sound bs js J0 a /\ valid la a /\ momentum a (w_v a) = momentum w (w_v w)).
  enough (P w') by apply H0. apply (exec_undisturbed fuel o hd eng P) with ops w; auto; [|exact (conj HS (conj HV eq_refl))].
  intros a dt a' (S1 & V1 & E1) Hs. split; [exact (sound_step_dt bs js J0 o hd Hf Hr Ho fuel eng a dt a' S1 Hs)|]. split; [exact (valid_step _ _ _ _ _ _ _ _ Hf V1 Hs)|].
  destruct (step_momentum a dt a' S1 V1 Hp Hs) as (f & Ef & E). rewrite E, <- E1. pose proof (no_forces _ _ _ _ _ S1 HF Ef) as Z. subst f.
  assert (Z : total_force a (vzeros (3 * length (w_bodies a))) = (0, 0)).
  { assert (Q : forall (g : v3 R -> R) l k, g (0, (0, 0)) = 0 -> Rsum (mapi_from k (fun i (_ : body R) => g (v3_at (vzeros (3 * length (w_bodies a))) i)) l) = 0).
    { intros g l k Hg. revert k. induction l as [|b l IH]; intros k; [reflexivity|]. cbn [mapi_from Rsum fold_right]. specialize (IH (S k)). unfold Rsum in IH. rewrite IH. unfold v3_at. rewrite !vget_zeros, Hg. ring. }
    unfold total_force, mapi. apply f_equal2; [apply (Q (fun u => fst (snd u)))|apply (Q (fun u => snd (snd u)))]; reflexivity. }
  rewrite Z. unfold v2add, v2scale. cbn [fst snd]. rnum. rewrite (surjective_pairing (momentum a (w_v a))) at 3. apply f_equal2; ring.
Qed.
Lemma step_angular o0 w dt w' : sound bs js J0 w -> valid la w -> Forall between_bodies js -> consistent w -> Forall geom_ok (w_bodies w) -> w_post_stab w = false ->
  step_dt fuel o hd eng w dt = Ok w' -> exists f,
  world_apply_forces w (w_t w) = Ok f /\ angular_momentum o0 w' (w_v w') = angular_momentum o0 w (w_v w) + dt * total_torque o0 w f.
Proof.
  intros HS HV Hp Hc Hg Hps H. destruct (step_dt_moves _ _ _ _ _ _ _ Hf Hg H) as (v & c & k & w1 & w2 & Es & E1 & Ht & HM & _ & Hw & _). specialize (Hw Hps).
  destruct (step_dt_v _ _ _ _ _ _ _ H) as (v' & c' & Es' & Ev). rewrite Es in Es'. injection Es' as <- <-. cbn [e_solve pdipm_engine] in Es.
  destruct (solve_balance bs js J0 w la mi HS HL HV dt v c Es) as (f & imps & y & Ef & Lv & B & _). exists f. split; [exact Ef|].
  destruct (apply_forces_layout _ _ _ Ef) as [Lf _]. rewrite <- (balance_angular bs js J0 w HS o0 dt f v imps y Lf Hp Hc B). rewrite Ev. subst w'.
  unfold angular_momentum. cbn [w_bodies with_t with_state].
  assert (HM' : Forall2 (fun b b' => b_mass b' = b_mass b /\ b_inertia b' = b_inertia b) (w_bodies w) (w_bodies w2)).
  { pose proof (step_dt_attrs _ _ _ _ _ _ _ Hf H) as A. cbn in A. clear - A. induction A as [|a b l l' (_ & ? & ? & _) A IH]; constructor; auto. }
  assert (L : length (w_bodies w2) = length (w_bodies w)) by (apply Forall2_len in HM'; auto).
  assert (G : forall i b b2, nth_error (w_bodies w) i = Some b -> nth_error (w_bodies w2) i = Some b2 ->
     b_inertia b2 * fst (v3_at v i) + b_mass b2 * cross_2d (v2sub (b_pos b2) o0) (snd (v3_at v i)) = b_inertia b * fst (v3_at v i) + b_mass b * cross_2d (v2sub (b_pos b) o0) (snd (v3_at v i))).
  { intros i b b2 Hb Hb2. destruct (nth_error_Forall2_l _ _ _ _ _ HM' Hb) as (b2' & Hb2' & Em & Ei). rewrite Hb2 in Hb2'. injection Hb2' as <-.
    assert (Hwv : nth_error (with_vs (w_bodies w) v) i = Some (with_v b (v3_at v i))) by (unfold with_vs; rewrite mapi_nth, Hb; reflexivity).
    destruct (nth_error_Forall2_l _ _ _ _ _ HM Hwv) as (b2' & Hb2' & E). rewrite Hb2 in Hb2'. injection Hb2' as <-.
    apply (f_equal b_p) in E. rewrite !forget_p in E. unfold move in E. rewrite set_p_p in E. unfold b_pos. rewrite E, Em, Ei. unfold cross_2d, v2sub, v3add, v3scale, v2add, v2scale. cbn [fst snd b_v with_v b_p]. rnum. ring. }
  clear - G L. unfold mapi. assert (K : forall k l l', length l' = length l -> (forall i b b2, nth_error l i = Some b -> nth_error l' i = Some b2 ->
     b_inertia b2 * fst (v3_at v (k + i)) + b_mass b2 * cross_2d (v2sub (b_pos b2) o0) (snd (v3_at v (k + i))) = b_inertia b * fst (v3_at v (k + i)) + b_mass b * cross_2d (v2sub (b_pos b) o0) (snd (v3_at v (k + i)))) ->
     Rsum (mapi_from k (fun i b => b_inertia b * fst (v3_at v i) + b_mass b * cross_2d (v2sub (b_pos b) o0) (snd (v3_at v i))) l') =
     Rsum (mapi_from k (fun i b => b_inertia b * fst (v3_at v i) + b_mass b * cross_2d (v2sub (b_pos b) o0) (snd (v3_at v i))) l)).
  { clear. intros k l. revert k. induction l as [|b l IH]; intros k [|b2 l'] HL G; try discriminate; [reflexivity|]. cbn [mapi_from Rsum fold_right]. apply f_equal2.
    - specialize (G 0%nat b b2 eq_refl eq_refl). now rewrite Nat.add_0_r in G.
    - apply (IH (S k) l'); [cbn in HL; lia|]. intros i c c2 H1 H2. specialize (G (S i) c c2 H1 H2). now rewrite Nat.add_succ_r in G. }
  apply (K 0%nat); [exact L|]. exact G.
Qed.
End Steps.
