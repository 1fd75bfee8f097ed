(** Bodies held together by FixedJoints: one step after another (proofs for C81) *)
From Coq Require Import List Arith ZArith Bool Reals Lra Lia.
From Verif Require Import Num Tensor Utils Bodies Forces Constraints Contacts World Lapack Pdipm Lcp Engines Spec GeoSpec JointSpec EngineSpec WellSpec ImpactSpec AssemblySpec
     RBase ResFacts LinAlg LapackSpec KktSpec PdipmSpec WorldFacts HandlerFacts LayoutFacts HistFacts SysFacts RewindFacts JointFacts JeFacts
     CacheFacts EngineFacts ContactSys EngineBalance MomentumFacts HeldFacts PostFacts DriftFacts GroupFacts EngineProps EngineMore EnergyRun AssemblyFacts AssemblyProps BodyReach.
Import ListNotations.
Open Scope R_scope.

Lemma over_other w w' G f g : length (w_bodies w') = length (w_bodies w) ->
  (forall i b b', nth_error (w_bodies w) i = Some b -> nth_error (w_bodies w') i = Some b' -> G i = true -> g i b' = f i b) -> over w' G g = over w G f.
Proof.
  intros L H. unfold over. apply (f_equal Rsum). apply nth_error_ext. intros i. rewrite !mapi_nth. destruct (nth_error (w_bodies w) i) as [b|] eqn:Hb.
  - destruct (nth_error (w_bodies w') i) as [b'|] eqn:Hb'; [|apply nth_error_None in Hb'; assert (i < length (w_bodies w))%nat by (apply nth_error_Some; congruence); lia].
    cbn [option_map]. apply (f_equal Some). destruct (G i) eqn:E; [now apply H|reflexivity].
  - destruct (nth_error (w_bodies w') i) as [b'|] eqn:Hb'; [|reflexivity]. apply nth_error_None in Hb. assert (i < length (w_bodies w'))%nat by (apply nth_error_Some; congruence). lia.
Qed.
Lemma inertia_spread w G : total_inertia w G = over w G (fun _ b => b_inertia b) + spread w G.
Proof. unfold total_inertia, spread. apply over_add. Qed.

(** the constraints of a world keep their kinds and bodies *)
Lemma assembly_kept bs js J0 w w' G : sound bs js J0 w -> sound bs js J0 w' -> assembly w G -> assembly w' G.
Proof.
  intros S1 S2 [A B]. destruct (so_found _ _ _ _ S1) as (_ & _ & _ & [_ F1] & _). destruct (so_found _ _ _ _ S2) as (_ & _ & _ & [_ F2] & _).
  assert (T : forall a b, Forall2 (jinv bs (w_bodies a)) J0 (w_joints a) -> Forall2 (jinv bs (w_bodies b)) J0 (w_joints b) -> forall j i1 i2, In (j, i1, i2) (w_joints a) -> exists j', In (j', i1, i2) (w_joints b) /\ j_kind j' = j_kind j).
  { intros a b Fa Fb j i1 i2 Hin. destruct (Forall2_In_r _ _ _ _ Fa Hin) as ([[j0 k1] k2] & H0 & (E1 & E2 & a1 & b1 & b2 & _ & _ & K & _)). subst k1 k2.
    apply In_nth_error in H0. destruct H0 as [n Hn]. destruct (nth_error_Forall2_l _ _ _ _ _ Fb Hn) as ([[j' k1] k2] & Hn' & (E1 & E2 & a1' & b1' & b2' & _ & _ & K' & _)). subst k1 k2. exists j'. split; [eapply nth_error_In; eauto|congruence]. }
  constructor.
  - intros i k Hi Hk. specialize (A i k Hi Hk). clear Hk. induction A as [|j k l H IH Hin K]; [constructor|].
    destruct Hin as [Hin|Hin]; destruct (T w w' F1 F2 _ _ _ Hin) as (j' & Hin' & K'); apply (together_tied w' i j' k l IH); auto; congruence.
  - intros j i1 i2 Hin. destruct (T w' w F2 F1 _ _ _ Hin) as (j' & Hin' & _). exact (B _ _ _ Hin').
Qed.

Section Spin.
Variables (la : lapack R) (mi : nat) (o : oracle R) (hd : handler R) (bs : list (body R)) (js : list (joint R)) (w w' : world R) (G : nat -> bool) (i0 : nat) (b0 : body R) (fuel : nat) (dt : R).
Hypothesis HL : lapack_ok la.
Hypothesis HW : session la mi o hd bs js w.
Hypothesis Hm : massive w.
Hypothesis HA : assembly w G.
Hypothesis Hb0 : nth_error (w_bodies w) i0 = Some b0.
Hypothesis Hi0 : G i0 = true.
Hypothesis HP : w_post_stab w = false.
Hypothesis Hs : step_dt fuel o hd (pdipm_engine la mi) w dt = Ok w'.

Theorem assembly_turn : exists k u, let h := dt / 2 ^ k in
  w_t w' = w_t w + h /\ moves_as_one w G u (w_v w') /\ assembly w' G /\ massive w' /\
  (forall i b b', nth_error (w_bodies w) i = Some b -> nth_error (w_bodies w') i = Some b' -> G i = true -> b_rot b' = b_rot b + h * fst u) /\
  centre w' G = v2add (centre w G) (v2scale h (snd u)) /\ total_mass w' G = total_mass w G /\
  total_inertia w' G = total_inertia w G + (h * fst u) * (h * fst u) * spread w G /\
  assembly_momentum w' G (w_v w') = v2scale (total_mass w G) (snd u) /\ assembly_spin w' G (w_v w') = total_inertia w G * fst u.
Proof.
  destruct (session_facts _ _ _ _ _ _ _ HW) as (Hf & Hr & Ho & HG & J0 & HS & HV).
  destruct (step_poses la mi fuel o hd bs js J0 Hf Hr Ho w dt w' HS HV HG Hs) as (v & c & k & w2 & dp & Es & S2 & V2 & Ev & Hdp & Et & _ & HQ).
  destruct (step_dt_v _ _ _ _ _ _ _ Hs) as (v' & c' & Es' & Ev'). cbn [e_solve pdipm_engine] in Es'. rewrite Es in Es'. apply (f_equal (fun x => match x with Ok y => fst y | Err _ => v end)) in Es'. cbn in Es'. subst v'.
  destruct (assembly_step la mi bs js w G i0 b0 (session_world _ _ _ _ _ _ _ HW) Hm HA Hb0 Hi0 dt v c HL Es) as (f & imps & u & _ & _ & Hu & _).
  pose proof (sound_step_dt bs js J0 o hd Hf Hr Ho fuel (pdipm_engine la mi) w dt w' HS Hs) as HS'.
  assert (Hne : exists i b, nth_error (w_bodies w) i = Some b /\ G i = true) by eauto.
  exists k, u. cbv zeta. set (h := dt / 2 ^ k) in *. rewrite Ev'.
  assert (LN : length (w_bodies w') = length (w_bodies w)) by (rewrite (so_len _ _ _ _ HS'), (so_len _ _ _ _ HS); reflexivity).
  assert (AT : Forall2 same_attrs (w_bodies w) (w_bodies w')).
  { pose proof (so_attrs _ _ _ _ HS) as A. pose proof (so_attrs _ _ _ _ HS') as A'. clear - A A'. revert A'. generalize (w_bodies w') as l2. induction A as [|a b l l' Hab A IH]; intros l2 A'; inversion A' as [|? d ? ? Had Q]; subst; constructor; [|now apply IH].
    clear - Hab Had. unfold same_attrs in *. intuition congruence. }
  assert (MA : forall i b b', nth_error (w_bodies w) i = Some b -> nth_error (w_bodies w') i = Some b' -> b_mass b' = b_mass b /\ b_inertia b' = b_inertia b).
  { intros i b b' Hb Hb'. destruct (nth_error_Forall2_l _ _ _ _ _ AT Hb) as (b'' & Hb'' & A). rewrite Hb' in Hb''. injection Hb'' as <-. unfold same_attrs in A. intuition congruence. }
  assert (PO : forall i b b', nth_error (w_bodies w) i = Some b -> nth_error (w_bodies w') i = Some b' -> G i = true ->
     b_rot b' = b_rot b + h * fst u /\ b_pos b' = v2add (b_pos b) (v2scale h (point_velocity u (arm w G b)))).
  { intros i b b' Hb Hb' Hi. destruct (HQ i b Hb) as (b'' & Hb'' & Pb). rewrite Hb' in Hb''. injection Hb'' as <-. destruct Hdp as [[_ Ed]|[X _]]; [|congruence].
    assert (Z : v3_at dp i = (0, (0, 0))) by (rewrite Ed; unfold v3_at; rewrite !vget_zeros; reflexivity). rewrite Z, (Hu i b Hb Hi) in Pb.
    unfold b_rot, b_pos. rewrite Pb. unfold v3add, v3scale, v2add, v2scale. cbn [fst snd]. rnum. split; [ring|]. apply f_equal2; ring. }
  destruct (arms_cancel w G Hm Hne) as [A1 A2]. pose proof (mass_pos w G Hm Hne) as M0.
  assert (EM : total_mass w' G = total_mass w G) by (apply over_other; [exact LN|]; intros i b b' Hb Hb' _; now apply (MA i)).
  assert (EC : centre w' G = v2add (centre w G) (v2scale h (snd u))).
  { unfold centre. rewrite EM. unfold v2add, v2scale. cbn [fst snd]. rnum. apply f_equal2.
    - rewrite (over_other w w' G (fun i b => 1 * (b_mass b * fst (b_pos b)) + h * (fst (snd u) * b_mass b + (- fst u) * (b_mass b * snd (arm w G b))))); [|exact LN|].
      + rewrite <- over_lin, <- over_lin, A2. fold (total_mass w G). change (over w G (fun _ b => b_mass b)) with (total_mass w G). field. lra.
      + intros i b b' Hb Hb' Hi. destruct (PO i b b' Hb Hb' Hi) as [_ P]. destruct (MA i b b' Hb Hb') as [Q _]. rewrite P, Q. unfold v2add, v2scale, point_velocity. cbn [fst snd]. rnum. ring.
    - rewrite (over_other w w' G (fun i b => 1 * (b_mass b * snd (b_pos b)) + h * (snd (snd u) * b_mass b + (fst u) * (b_mass b * fst (arm w G b))))); [|exact LN|].
      + rewrite <- over_lin, <- over_lin, A1. change (over w G (fun _ b => b_mass b)) with (total_mass w G). field. lra.
      + intros i b b' Hb Hb' Hi. destruct (PO i b b' Hb Hb' Hi) as [_ P]. destruct (MA i b b' Hb Hb') as [Q _]. rewrite P, Q. unfold v2add, v2scale, point_velocity. cbn [fst snd]. rnum. ring. }
  assert (AR : forall i b b', nth_error (w_bodies w) i = Some b -> nth_error (w_bodies w') i = Some b' -> G i = true ->
     arm w' G b' = (fst (arm w G b) - h * fst u * snd (arm w G b), snd (arm w G b) + h * fst u * fst (arm w G b))).
  { intros i b b' Hb Hb' Hi. destruct (PO i b b' Hb Hb' Hi) as [_ P]. unfold arm at 1. rewrite P, EC. unfold point_velocity, arm, v2sub, v2add, v2scale. cbn [fst snd]. rnum. apply f_equal2; ring. }
  assert (ESp : spread w' G = (1 + (h * fst u) * (h * fst u)) * spread w G).
  { unfold spread. rewrite <- over_scale. apply over_other; [exact LN|]. intros i b b' Hb Hb' Hi. rewrite (AR i b b' Hb Hb' Hi). destruct (MA i b b' Hb Hb') as [Q _]. rewrite Q. unfold component. cbn [fst snd]. ring. }
  assert (EI : over w' G (fun _ b => b_inertia b) = over w G (fun _ b => b_inertia b)) by (apply over_other; [exact LN|]; intros i b b' Hb Hb' _; now apply (MA i)).
  split; [exact Et|]. split; [exact Hu|]. split; [exact (assembly_kept _ _ _ _ _ _ HS HS' HA)|].
  split. { unfold massive. rewrite Forall_forall. intros b' Hin. apply In_nth_error in Hin. destruct Hin as [i Hb']. destruct (nth_error (w_bodies w) i) as [b|] eqn:Hb; [|apply nth_error_None in Hb; assert (i < length (w_bodies w'))%nat by (apply nth_error_Some; congruence); lia].
    destruct (MA i b b' Hb Hb') as [-> ->]. exact (mass_at w Hm i b Hb). }
  split; [intros i b b' Hb Hb' Hi; now apply (PO i b b')|]. split; [exact EC|]. split; [exact EM|]. split; [rewrite !inertia_spread, ESp, EI; ring|].
  destruct (one_momentum w G Hm Hne u v Hu) as [E1 E2]. split.
  - rewrite <- E1. unfold assembly_momentum. apply f_equal2; (apply over_other; [exact LN|]; intros i b b' Hb Hb' _; destruct (MA i b b' Hb Hb') as [-> _]; reflexivity).
  - rewrite <- E2. unfold assembly_spin. 
    rewrite (over_other w w' G (fun i b => 1 * (b_inertia b * fst (v3_at v i) + b_mass b * cross_2d (arm w G b) (snd (v3_at v i))) + (- (h * fst u)) * (snd (snd u) * (b_mass b * snd (arm w G b)) + fst (snd u) * (b_mass b * fst (arm w G b)))));
      [|exact LN|].
    + rewrite <- over_lin, <- over_lin, A1, A2. ring.
    + intros i b b' Hb Hb' Hi. destruct (MA i b b' Hb Hb') as [-> ->]. rewrite (AR i b b' Hb Hb' Hi), (Hu i b Hb Hi). unfold cross_2d, point_velocity. cbn [fst snd]. rnum. ring.
Qed.
(** the next step, if nothing pushes *)
Theorem assembly_slows fuel' dt' w'' f :
  step_dt fuel' o hd (pdipm_engine la mi) w' dt' = Ok w'' -> world_apply_forces w' (w_t w') = Ok f ->
  (forall i, G i = true -> v3_at f i = (0, (0, 0))) -> (forall c, In c (w_contacts w') -> G (c_i1 c) = false /\ G (c_i2 c) = false) ->
  exists u u', moves_as_one w G u (w_v w') /\ moves_as_one w' G u' (w_v w'') /\ snd u' = snd u /\ total_inertia w' G * fst u' = total_inertia w G * fst u /\
    total_inertia w' G = total_inertia w G + ((w_t w' - w_t w) * fst u) * ((w_t w' - w_t w) * fst u) * spread w G.
Proof.
  intros Hs' Ef Hf Hc. destruct assembly_turn as (k & u & Et & Hu & HA' & Hm' & _ & _ & EM & EI & E1 & E2). cbv zeta in *. set (h := dt / 2 ^ k) in *. exists u.
  assert (HW' : session la mi o hd bs js w') by (apply (session_later la mi o hd bs js w fuel [OStepDt dt] w' HW); cbn [exec]; rewrite Hs; reflexivity).
  destruct (session_facts _ _ _ _ _ _ _ HW) as (_ & _ & _ & _ & J0 & HS & HV). destruct (session_facts _ _ _ _ _ _ _ HW') as (_ & _ & _ & _ & J0' & HS' & HV').
  assert (LN : length (w_bodies w') = length (w_bodies w)) by (rewrite (so_len _ _ _ _ HS'), (so_len _ _ _ _ HS); reflexivity).
  destruct (nth_error (w_bodies w') i0) as [b0'|] eqn:Hb0'; [|apply nth_error_None in Hb0'; assert (i0 < length (w_bodies w))%nat by (apply nth_error_Some; congruence); lia].
  destruct (step_dt_v _ _ _ _ _ _ _ Hs') as (v' & c' & Es' & Ev'). cbn [e_solve pdipm_engine] in Es'. 
  destruct (assembly_step la mi bs js w' G i0 b0' (session_world _ _ _ _ _ _ _ HW') Hm' HA' Hb0' Hi0 dt' v' c' HL Es') as (f' & imps & u' & Ef' & _ & Hu' & N).
  rewrite Ef in Ef'. injection Ef' as <-. rewrite (shares_zero w' G _ _ Hc) in N. rewrite E1, E2, EM in N. exists u'. rewrite Ev'. split; [exact Hu|]. split; [exact Hu'|].
  assert (Z1 : assembly_force w' G f = (0, 0)).
  { unfold assembly_force. apply f_equal2; rewrite (over_ext w' G _ (fun _ b => 0 * b_mass b)) by (intros i b _ Hi; rewrite (Hf i Hi); cbn [fst snd]; ring); rewrite over_scale; ring. }
  assert (Z2 : assembly_torque w' G f = 0).
  { unfold assembly_torque. rewrite (over_ext w' G _ (fun _ b => 0 * b_mass b)) by (intros i b _ Hi; rewrite (Hf i Hi); unfold cross_2d; cbn [fst snd]; rnum; ring). rewrite over_scale. ring. }
  rewrite Z1, Z2 in N. destruct N as [N1 N2]. assert (Hne : exists i b, nth_error (w_bodies w) i = Some b /\ G i = true) by eauto. pose proof (mass_pos w G Hm Hne) as M0.
  split. { unfold v3add, v3scale in N1. cbn [fst snd] in N1. unfold v2add, v2scale in N1. cbn [fst snd] in N1. revert N1. rnum. intros N1. apply pair_inj in N1. destruct N1 as [N1 N3].
    rewrite (surjective_pairing (snd u')), (surjective_pairing (snd u)). apply f_equal2; (apply (Rmult_eq_reg_l (total_mass w G)); [|lra]); lra. }
  split. { unfold v3add, v3scale in N2. cbn [fst snd] in N2. revert N2. rnum. intros N2. lra. }
  rewrite EI, Et. ring.
Qed.
(** it slows down: a spinning assembly that is not concentrated in one point loses spin *)
Theorem assembly_slower fuel' dt' w'' f :
  step_dt fuel' o hd (pdipm_engine la mi) w' dt' = Ok w'' -> world_apply_forces w' (w_t w') = Ok f ->
  (forall i, G i = true -> v3_at f i = (0, (0, 0))) -> (forall c, In c (w_contacts w') -> G (c_i1 c) = false /\ G (c_i2 c) = false) ->
  exists u u', moves_as_one w G u (w_v w') /\ moves_as_one w' G u' (w_v w'') /\ snd u' = snd u /\ Rabs (fst u') <= Rabs (fst u) /\
    (w_t w' <> w_t w -> fst u <> 0 -> 0 < spread w G -> Rabs (fst u') < Rabs (fst u)).
Proof.
  intros Hs' Ef Hf Hc. destruct (assembly_slows fuel' dt' w'' f Hs' Ef Hf Hc) as (u & u' & Hu & Hu' & E1 & E2 & E3). exists u, u'. split; [exact Hu|]. split; [exact Hu'|]. split; [exact E1|].
  assert (Hne : exists i b, nth_error (w_bodies w) i = Some b /\ G i = true) by eauto. pose proof (inertia_pos w G Hm Hne) as I0.
  set (s := (w_t w' - w_t w) * fst u) in *. assert (Ss : 0 <= s * s) by (pose proof (Rle_0_sqr s) as Q; exact Q).
  assert (Sp : 0 <= spread w G).
  { unfold spread, over. apply Rsum_mapi_nonneg. intros i b Hb. cbn. destruct (G i); [|lra]. destruct (mass_at w Hm i b Hb) as [P _]. apply Rmult_le_pos; [lra|]. unfold component. pose proof (Rle_0_sqr (fst (arm w G b))) as S1. pose proof (Rle_0_sqr (snd (arm w G b))) as S2. unfold Rsqr in S1, S2. lra. }
  pose proof (Rmult_le_pos _ _ Ss Sp) as G0. apply (f_equal Rabs) in E2. rewrite !Rabs_mult, (Rabs_pos_eq (total_inertia w G)), (Rabs_pos_eq (total_inertia w' G)) in E2 by lra.
  assert (I1 : 0 < total_inertia w' G) by lra. pose proof (Rabs_pos (fst u)) as U0. pose proof (Rabs_pos (fst u')) as U1. split.
  - apply (Rmult_le_reg_l (total_inertia w' G)); [exact I1|]. rewrite E2. apply Rmult_le_compat_r; lra.
  - intros T0 U2 P0. apply (Rmult_lt_reg_l (total_inertia w' G)); [exact I1|]. rewrite E2. apply Rmult_lt_compat_r; [now apply Rabs_pos_lt|].
    assert (s <> 0) by (unfold s; intros Q; apply Rmult_integral in Q; destruct Q; [apply T0; lra|auto]). pose proof (Rmult_lt_0_compat _ _ (Rsqr_pos_lt s H) P0) as Q. unfold Rsqr in Q. lra.
Qed.
End Spin.
