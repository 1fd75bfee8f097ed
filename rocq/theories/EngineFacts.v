(** The engine's equations hold in every world it simulates: assembled system, free motion *)
From Coq Require Import List Arith ZArith Bool Reals Lra Lia.
From Verif Require Import Num Tensor Utils Bodies Forces Constraints Contacts World Lapack Pdipm Lcp Engines Spec JointSpec EngineSpec
     RBase ResFacts LinAlg LapackSpec WorldFacts HandlerFacts LayoutFacts HistFacts SysFacts RewindFacts JointFacts JeFacts CacheFacts BodyReach.
Import ListNotations.
Open Scope R_scope.

(** *** what every world reachable from the constructor has *)
Record sound (bs : list (body R)) (js : list (joint R)) J0 (w : world R) : Prop := {
  so_found : founded bs js J0 w;
  so_M0 : w_M w = world_M bs;
  so_v : aligned w;
  so_pairs : Forall (fun c => c_i1 c <> c_i2 c /\ (c_i1 c < length bs)%nat /\ (c_i2 c < length bs)%nat) (w_contacts w);
  so_attrs : Forall2 same_attrs bs (w_bodies w) }.

Lemma founded_same bs js J0 w w' : jinvs bs J0 w' -> cfg w' = cfg w -> founded bs js J0 w -> founded bs js J0 w'.
Proof. intros Hj Hc (H1 & H2 & H3 & _ & H5). repeat (split; auto). cfg_fields Hc. congruence. Qed.
Section Pieces.
Variables (bs : list (body R)) (js : list (joint R)) (J0 : list jent) (o : oracle R) (hd : handler R).
Hypothesis Hf : handler_frame hd.
Hypothesis Hr : handler_respects hd.
Hypothesis Ho : broadphase_sane o.
Lemma sound_cache w c : sound bs js J0 w -> sound bs js J0 (with_cache w c).
Proof. intros [A B C D E]. constructor; auto. Qed.
Lemma sound_t w t : sound bs js J0 w -> sound bs js J0 (with_t w t).
Proof. intros [A B C D E]. constructor; auto. Qed.
Lemma sound_set_v w v w' : sound bs js J0 w -> set_v w v = Ok w' -> sound bs js J0 w'.
Proof.
  intros [A B C D E] H. pose proof (set_v_cfg _ _ _ H) as HC. constructor.
  - apply (founded_same _ _ _ w); auto. destruct A as (_ & _ & _ & A & _). apply set_v_inv in H. destruct H as [_ ->].
    apply (jinvs_posed bs J0 w); [|reflexivity|exact A]. cbn. apply Forall2_mapi. intros. reflexivity.
  - cfg_fields HC. congruence.
  - eapply set_v_aligned; eauto.
  - now rewrite (set_v_contacts _ _ _ H).
  - eapply Forall2_trans'; [apply same_attrs_steps|exact E|]. eapply set_v_bodies; eauto. apply same_attrs_steps.
Qed.
Lemma sound_move w dt w' : sound bs js J0 w -> move_all w dt = Ok w' -> sound bs js J0 w'.
Proof.
  intros [A B C D E] H. pose proof (move_all_cfg _ _ _ H) as HC. constructor.
  - apply (founded_same _ _ _ w); auto. destruct A as (_ & _ & _ & A & _). eapply jinvs_move; eauto.
  - cfg_fields HC. congruence.
  - apply move_all_inv in H. destruct H as [js' ->]. unfold aligned in *. simpl.
    rewrite C, map_map. f_equal. apply map_ext. intros c. symmetry. apply set_p_v.
  - apply move_all_inv in H. destruct H as [js' ->]. exact D.
  - eapply Forall2_trans'; [apply same_attrs_steps|exact E|]. apply move_all_inv in H. destruct H as [js' ->]. cbn. apply Forall2_map_r.
    intros b. apply (bs_p _ same_attrs_steps).
Qed.
Lemma sound_rewind w0 w w' : sound bs js J0 w0 -> sound bs js J0 w -> rewind w (cat3 (map b_p (w_bodies w0))) (rots w0) = Ok w' -> sound bs js J0 w'.
Proof.
  intros S0 [A B C D E] H. pose proof (rewind_cfg _ _ _ _ H) as HC. constructor.
  - apply (founded_same _ _ _ w); auto. destruct A as (_ & _ & _ & A & _). destruct S0 as [(_ & _ & _ & A0 & _) _ _ _ _]. exact (jinvs_rewind _ _ _ _ _ A0 A H).
  - cfg_fields HC. congruence.
  - apply rewind_inv in H. destruct H as [js' ->]. unfold aligned in *. simpl.
    rewrite C. f_equal. symmetry. apply mapi_map. intros. apply set_p_v.
  - apply rewind_inv in H. destruct H as [js' ->]. exact D.
  - eapply Forall2_trans'; [apply same_attrs_steps|exact E|]. apply rewind_inv in H. destruct H as [js' ->]. cbn. apply Forall2_mapi.
    intros. apply (bs_p _ same_attrs_steps).
Qed.
Lemma sound_find w w' : sound bs js J0 w -> find_contacts o hd w = Ok w' -> sound bs js J0 w'.
Proof.
  intros [A B C D E] H. pose proof (find_contacts_cfg _ _ _ _ H) as HC. pose proof (find_contacts_frame _ _ _ _ Hf H) as HF. constructor.
  - apply (founded_same _ _ _ w); auto. destruct A as (_ & _ & _ & A & _). apply find_contacts_inv in H. destruct H as (cs & bs' & clk & ->).
    apply (jinvs_posed bs J0 w); [|reflexivity|exact A]. now apply posed_forget.
  - cfg_fields HC. congruence.
  - eapply aligned_forget; [exact HF| |exact C]. apply find_contacts_inv in H. destruct H as (?&?&?& ->). reflexivity.
  - pose proof (find_contacts_pairs _ _ _ _ Hr H) as Hp. eapply Forall_impl; [|exact Hp].
    intros c Hin. apply Ho in Hin. rewrite map_length in Hin. rewrite (Forall2_len _ _ _ E). exact Hin.
  - eapply Forall2_trans'; [apply same_attrs_steps|exact E|]. apply Forall2_forget'; [apply same_attrs_steps|exact HF].
Qed.
Lemma sound_step_dt fuel e w dt w' : sound bs js J0 w -> step_dt fuel o hd e w dt = Ok w' -> sound bs js J0 w'.
Proof.
  intros Hs H. eapply (step_dt_pieces2 (sound bs js J0)); try exact H; auto using sound_cache, sound_t.
  - intros b d b' Hb Hm. exact (sound_set_v _ _ _ Hb Hm).
  - intros b d b' Hb Hm. exact (sound_move _ _ _ Hb Hm).
  - intros b0 b b' H0 Hb Hr'. exact (sound_rewind _ _ _ H0 Hb Hr').
  - intros b b' Hb Hm. exact (sound_find _ _ Hb Hm).
Qed.
Lemma sound_exec fuel e ops w w' : sound bs js J0 w -> exec fuel o hd e ops w = Ok w' -> sound bs js J0 w'.
Proof.
  intros Hs H. eapply (exec_invariant fuel o hd e (sound bs js J0)); eauto using sound_step_dt, sound_set_v.
Qed.
End Pieces.
Lemma sound_init o hd bs js heap dt eps tol fd ps st w : handler_frame hd -> handler_respects hd -> broadphase_sane o ->
  NoDup (map b_id bs) -> Forall (built bs) js ->
  world_init o hd heap bs js dt eps tol fd ps st = Ok w -> sound bs js (w_joints w) w.
Proof.
  intros Hf Hr Ho Hn Hb H0.
  destruct (world_init_joints _ _ _ _ _ _ _ _ _ _ _ _ Hf H0) as [HJ HP].
  assert (HA : Forall2 same_attrs bs (w_bodies w)) by (eapply world_init_bodies; eauto; apply same_attrs_steps).
  constructor; auto.
  - split; [exact Hn|]. split; [exact Hb|]. split; [exact HJ|]. split.
    + split; [symmetry; eapply Forall2_len; eauto|].
      clear - HJ HP Hn Hb. induction HJ as [|j e js es He HJ IH]; constructor.
      * apply (jinv_posed bs bs); auto. eapply built_jinv; eauto. now inversion Hb.
      * apply IH. now inversion Hb.
    + apply world_init_inv in H0. tauto.
  - apply world_init_inv in H0. tauto.
  - eapply world_init_aligned; eauto.
  - unfold world_init in H0. destruct bs as [|b0 bs0] eqn:Eb; [discriminate|].
    bind_inv H0 as js' Ej. bind_inv H0 as w1 E1. bind_inv H0 as w2 E2.
    destruct (st && _)%bool; [discriminate|]. inversion H0; subst w2; clear H0.
    pose proof (set_v_excl _ _ _ E1) as Q1. simpl w_bodies in Q1.
    assert (Q2 : length (w_bodies w1) = length (b0 :: bs0))
      by (rewrite <- (map_length excl), Q1, map_length; reflexivity).
    pose proof (find_contacts_pairs _ _ _ _ Hr E2) as Hp. eapply Forall_impl; [|exact Hp].
    intros c Hin. apply Ho in Hin. rewrite map_length, Q2 in Hin. exact Hin.
Qed.

(** *** the assembled system *)
Lemma world_M_ext (l l' : list (body R)) : Forall2 same_attrs l l' -> world_M l' = world_M l.
Proof.
  intros F. unfold world_M. rewrite (Forall2_len _ _ _ F).
  assert (E : forall k n M, length l' = n -> fold_left (fun M ib => blk_put M (3 * fst ib) (3 * fst ib) (b_M (snd ib))) (combine (seq k n) l') M
          = fold_left (fun M ib => blk_put M (3 * fst ib) (3 * fst ib) (b_M (snd ib))) (combine (seq k n) l) M).
  { clear -F. induction F as [|x y l l' (_ & A & B & _) F IH]; intros k n M Hn; [reflexivity|]. destruct n; [discriminate|]. cbn [length seq combine fold_left].
    cbn [fst snd]. replace (b_M y) with (b_M x) by (unfold b_M; now rewrite A, B). apply IH. now injection Hn. }
  now apply E.
Qed.
Lemma world_M_symm bs : symm (3 * length bs) (world_M bs).
Proof.
  pose proof (wf_world_M bs) as W. split; [exact W|]. apply (mat_ext (3 * length bs) (3 * length bs)); auto.
  - apply wf_mtr. apply (wf_length _ _ _ W).
  - intros i j Hi Hj. rewrite mget_mtr by (rewrite ?(wf_length _ _ _ W); auto).
    assert (X : forall i, (i < 3 * length bs)%nat -> exists b, nth_error bs (i / 3) = Some b).
    { intros i' Hi'. destruct (nth_error bs (i' / 3)) eqn:E; eauto. apply nth_error_None in E.
      pose proof (Nat.div_lt_upper_bound i' 3 (length bs) ltac:(lia) ltac:(lia)). lia. }
    destruct (X i Hi) as [b Eb], (X j Hj) as [c Ec]. rewrite (mget_world_M bs i j b), (mget_world_M bs j i c) by auto.
    destruct (Nat.eqb_spec i j) as [E|E], (Nat.eqb_spec j i) as [E'|E']; try congruence.
    subst j. rewrite Eb in Ec. now inversion Ec.
Qed.
Lemma engine_world_sound la mi bs js w : engine_world la mi bs js w -> exists J0, sound bs js J0 w /\ valid la w.
Proof.
  intros [fuel gf o hd heap dt eps tol fd ps st w0 ops Hh Ho Hn Hb H0 Hx].
  assert (Hf : handler_frame hd) by (destruct Hh as [-> | ->]; auto using diff_handler_frame, ode_handler_frame).
  assert (Hr : handler_respects hd) by (destruct Hh as [-> | ->]; auto using diff_handler_respects, ode_handler_respects).
  exists (w_joints w0). split.
  - eapply sound_exec; eauto. eapply sound_init; eauto.
  - destruct (init_valid la _ _ _ _ _ _ _ _ _ _ _ _ Hf H0) as [V _]. apply (exec_uncached la mi fuel o hd ops Hf w0 V). exact Hx.
Qed.
Lemma engine_world_of la mi bs js w : engine_world la mi bs js w -> world_of bs js w.
Proof.
  intros [fuel gf o hd heap dt eps tol fd ps st w0 ops Hh Ho Hn Hb H0 Hx]. econstructor; eauto.
  destruct Hh as [-> | ->]; auto using diff_handler_frame, ode_handler_frame.
Qed.

Section Sound.
Variables (bs : list (body R)) (js : list (joint R)) (J0 : list jent) (w : world R).
Hypothesis HS : sound bs js J0 w.
Notation n := (3 * length (w_bodies w))%nat.
Notation neq := (w_num_constraints w).
Lemma so_len : length (w_bodies w) = length bs.
Proof. symmetry. apply (Forall2_len _ _ _ (so_attrs _ _ _ _ HS)). Qed.
Lemma so_M : w_M w = world_M (w_bodies w).
Proof. rewrite (so_M0 _ _ _ _ HS). symmetry. apply world_M_ext, (so_attrs _ _ _ _ HS). Qed.
Lemma so_symm : symm n (w_M w).
Proof. rewrite so_M. apply world_M_symm. Qed.
Lemma so_rows : world_rows w.
Proof. apply (founded_rows bs js J0), HS. Qed.
Lemma so_Je : wf neq n (Je w).
Proof. apply wf_Je, so_rows. Qed.
Lemma so_vlen : length (w_v w) = n.
Proof. rewrite (so_v _ _ _ _ HS), cat3_length, map_length. reflexivity. Qed.
Lemma Je_nil : neq = 0%nat -> Je w = [].
Proof. intros H. destruct so_Je as [L _]. rewrite H in L. now destruct (Je w). Qed.

Lemma wf_sys : wf (n + neq) (n + neq) (sys w).
Proof.
  unfold sys, dyn_matrix. destruct (Nat.ltb_spec 0 neq) as [H|H].
  - unfold vcat. apply wf_app; apply wf_hcat; [apply so_symm|apply wf_mopp, wf_mtr, (wf_length _ _ _ so_Je)|apply so_Je|apply wf_mzeros].
  - replace (n + neq)%nat with n by lia. apply so_symm.
Qed.
Lemma mv_sys x y : length x = n -> length y = neq ->
  mv (sys w) (x ++ y) = vsub (mv (w_M w) x) (vm n y (Je w)) ++ mv (Je w) x.
Proof.
  intros Hx Hy. unfold sys, dyn_matrix. destruct (Nat.ltb_spec 0 neq) as [H|H].
  - unfold vcat. rewrite mv_app. rewrite (mv_hcat n n neq) by (auto; try apply so_symm; apply wf_mopp, wf_mtr, (wf_length _ _ _ so_Je)).
    rewrite (mv_hcat neq n neq) by (auto using so_Je, wf_mzeros). rewrite mv_mopp, mv_mzeros. f_equal; [now rewrite vsub_vadd|].
    apply vadd_zeros_r. rewrite mv_length. apply so_Je.
  - assert (E : neq = 0%nat) by lia. destruct y; [|cbn in Hy; lia]. rewrite (Je_nil E). rewrite vm_nil, app_nil_r. cbn [mv map]. rewrite app_nil_r.
    rewrite vsub_zeros_r; auto. rewrite mv_length. apply so_symm.
Qed.

Variables (la : lapack R) (mi : nat).
Hypothesis HL : lapack_ok la.
Hypothesis HV : valid la w.
Lemma sys_inv inv u : la_inv la (sys w) = Ok inv -> length u = (n + neq)%nat ->
  exists x y, mv inv u = x ++ y /\ length x = n /\ length y = neq /\ vsub (mv (w_M w) x) (vm n y (Je w)) ++ mv (Je w) x = u.
Proof.
  intros Hi Hu. destruct (inv_ok _ HL _ _ _ wf_sys Hi) as [[Wi _] Hxu]. destruct (Hxu u Hu) as [E _].
  exists (firstn n (mv inv u)), (skipn n (mv inv u)).
  assert (L : length (mv inv u) = (n + neq)%nat) by (rewrite mv_length; exact Wi).
  split; [now rewrite firstn_skipn|]. split; [rewrite firstn_length; lia|]. split; [rewrite skipn_length; lia|].
  rewrite <- mv_sys by (rewrite ?firstn_length, ?skipn_length; lia). now rewrite firstn_skipn.
Qed.
(** the equations of a motion without contacts *)
Lemma free_solve dt v c f : w_contacts w = [] -> world_apply_forces w (w_t w) = Ok f ->
  solve_dynamics la mi w dt = Ok (v, c) -> length v = n /\ exists lam, length lam = neq /\
  mv (w_M w) v = vadd (vadd (mv (w_M w) (w_v w)) (vscale dt f)) (vm n lam (Je w)) /\ mv (Je w) v = vzeros neq.
Proof.
  intros Hc Hf H. unfold solve_dynamics in H. cbv zeta in H. rewrite Hf, Hc in H. cbn [bind] in H.
  destruct (apply_forces_layout _ _ _ Hf) as [Lf _].
  bind_inv H as ic Ei. destruct ic as [inv cache]. injection H as <- _.
  assert (Hi : la_inv la (sys w) = Ok inv).
  { destruct (w_cache w) as [inv'|] eqn:Ec.
    - injection Ei as -> _. now apply HV in Ec.
    - bind_inv Ei as inv' Ei'. injection Ei as -> _. exact Ei'. }
  set (u0 := vadd (mv (w_M w) (w_v w)) (vscale dt f)) in *.
  assert (L0 : length u0 = n). { unfold u0. rewrite vadd_length, mv_length, vscale_length, Lf, (wf_length _ _ _ (proj1 so_symm)). lia. }
  assert (E : (if Nat.ltb 0 neq then u0 ++ vzeros neq else u0) = u0 ++ vzeros neq).
  { destruct (Nat.ltb_spec 0 neq); [reflexivity|]. replace neq with 0%nat by lia. unfold vzeros. cbn. now rewrite app_nil_r. }
  rewrite E. destruct (sys_inv inv (u0 ++ vzeros neq) Hi) as (x & y & -> & Lx & Ly & Eq).
  { rewrite app_length, vzeros_length. lia. }
  rewrite firstn_app, Lx, Nat.sub_diag, firstn_O, app_nil_r, firstn_all2 by lia. split; [exact Lx|]. exists y. split; [exact Ly|].
  assert (L1 : length (vsub (mv (w_M w) x) (vm n y (Je w))) = n). { rewrite vsub_length, mv_length, vm_length, (wf_length _ _ _ (proj1 so_symm)). lia. }
  pose proof (f_equal (firstn n) Eq) as E1. pose proof (f_equal (skipn n) Eq) as E2.
  rewrite !firstn_app, L0, L1, Nat.sub_diag, !firstn_O, !app_nil_r, !firstn_all2 in E1 by lia.
  rewrite !skipn_app, L0, L1, Nat.sub_diag, (skipn_all2 u0), (skipn_all2 (vsub _ _)) in E2 by lia. cbn [app skipn] in E2. split; [|exact E2].
  rewrite <- E1. pose proof (wf_length _ _ _ (proj1 so_symm)) as LM. vec_eq. ring.
Qed.
End Sound.
