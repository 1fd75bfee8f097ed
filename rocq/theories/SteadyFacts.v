(** Two velocities of the same configuration: their contact responses are no further apart than they are *)
From Coq Require Import List Arith ZArith Bool Reals Lra Lia.
From Verif Require Import Num Tensor Utils Bodies Forces Constraints Contacts World Lapack Pdipm Lcp Engines Spec GeoSpec JointSpec EngineSpec WellSpec
     RBase ResFacts LinAlg LapackSpec KktSpec PdipmSpec WorldFacts HandlerFacts LayoutFacts HistFacts SysFacts RewindFacts JointFacts JeFacts
     CacheFacts BodyReach PdipmFacts PdipmLoop SolverFacts EngineFacts ContactSys EngineBalance ContactLaw EnergyFacts EngineProps EngineMore QpFacts WellFacts WellProps.
Import ListNotations.
Open Scope R_scope.

(** *** changing the velocities leaves the rest of the problem alone *)
Lemma set_v_nth w v w' : set_v w v = Ok w' -> forall i, nth_error (w_bodies w') i = option_map (fun b => with_v b (v3_at v i)) (nth_error (w_bodies w) i).
Proof.
  intros H i. destruct (set_v_spec _ _ _ H) as (_ & L & _ & _ & _ & Hn). destruct (nth_error (w_bodies w) i) as [b|] eqn:E; [exact (Hn _ _ E)|].
  cbn. apply nth_error_None. apply nth_error_None in E. lia.
Qed.
Lemma set_v_attrs w v w' : set_v w v = Ok w' -> Forall2 same_attrs (w_bodies w) (w_bodies w').
Proof. intros H. eapply set_v_bodies; eauto. apply same_attrs_steps. Qed.
Lemma set_v_cv w v w' x : set_v w v = Ok w' -> constraint_velocity w' x = constraint_velocity w x.
Proof.
  intros H. destruct (set_v_spec _ _ _ H) as (_ & _ & _ & _ & EJ & _). unfold constraint_velocity. rewrite EJ. apply flat_map_ext. intros [[j i1] i2].
  rewrite !(set_v_nth _ _ _ H). destruct (nth_error (w_bodies w) i1) as [b1|]; [|reflexivity]. cbn [option_map]. f_equal.
  destruct i2 as [i|]; [|reflexivity]. rewrite (set_v_nth _ _ _ H). now destruct (nth_error (w_bodies w) i) as [b2|].
Qed.
Lemma set_v_mixed w v w' f c : set_v w v = Ok w' -> (forall b u, f (with_v b u) = f b) -> mixed w' f c = mixed w f c.
Proof.
  intros H Hf. unfold mixed, body_at. rewrite !(set_v_nth _ _ _ H). destruct (nth_error (w_bodies w) (c_i1 c)), (nth_error (w_bodies w) (c_i2 c)); cbn [option_map]; now rewrite ?Hf.
Qed.
Lemma set_v_forces w v w' t : set_v w v = Ok w' -> world_apply_forces w' t = world_apply_forces w t.
Proof.
  intros H. apply set_v_inv in H. destruct H as [_ ->]. unfold world_apply_forces. cbn [w_heap w_bodies with_state]. f_equal.
  unfold mapi. generalize 0%nat. induction (w_bodies w) as [|b l IH]; intros k; [reflexivity|]. cbn [mapi_from mapM]. now rewrite IH.
Qed.

(** *** the law at a contact, with tolerance, without friction *)
Definition near (r : R) (w : world R) (x : vec R) (c : contact R) (im : R * R) : Prop :=
  0 <= fst im /\ - r <= normal_velocity x c + mixed w b_rest c * normal_velocity (w_v w) c /\
  fst im * (normal_velocity x c + mixed w b_rest c * normal_velocity (w_v w) c) <= r * (1 + fst im) /\ Rabs (snd im) <= r.
Lemma coulomb_near w x c l t : mixed w b_fric c = 0 -> coulomb w x c l t -> near 0 w x c (l, t).
Proof.
  intros Hf [C1 C2 C3 C4 C5]. unfold near. cbn [fst snd]. rewrite Hf in C4. split; [exact C1|]. split; [lra|]. split; [|lra]. destruct C1 as [C1|C1]; [rewrite (C3 C1); lra|rewrite <- C1; lra].
Qed.
Lemma law_near r w x c m : mixed w b_fric c = 0 -> law r w x c m -> near r w x c (imp m).
Proof.
  intros Hf. unfold law. destruct m as [[[l b1] b2] g]. intros [S1 S2 S3 S4 S5 S6 S7]. unfold near. cbn [imp fst snd]. rewrite Hf in S4. split; [lra|]. split; [exact S2|]. split; [exact S3|].
  apply Rabs_le. lra.
Qed.
Lemma near_all r w x nc z : (forall c, In c (w_contacts w) -> mixed w b_fric c = 0) -> nc = length (w_contacts w) ->
  (forall i c, nth_error (w_contacts w) i = Some c -> law r w x c (multipliers nc z i)) -> Forall2 (near r w x) (w_contacts w) (impulses nc z).
Proof.
  intros Hf En H. unfold impulses. assert (G : forall cs k, (forall i c, nth_error cs i = Some c -> mixed w b_fric c = 0 /\ law r w x c (multipliers nc z (k + i))) ->
    Forall2 (near r w x) cs (map (fun i => let '(l, b1, b2, _) := multipliers nc z i in (l, b1 - b2)) (seq k (length cs)))).
  { induction cs as [|c cs IH]; intros k Hc; [constructor|]. cbn [length seq map]. constructor.
    - destruct (Hc 0%nat c eq_refl) as [F L]. rewrite Nat.add_0_r in L. exact (law_near _ _ _ _ _ F L).
    - apply IH. intros i c' E. specialize (Hc (S i) c' E). now rewrite Nat.add_succ_r in Hc. }
  replace (seq 0 nc) with (seq 0 (length (w_contacts w))) by (now rewrite En). apply (G (w_contacts w) 0%nat). intros i c E. split; [apply Hf; eapply nth_error_In; exact E|]. exact (H i c E).
Qed.
Definition pushes (l : list (R * R)) : R := Rsum (map (fun im => 1 + fst im) l).
Lemma near_pair2 r r' e w w' x x' d q cs : 0 <= r -> 0 <= r' ->
  (forall c, In c cs -> mixed w b_rest c = e /\ mixed w' b_rest c = e) -> length x = length x' -> length (w_v w) = length (w_v w') ->
  (forall c, In c cs -> normal_velocity q c = normal_velocity x c - normal_velocity x' c + e * (normal_velocity (w_v w) c - normal_velocity (w_v w') c)) ->
  forall l l', Forall2 (near r w x) cs l -> Forall2 (near r' w' x') cs l' -> d = (r + r') ->
  contact_power cs l q - contact_power cs l' q <= d * (pushes l + pushes l' + Rsum (map (fun c => Rabs (slip_velocity q c)) cs)).
Proof.
  intros Hr Hr' He Lx Lv Hq l l' H. revert l'. unfold contact_power, pushes. induction H as [|c im cs l Hc H IH]; intros l' H' Ed; [inversion H'; cbn; lra|].
  inversion H' as [|? im' ? l1 Hc' H1]; subst. cbn [map map2 Rsum fold_right]. unfold Rsum in IH.
  specialize (IH ltac:(intros c' Hin; apply He; now right) ltac:(intros c' Hin; apply Hq; now right) l1 H1 eq_refl).
  fold (normal_velocity q c) (slip_velocity q c). rewrite (Hq c (or_introl eq_refl)). destruct (He c (or_introl eq_refl)) as [E1 E2].
  destruct Hc as (A1 & A2 & A3 & A4). destruct Hc' as (B1 & B2 & B3 & B4). rewrite E1 in *. rewrite E2 in *.
  set (s := normal_velocity x c + e * normal_velocity (w_v w) c) in *. set (s' := normal_velocity x' c + e * normal_velocity (w_v w') c) in *.
  replace (normal_velocity x c - normal_velocity x' c + e * (normal_velocity (w_v w) c - normal_velocity (w_v w') c)) with (s - s') by (unfold s, s'; ring).
  assert (Q : (fst im - fst im') * (s - s') <= (r + r') * (2 + fst im + fst im')) by nra.
  assert (P : (snd im - snd im') * slip_velocity q c <= (r + r') * Rabs (slip_velocity q c)).
  { pose proof (Rabs_pos (slip_velocity q c)). apply Rle_trans with (Rabs ((snd im - snd im') * slip_velocity q c)); [apply Rle_abs|]. rewrite Rabs_mult. apply Rmult_le_compat_r; [lra|].
    unfold Rminus. eapply Rle_trans; [apply Rabs_triang|]. rewrite Rabs_Ropp. lra. }
  lra.
Qed.

Section Two.
Variables (bs : list (body R)) (js : list (joint R)) (J0 : list jent) (w w' : world R) (v' : vec R).
Hypothesis HS : sound bs js J0 w.
Hypothesis Lv : length (w_v w) = (3 * length (w_bodies w))%nat.
Hypothesis Hset : set_v w v' = Ok w'.
Notation n := (3 * length (w_bodies w))%nat.
Notation neq := (w_num_constraints w).

Lemma steady_core e r r' dt f x x' y y' l l' err err' : Forall (fun b => 0 <= b_mass b /\ 0 <= b_inertia b) (w_bodies w) ->
  (forall c, In c (w_contacts w) -> mixed w b_rest c = e) -> 0 <= e <= 1 ->
  e = 0 \/ constraint_velocity w (w_v w) = constraint_velocity w v' ->
  length x = n -> length x' = n -> length err = n -> length err' = n -> norm2 err <= r -> norm2 err' <= r' ->
  balance w dt f x l y err -> balance w' dt f x' l' y' err' ->
  constraint_velocity w x = vzeros neq -> constraint_velocity w x' = vzeros neq ->
  Forall2 (near r w x) (w_contacts w) l -> Forall2 (near r' w' x') (w_contacts w) l' ->
  let d := vsub (w_v w) v' in let p := vsub x x' in let q := vadd p (vscale e d) in
  (1 + e) * kinetic w p p <= (1 + e) * kinetic w d d + 2 * (r + r') * (pushes l + pushes l' + slip_total w q + norm2 q).
Proof.
  intros Hm He [He0 He1] Hcv Lx Lx' Le Le' Ne Ne' (_ & _ & B) (_ & _ & B') HC HC' N N' d p q.
  pose proof (set_v_inv _ _ _ Hset) as [Lv' _]. destruct (set_v_spec _ _ _ Hset) as (Ev & Lb & Ec & _). pose proof (so_M _ _ _ _ HS) as HM.
  assert (Ld : length d = n) by (unfold d; vlen). assert (Lp : length p = n) by (unfold p; vlen). assert (Lq : length q = n) by (unfold q; vlen).
  assert (Pr : 0 <= r) by (pose proof (norm2_nonneg err); lra). assert (Pr' : 0 <= r') by (pose proof (norm2_nonneg err'); lra).
  assert (Cq : constraint_velocity w q = vzeros neq).
  { pose proof (cv_sub bs js J0 w HS x x' Lx Lx' HC HC') as Cp. fold p in Cp. assert (Cd : constraint_velocity w (vscale e d) = vzeros neq).
    { rewrite <- (Je_cv bs js J0 w HS) in * by vlen. rewrite mv_vscale. destruct Hcv as [->|Hcv].
      - rewrite vscale_0. f_equal. rewrite mv_length. pose proof (f_equal (@length R) HC) as L. rewrite mv_length in L. rewrite L. apply vzeros_length.
      - rewrite <- !(Je_cv bs js J0 w HS) in Hcv by vlen. unfold d. rewrite mv_vsub, Hcv, vsub_self by vlen. rewrite vscale_zeros. f_equal. rewrite mv_length. pose proof (f_equal (@length R) HC) as L. rewrite mv_length in L. rewrite L. apply vzeros_length. }
    rewrite <- (Je_cv bs js J0 w HS) in * by vlen. unfold q. rewrite mv_vadd by vlen. rewrite Cp, Cd. apply vadd_zeros_r. apply vzeros_length. }
  specialize (B q Lq). specialize (B' q ltac:(rewrite Lb; exact Lq)). rewrite (kinetic_same _ _ _ _ (set_v_attrs _ _ _ Hset)) in B'. rewrite (kinetic_same _ _ _ _ (set_v_attrs _ _ _ Hset)) in B'.
  rewrite Ec, Ev, (set_v_cv _ _ _ _ Hset), Cq, dot_zeros_r in B'. rewrite Cq, dot_zeros_r in B.
  assert (P : contact_power (w_contacts w) l q - contact_power (w_contacts w) l' q <= (r + r') * (pushes l + pushes l' + slip_total w q)).
  { apply (near_pair2 r r' e w w' x x' (r + r') q); auto; try (rewrite Ev); try vlen.
    - intros c Hin. split; [now apply He|]. rewrite (set_v_mixed _ _ _ _ _ Hset) by reflexivity. now apply He.
    - intros c Hin. unfold q. rewrite <- (normal_sub x x') by vlen. fold p. rewrite <- (normal_sub (w_v w) v') by vlen. fold d.
      replace (vadd p (vscale e d)) with (vsub p (vscale (- e) d)) by (vec_eq; ring). rewrite normal_sub by vlen. rewrite normal_scale. ring. }
  pose proof (dot_err err q r ltac:(unfold vec in *; congruence) Ne) as D. pose proof (dot_err (vopp err') q r' ltac:(rewrite vopp_length; unfold vec in *; congruence)) as D'.
  replace (norm2 (vopp err')) with (norm2 err') in D' by (unfold norm2; now rewrite dot_vopp_l, dot_vopp_r, Ropp_involutive). specialize (D' Ne'). rewrite dot_vopp_l in D'.
  assert (E1 : kinetic w q p = kinetic w q x - kinetic w q x') by (apply kinetic_sub_r; auto).
  assert (E2 : kinetic w q d = kinetic w q (w_v w) - kinetic w q v') by (apply kinetic_sub_r; auto; vlen).
  assert (K : kinetic w q p - kinetic w q d <= (r + r') * (pushes l + pushes l' + slip_total w q + norm2 q)) by lra.
  assert (S1 : forall u, length u = n -> kinetic w q u = kinetic w p u + e * kinetic w d u).
  { intros u Lu. rewrite <- !kinetic_dot by auto. unfold q. rewrite dot_vadd_l, dot_vscale_l; [reflexivity|vlen]. }
  rewrite (S1 p Lp), (S1 d Ld) in K. rewrite (kinetic_symm w d p) in K.
  pose proof (kinetic_pos w (vsub p d) Hm) as Q. rewrite kinetic_sub_r in Q by (auto; vlen). rewrite !(kinetic_symm w (vsub _ _)) in Q. rewrite !kinetic_sub_r in Q by (auto; vlen).
  rewrite (kinetic_symm w d p) in Q. nra.
Qed.
End Two.

Lemma forall_near w x (P : contact R -> R * R -> Prop) cs l : (forall c im, In c cs -> P c im -> near 0 w x c im) -> Forall2 P cs l -> Forall2 (near 0 w x) cs l.
Proof. intros H F. induction F as [|c im cs l Hc F IH]; constructor; [apply H; [now left|exact Hc]|]. apply IH. intros c' im' Hin. apply H. now right. Qed.
Lemma pushes_slack nc z : Forall (fun a => 0 <= a) z -> pushes (impulses nc z) <= slack nc z.
Proof.
  intros Hz. unfold pushes, slack, impulses. rewrite map_map. generalize (seq 0 nc). intros l. induction l as [|i l IH]; [cbn; lra|]. cbn [map Rsum fold_right]. apply Rplus_le_compat; [|exact IH].
  unfold multipliers. cbn [fst]. pose proof (vget_nonneg z (nc + 2 * i) Hz). pose proof (vget_nonneg z (nc + 2 * i + 1) Hz). lra.
Qed.
(** exact responses *)
Lemma steady la mi bs js w v' w' e dt x imps x' imps' : engine_world la mi bs js w -> set_v w v' = Ok w' ->
  Forall (fun b => 0 <= b_mass b /\ 0 <= b_inertia b) (w_bodies w) -> frictionless w ->
  (forall c, In c (w_contacts w) -> mixed w b_rest c = e) -> 0 <= e <= 1 ->
  e = 0 \/ constraint_velocity w (w_v w) = constraint_velocity w v' ->
  response w dt x imps -> response w' dt x' imps' ->
  kinetic w (vsub x x') (vsub x x') <= kinetic w (vsub (w_v w) v') (vsub (w_v w) v').
Proof.
  intros HW Hset Hm Hf He He1 Hcv (f & y & Ef & Lx & B & HC & HL) (f' & y' & Ef' & Lx' & B' & HC' & HL').
  destruct (engine_world_sound _ _ _ _ _ HW) as (J0 & HS & _).
  pose proof (set_v_inv _ _ _ Hset) as [Lv' Ew']. destruct (set_v_spec _ _ _ Hset) as (Ev & Lb & Ec & Et & _).
  rewrite (set_v_forces _ _ _ _ Hset), Et, Ef in Ef'. injection Ef' as <-. rewrite Lb in Lx', B'. rewrite (set_v_cv _ _ _ _ Hset) in HC'. replace (w_num_constraints w') with (w_num_constraints w) in HC' by (rewrite Ew'; reflexivity).
  assert (Lw : length (w_v w) = (3 * length (w_bodies w))%nat) by (exact (so_vlen _ _ _ _ HS)).
  rewrite Ec in HL'.
  assert (N : Forall2 (near 0 w x) (w_contacts w) imps). { eapply forall_near; [|exact HL]. intros c im Hin H. destruct im as [l t]. apply coulomb_near; [now apply Hf|exact H]. }
  assert (N' : Forall2 (near 0 w' x') (w_contacts w) imps').
  { eapply forall_near; [|exact HL']. intros c im Hin H. destruct im as [l t]. apply coulomb_near; [|exact H]. rewrite (set_v_mixed _ _ _ _ _ Hset) by reflexivity. now apply Hf. }
  assert (Z : norm2 (vzeros (3 * length (w_bodies w))) <= 0). { unfold norm2. rewrite dot_zeros_l, sqrt_0. lra. }
  pose proof (steady_core bs js J0 w w' v' HS Lw Hset e 0 0 dt f x x' y y' imps imps' _ _ Hm He He1 Hcv Lx Lx' (vzeros_length _) (vzeros_length _) Z Z B B' HC HC' N N') as Q.
  cbv zeta in Q. set (p := kinetic w (vsub x x') (vsub x x')) in *. set (d := kinetic w (vsub (w_v w) v') (vsub (w_v w) v')) in *. nra.
Qed.
(** what the engine returns *)
Lemma engine_world_set la mi bs js w v w' : engine_world la mi bs js w -> set_v w v = Ok w' -> engine_world la mi bs js w'.
Proof.
  intros [fuel gf o hd heap dt eps tol fd ps st w0 ops H1 H2 H3 H4 H5 H6] H. apply (engine_history _ _ _ _ _ fuel gf o hd heap dt eps tol fd ps st w0 (ops ++ [OSetV v])); auto.
  clear H5. revert w0 H6. induction ops as [|a ops IH]; intros w0; cbn [exec app]; [intros E; inversion E; subst; rewrite H; reflexivity|].
  intros E. destruct a; bind_inv E as x Ex; rewrite Ex; cbn [bind]; auto.
Qed.
Lemma steady_returned la mi bs js w v' w' e dt it r it' r' : lapack_ok la -> engine_world la mi bs js w -> set_v w v' = Ok w' ->
  Forall (fun b => 0 <= b_mass b /\ 0 <= b_inertia b) (w_bodies w) -> frictionless w ->
  (forall c, In c (w_contacts w) -> mixed w b_rest c = e) -> 0 <= e <= 1 ->
  e = 0 \/ constraint_velocity w (w_v w) = constraint_velocity w v' -> w_contacts w <> [] ->
  engine_point la mi w dt it r -> engine_point la mi w' dt it' r' ->
  let x := vopp (i_x it) in let x' := vopp (i_x it') in let d := vsub (w_v w) v' in let q := vadd (vsub x x') (vscale e d) in
  let nc := length (w_contacts w) in
  (1 + e) * kinetic w (vsub x x') (vsub x x') <=
  (1 + e) * kinetic w d d + 2 * (r + r') * (slack nc (i_z it) + slack nc (i_z it') + slip_total w q + norm2 q).
Proof.
  intros HL HW Hset Hm Hf He He1 Hcv Hc Hp Hp' x x' d q nc. pose proof (engine_world_set _ _ _ _ _ _ _ HW Hset) as HW'.
  destruct (engine_world_sound _ _ _ _ _ HW) as (J0 & HS & _).
  pose proof (set_v_inv _ _ _ Hset) as [Lv' Ew']. destruct (set_v_spec _ _ _ Hset) as (Ev & Lb & Ec & Et & _).
  destruct (point_response la mi bs js w dt HL HW Hc it r x Hp eq_refl) as (f & err & Ef & Lf & Lx & Pz & Le & Ne & B & HC & L).
  destruct (point_response la mi bs js w' dt HL HW' ltac:(rewrite Ec; exact Hc) it' r' x' Hp' eq_refl) as (f' & err' & Ef' & Lf' & Lx' & Pz' & Le' & Ne' & B' & HC' & L').
  rewrite (set_v_forces _ _ _ _ Hset), Et, Ef in Ef'. injection Ef' as <-. rewrite Lb in Lx', Le'. rewrite (set_v_cv _ _ _ _ Hset) in HC'. replace (w_num_constraints w') with (w_num_constraints w) in HC' by (rewrite Ew'; reflexivity).
  rewrite Ec in B', L'. fold nc in B, B', L, L'.
  assert (Lw : length (w_v w) = (3 * length (w_bodies w))%nat) by (exact (so_vlen _ _ _ _ HS)).
  assert (Nz : Forall (fun a => 0 <= a) (i_z it)) by (eapply Forall_impl; [|exact Pz]; cbn; intros; lra). assert (Nz' : Forall (fun a => 0 <= a) (i_z it')) by (eapply Forall_impl; [|exact Pz']; cbn; intros; lra).
  pose proof (near_all r w x nc (i_z it) Hf eq_refl L) as N.
  assert (N' : Forall2 (near r' w' x') (w_contacts w) (impulses nc (i_z it'))).
  { rewrite <- Ec. apply near_all; [|unfold nc; now rewrite Ec|now rewrite Ec]. intros c Hin. rewrite Ec in Hin. rewrite (set_v_mixed _ _ _ _ _ Hset) by reflexivity. now apply Hf. }
  pose proof (steady_core bs js J0 w w' v' HS Lw Hset e r r' dt f x x' (i_y it) (i_y it') _ _ err err' Hm He He1 Hcv Lx Lx' Le Le' Ne Ne' B B' HC HC' N N') as Q.
  cbv zeta in Q. fold d in Q. fold q in Q. eapply Rle_trans; [exact Q|]. apply Rplus_le_compat_l. apply Rmult_le_compat_l; [pose proof (norm2_nonneg err); pose proof (norm2_nonneg err'); lra|].
  pose proof (pushes_slack nc (i_z it) Nz). pose proof (pushes_slack nc (i_z it') Nz'). lra.
Qed.
