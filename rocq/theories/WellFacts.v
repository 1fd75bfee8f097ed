(** The contact response exists and is unique without friction; the LCP has exactly the responses as solutions *)
From Coq Require Import List Arith ZArith Bool Reals Lra Lia.
From Verif Require Import Num Tensor Utils Bodies Forces Constraints Contacts World Lapack Pdipm Lcp Engines Spec GeoSpec JointSpec EngineSpec WellSpec
     RBase ResFacts LinAlg LapackSpec KktSpec PdipmSpec WorldFacts HandlerFacts LayoutFacts HistFacts SysFacts RewindFacts JointFacts JeFacts
     CacheFacts BodyReach PdipmFacts PdipmLoop SolverFacts EngineFacts ContactSys EngineBalance ContactLaw EnergyFacts EngineProps QpFacts.
Import ListNotations.
Open Scope R_scope.

Lemma Forall2_nth {A B} (P : A -> B -> Prop) l l' i a : Forall2 P l l' -> nth_error l i = Some a -> exists b, nth_error l' i = Some b /\ P a b.
Proof.
  intros H. revert i. induction H as [|x y l l' Hxy H IH]; intros i E.
  - destruct i; discriminate.
  - destruct i as [|i]; [injection E as <-; exists y; auto|]. exact (IH i E).
Qed.

(** *** the LCP *)
Lemma lcp_unique nz nineq neq pr it it' : sized nz nineq neq pr ->
  (forall x, length x = nz -> x <> vzeros nz -> 0 < dot x (mv (pr_Q pr) x)) -> (forall z, length z = nineq -> 0 <= dot z (mv (pr_F pr) z)) ->
  solves_lcp nz nineq neq pr it -> solves_lcp nz nineq neq pr it' -> i_x it = i_x it'.
Proof.
  intros [[SQ WG WF WA] Lp Lh Lb] HQ HF [[Lx Ls Lz Ly] E1 E2 E3 P1 P2 Hc] [[Lx' Ls' Lz' Ly'] E1' E2' E3' P1' P2' Hc'].
  set (x := i_x it) in *. set (x' := i_x it') in *. set (s := i_s it) in *. set (s' := i_s it') in *. set (z := i_z it) in *. set (z' := i_z it') in *. set (y := i_y it) in *. set (y' := i_y it') in *.
  set (dx := vsub x x'). set (dz := vsub z z'). set (ds := vsub s s').
  assert (Ldx : length dx = nz) by (unfold dx; vlen). assert (Ldz : length dz = nineq) by (unfold dz; vlen). assert (Lds : length ds = nineq) by (unfold ds; vlen).
  pose proof (wf_length _ _ _ (proj1 SQ)) as LQ. pose proof (wf_length _ _ _ WG) as LG. pose proof (wf_length _ _ _ WF) as LF. pose proof (wf_length _ _ _ WA) as LA.
  assert (A0 : mv (pr_A pr) dx = vzeros neq). { unfold dx. rewrite mv_vsub, E3, E3' by vlen. rewrite vsub_self. f_equal. exact Lb. }
  assert (S1 : mv (pr_Q pr) dx = vopp (vadd (vm nz dz (pr_G pr)) (vm nz (vsub y y') (pr_A pr)))).
  { unfold stationarity in E1, E1'. fold x z y in E1. fold x' z' y' in E1'. unfold dx, dz. rewrite mv_vsub by vlen. rewrite (vsub_vadd z z'), (vsub_vadd y y'), !vm_vadd, !vm_vopp by vlen. vec_eq.
    apply (f_equal (fun u => vget u i)) in E1. apply (f_equal (fun u => vget u i)) in E1'. rewrite !vget_vadd, vget_zeros in E1, E1' by vlen. lra. }
  assert (G1 : mv (pr_G pr) dx = vsub (mv (pr_F pr) dz) ds).
  { unfold inequality in E2, E2'. fold x s z in E2. fold x' s' z' in E2'. unfold dx, dz, ds. rewrite !mv_vsub by vlen. vec_eq.
    apply (f_equal (fun u => vget u i)) in E2. apply (f_equal (fun u => vget u i)) in E2'. rewrite !vget_vsub, vget_vadd, vget_zeros in E2, E2' by vlen. lra. }
  assert (Q : dot dx (mv (pr_Q pr) dx) = dot dz ds - dot dz (mv (pr_F pr) dz)).
  { rewrite S1, dot_vopp_r, dot_vadd_r by vlen. rewrite !(dot_comm dx (vm _ _ _)). rewrite (dot_vm nineq nz), (dot_vm neq nz) by (auto; vlen). rewrite A0, dot_zeros_r, G1, dot_vsub_r by vlen. ring. }
  assert (C : dot dz ds <= 0).
  { assert (C0 : forall (a b : vec R), length a = length b -> (forall i, vget a i * vget b i = 0) -> dot b a = 0).
    { clear. induction a as [|p a IH]; intros [|q b] L H; try discriminate; [apply dot_nil_l|]. rewrite dot_cons. rewrite (IH b) by (cbn in L; try lia; intros i; exact (H (S i))). pose proof (H 0%nat) as H0. unfold vget in H0. cbn in H0. lra. }
    unfold dz, ds. rewrite dot_vsub_l, !dot_vsub_r by vlen. rewrite (C0 s z), (C0 s' z') by (auto; vlen).
    pose proof (dot_pos z s' P2 P1'). pose proof (dot_pos z' s P2' P1). lra. }
  pose proof (HF dz Ldz) as F0. destruct (list_eq_dec Req_EM_T dx (vzeros nz)) as [Z|NZ]; [|pose proof (HQ dx Ldx NZ); lra].
  apply vsub_diag; [vlen|]. fold dx. now rewrite Z, Lx.
Qed.

Section World.
Variables (bs : list (body R)) (js : list (joint R)) (J0 : list jent) (w : world R).
Hypothesis HS : sound bs js J0 w.
Notation n := (3 * length (w_bodies w))%nat.
Notation neq := (w_num_constraints w).
Notation nc := (length (w_contacts w)).

Lemma massive_pos x : massive w -> length x = n -> x <> vzeros n -> 0 < kinetic w x x.
Proof.
  intros Hm Lx Nx. rewrite <- kinetic_dot by (auto; apply (so_M _ _ _ _ HS)). rewrite (so_M _ _ _ _ HS). apply mass_quad_pos; auto. now rewrite Lx.
Qed.
(** the velocities at contacts and in constraints are linear *)
Lemma v3_at_sub x y i : length x = length y -> v3_at (vsub x y) i = (fst (v3_at x i) - fst (v3_at y i), v2sub (snd (v3_at x i)) (snd (v3_at y i))).
Proof.
  intros L. assert (G : forall k, vget (vsub x y) k = vget x k - vget y k).
  { intros k. destruct (Nat.lt_ge_cases k (length x)) as [H|H]; [apply vget_vsub; unfold vec in *; lia|]. rewrite !vget_out; try ring; rewrite ?vsub_length; unfold vec in *; lia. }
  unfold v3_at, v2sub. cbn [fst snd]. rnum. now rewrite !G.
Qed.
Lemma normal_sub x y c : length x = length y -> normal_velocity (vsub x y) c = normal_velocity x c - normal_velocity y c.
Proof.
  intros L. unfold normal_velocity, relative_velocity. rewrite !v3_at_sub by exact L. unfold component, point_velocity, v2sub. rnum. cbn [fst snd]. ring.
Qed.
Lemma normal_scale k x c : normal_velocity (vscale k x) c = k * normal_velocity x c.
Proof.
  unfold normal_velocity, relative_velocity, component, point_velocity, v3_at, v2sub. rnum. cbn [fst snd]. rewrite !vget_vscale. ring.
Qed.
Lemma cv_sub x y : length x = n -> length y = n -> constraint_velocity w x = vzeros neq -> constraint_velocity w y = vzeros neq -> constraint_velocity w (vsub x y) = vzeros neq.
Proof.
  intros Lx Ly Hx Hy. rewrite <- (Je_cv bs js J0 w HS) in * by vlen. rewrite mv_vsub by vlen. rewrite Hx, Hy, vsub_self. f_equal. apply vzeros_length.
Qed.
Lemma cv_scale k x : length x = n -> constraint_velocity w x = vzeros neq -> constraint_velocity w (vscale k x) = vzeros neq.
Proof. intros Lx Hx. rewrite <- (Je_cv bs js J0 w HS) in * by vlen. now rewrite mv_vscale, Hx, vscale_zeros. Qed.

(** *** uniqueness *)
Definition normals (imps : list (R * R)) : R := Rsum (map fst imps).
Lemma exact_power v imps x : frictionless w -> Forall2 (fun c im => coulomb w v c (fst im) (snd im)) (w_contacts w) imps ->
  contact_power (w_contacts w) imps x = normal_power (w_contacts w) imps x.
Proof.
  unfold frictionless. intros Hf H. unfold contact_power, normal_power. induction H as [|c im cs l Hc H IH]; [reflexivity|]. cbn [map2 Rsum fold_right]. unfold Rsum in IH.
  rewrite IH by (intros c' Hin; apply Hf; now right). destruct Hc as [C1 C2 C3 C4 C5]. rewrite (Hf c (or_introl eq_refl)) in C4. assert (Z : snd im = 0). { pose proof (Rle_abs (snd im)). pose proof (Rle_abs (- snd im)). rewrite Rabs_Ropp in *. lra. }
  rewrite Z. unfold normal_velocity. ring.
Qed.
Lemma exact_pair v v' l l' : Forall2 (fun c im => coulomb w v c (fst im) (snd im)) (w_contacts w) l -> Forall2 (fun c im => coulomb w v' c (fst im) (snd im)) (w_contacts w) l' ->
  length v = length v' -> normal_power (w_contacts w) l (vsub v v') - normal_power (w_contacts w) l' (vsub v v') <= 0.
Proof.
  intros H. revert l'. unfold normal_power. induction H as [|c im cs l Hc H IH]; intros l' H' L; [cbn; lra|]. inversion H' as [|? im' ? l1 Hc' H1]; subst. cbn [map2 Rsum fold_right]. unfold Rsum in IH.
  specialize (IH l1 H1 L). rewrite !normal_sub by exact L. destruct Hc as [C1 C2 C3 _ _]. destruct Hc' as [D1 D2 D3 _ _].
  assert (Q : (fst im - fst im') * (normal_velocity v c - normal_velocity v' c) <= 0).
  { set (b := - mixed w b_rest c * normal_velocity (w_v w) c) in *. assert (K1 : fst im * (normal_velocity v c - b) = 0) by (destruct C1 as [C1|C1]; [rewrite (C3 C1); ring|rewrite <- C1; ring]).
    assert (K2 : fst im' * (normal_velocity v' c - b) = 0) by (destruct D1 as [D1|D1]; [rewrite (D3 D1); ring|rewrite <- D1; ring]). nra. }
  lra.
Qed.
Lemma response_unique dt v imps v' imps' : massive w -> frictionless w -> response w dt v imps -> response w dt v' imps' -> v = v'.
Proof.
  intros Hm Hf (f & y & Ef & Lv & (_ & _ & B) & HC & HL) (f' & y' & Ef' & Lv' & (_ & _ & B') & HC' & HL'). rewrite Ef in Ef'. injection Ef' as <-.
  set (x := vsub v v'). assert (Lx : length x = n) by (unfold x; vlen). specialize (B x Lx). specialize (B' x Lx).
  rewrite (cv_sub v v' Lv Lv' HC HC' : constraint_velocity w x = _), dot_zeros_r, dot_zeros_l in B, B'. rewrite (exact_power v imps x Hf HL) in B. rewrite (exact_power v' imps' x Hf HL') in B'.
  pose proof (exact_pair v v' imps imps' HL HL' ltac:(vlen)) as P. fold x in P.
  pose proof (kinetic_sub_r w (so_M _ _ _ _ HS) x v v' Lx Lv Lv') as E. fold x in E.
  destruct (list_eq_dec Req_EM_T x (vzeros n)) as [Z|NZ]; [|pose proof (massive_pos x Hm Lx NZ); lra].
  apply vsub_diag; [vlen|]. fold x. now rewrite Z, Lv.
Qed.

(** *** a residual bounds the distance to the exact response *)
Lemma near_pair r v v' l : 0 <= r -> length v = length v' -> forall k m,
  (forall i c, nth_error (w_contacts w) i = Some c -> law r w v c (m (k + i)%nat)) ->
  Forall2 (fun c im => coulomb w v' c (fst im) (snd im)) (w_contacts w) l ->
  normal_power (w_contacts w) (map (fun i => imp (m i)) (seq k nc)) (vsub v v') - normal_power (w_contacts w) l (vsub v v') <=
  r * Rsum (map (fun i => let '(l, b1, b2, _) := m i in 1 + l) (seq k nc)) + r * normals l.
Proof.
  intros Hr L k m H1 H2. revert k m H1. unfold normal_power, normals. induction H2 as [|c im cs l Hc H IH]; intros k m H1; [cbn; lra|]. cbn [length seq map map2 Rsum fold_right]. unfold Rsum in IH.
  specialize (IH (S k) m ltac:(intros i c' Hc'; specialize (H1 (S i) c' Hc'); now rewrite Nat.add_succ_r in H1)).
  specialize (H1 0%nat c eq_refl). rewrite Nat.add_0_r in H1. unfold law in H1. destruct (m k) as [[[a b1] b2] g]. cbn [imp fst snd]. rewrite !normal_sub by exact L.
  destruct Hc as [D1 D2 D3 _ _]. destruct H1 as [(S0 & _) S2 S3 _ _ _ _]. set (e := mixed w b_rest c) in *. set (o := normal_velocity (w_v w) c) in *. set (p := normal_velocity v c) in *. set (q := normal_velocity v' c) in *.
  assert (K2 : fst im * (q + e * o) = 0) by (destruct D1 as [D1|D1]; [rewrite (D3 D1); ring|rewrite <- D1; ring]).
  assert (Q : a * (p - q) - fst im * (p - q) <= r * (1 + a) + r * fst im) by nra. lra.
Qed.
Lemma response_near dt v z f y err r v' imps' : massive w -> frictionless w -> world_apply_forces w (w_t w) = Ok f -> length v = n -> length err = n -> norm2 err <= r -> Forall (fun a => 0 <= a) z ->
  balance w dt f v (impulses nc z) y err -> constraint_velocity w v = vzeros neq ->
  (forall i c, nth_error (w_contacts w) i = Some c -> law r w v c (multipliers nc z i)) -> response w dt v' imps' ->
  kinetic w (vsub v v') (vsub v v') <= r * (slack nc z + normals imps' + slip_total w (vsub v v') + norm2 (vsub v v')).
Proof.
  intros Hm Hf Ef Lv Le Ne Hz (_ & _ & B) HC HL (f' & y' & Ef' & Lv' & (_ & _ & B') & HC' & HL'). rewrite Ef in Ef'. injection Ef' as <-.
  assert (Pr : 0 <= r) by (pose proof (norm2_nonneg err); lra).
  set (x := vsub v v'). assert (Lx : length x = n) by (unfold x; vlen). specialize (B x Lx). specialize (B' x Lx).
  rewrite (cv_sub v v' Lv Lv' HC HC' : constraint_velocity w x = _), dot_zeros_r in B, B'. rewrite dot_zeros_l in B'. rewrite (exact_power v' imps' x Hf HL') in B'.
  pose proof (near_pair r v v' imps' Pr ltac:(vlen) 0%nat (multipliers nc z) HL HL') as P. fold x in P.
  pose proof (power_frictionless r w v (multipliers nc z) x (w_contacts w) 0 ltac:(intros i c Hi; split; [apply Hf; eapply nth_error_In; exact Hi|now apply HL])) as P2.
  change (map (fun i => imp (multipliers nc z i)) (seq 0 nc)) with (impulses nc z) in *. fold (slip_total w x) in P2.
  pose proof (slack_le nc z r Pr Hz) as SL. pose proof (dot_err err x r ltac:(unfold vec in *; congruence) Ne) as D.
  pose proof (kinetic_sub_r w (so_M _ _ _ _ HS) x v v' Lx Lv Lv') as E. fold x in E. lra.
Qed.

(** *** existence *)
Lemma diffs_zeros k : diffs (vzeros (2 * k)) = vzeros k.
Proof. induction k as [|k IH]; [reflexivity|]. replace (2 * S k)%nat with (S (S (2 * k))) by lia. unfold vzeros in *. cbn [repeat diffs]. rewrite IH. rnum. f_equal. ring. Qed.
Lemma restitution_vec : vmul (mv (Jc w) (w_v w)) (restitutions w) = map (fun c => mixed w b_rest c * normal_velocity (w_v w) c) (w_contacts w).
Proof.
  rewrite mv_Jc by (try apply (so_range _ _ _ _ HS); apply (so_vlen _ _ _ _ HS)). unfold restitutions, vmul. induction (w_contacts w) as [|c cs IH]; [reflexivity|]. cbn [map vmap2]. f_equal; [|exact IH]. unfold mixed, normal_velocity. rnum. ring.
Qed.
Lemma response_exists dt f v0 : massive w -> frictionless w -> world_apply_forces w (w_t w) = Ok f -> allowed w v0 -> exists v imps, response w dt v imps.
Proof.
  intros Hm Hf Ef (L0 & C0 & N0). destruct (apply_forces_layout _ _ _ Ef) as [Lf _].
  set (h := map (fun c => - mixed w b_rest c * normal_velocity (w_v w) c) (w_contacts w)).
  assert (HP : forall x, length x = n -> x <> vzeros n -> 0 < dot x (mv (w_M w) x)). { intros x Lx Nx. rewrite kinetic_dot by (auto; apply (so_M _ _ _ _ HS)). now apply massive_pos. }
  assert (Ge : forall x, length x = n -> (Forall2 Rle h (mv (Jc w) x) <-> forall c, In c (w_contacts w) -> - mixed w b_rest c * normal_velocity (w_v w) c <= normal_velocity x c)).
  { intros x Lx. rewrite mv_Jc by (auto; apply (so_range _ _ _ _ HS)). unfold h, normal_velocity. clear. induction (w_contacts w) as [|c cs IH]; cbn [map]; split; intros H.
    - intros c [].
    - constructor.
    - inversion H as [|? ? ? ? H1 H2]; subst. intros c' [<-|Hin]; [exact H1|]. now apply IH.
    - constructor; [apply H; now left|]. apply IH. intros c' Hin. apply H. now right. }
  destruct (qp_exists n (w_M w) (so_symm _ _ _ _ HS) HP (Jc w) nc neq (step_rhs w dt f) (Je w) (vzeros neq) h) as (v & y & z & [A1 A2 A3 A4 A5 A6 A7 A8]).
  - apply (so_Je _ _ _ _ HS).
  - apply wf_Jc, (so_range _ _ _ _ HS).
  - apply (step_rhs_length _ _ _ _ HS dt f Lf).
  - exists v0. split; [exact L0|]. split; [now rewrite (Je_cv bs js J0 w HS)|]. now apply Ge.
  - exists v, (combine z (diffs (vzeros (2 * nc)))), f, y. split; [exact Ef|]. split; [exact A1|]. split; [|split].
    + apply (balance_of bs js J0 w HS); auto; try apply vzeros_length. rewrite A4. unfold step_rhs.
      replace (vm n (vzeros (2 * nc)) (jf_all w)) with (vzeros n : vec R) by (symmetry; apply vm_zeros).
      pose proof (step_rhs_length _ _ _ _ HS dt f Lf) as LR. unfold step_rhs in LR. pose proof (wf_length _ _ _ (proj1 (so_symm _ _ _ _ HS))) as LM'. vec_eq. ring.
    + rewrite <- (Je_cv bs js J0 w HS) by exact A1. exact A5.
    + rewrite diffs_zeros. pose proof (proj1 (Ge v A1) A6) as Gv. clear A6 A4 Ge HP N0.
      assert (Ci : dot z (map (fun c => normal_velocity v c + mixed w b_rest c * normal_velocity (w_v w) c) (w_contacts w)) = 0).
      { rewrite <- A8. f_equal. rewrite mv_Jc by (auto; apply (so_range _ _ _ _ HS)). unfold h. clear. induction (w_contacts w) as [|c cs IH]; [reflexivity|]. cbn [map]. unfold vsub in *. cbn [vmap2]. f_equal; [|exact IH]. unfold normal_velocity. rnum. ring. }
      clear A8. clear h. unfold frictionless in Hf. revert z A3 A7 Ci Hf Gv. induction (w_contacts w) as [|c cs IH]; intros z A3 A7 Ci Hf Gv; [destruct z; [constructor|discriminate]|].
      destruct z as [|a z]; [discriminate|]. cbn [map length vzeros repeat combine] in *. rewrite dot_cons in Ci. apply Forall_cons_iff in A7. destruct A7 as [Pa Pz].
      assert (Pd : 0 <= dot z (map (fun c => normal_velocity v c + mixed w b_rest c * normal_velocity (w_v w) c) cs)).
      { apply dot_pos; [exact Pz|]. apply Forall_map, Forall_forall. intros c' Hin. specialize (Gv c' (or_intror Hin)). lra. }
      pose proof (Gv c (or_introl eq_refl)) as Gc. assert (Pc : 0 <= a * (normal_velocity v c + mixed w b_rest c * normal_velocity (w_v w) c)) by (apply Rmult_le_pos; lra).
      constructor.
      * cbn [fst snd]. pose proof (Hf c (or_introl eq_refl)) as F0. constructor; auto; rewrite ?F0.
        { intros Pl. assert (a * (normal_velocity v c + mixed w b_rest c * normal_velocity (w_v w) c) = 0) by lra. nra. }
        { rnum. rewrite Rabs_R0. lra. }
        { rnum. ring. }
      * apply IH; auto; try (cbn in A3; lia); [lra| |]; intros c' Hin; [apply Hf|apply Gv]; now right.
Qed.
Lemma response_allowed dt v imps : response w dt v imps -> allowed w v.
Proof.
  intros (f & y & _ & Lv & _ & HC & HL). split; [exact Lv|]. split; [exact HC|]. intros c Hin. apply In_nth_error in Hin. destruct Hin as [i Hi]. destruct (Forall2_nth _ _ _ _ _ HL Hi) as (im & _ & H). apply H.
Qed.
Lemma uniform_allowed e : (forall c, In c (w_contacts w) -> mixed w b_rest c = e) -> constraint_velocity w (w_v w) = vzeros neq -> allowed w (vscale (- e) (w_v w)).
Proof.
  intros He HC. pose proof (so_vlen _ _ _ _ HS) as Lv. split; [vlen|]. split; [now apply cv_scale|]. intros c Hin. rewrite normal_scale, (He c Hin). lra.
Qed.
End World.
