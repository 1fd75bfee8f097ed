(** The engine answers: free motion with independent constraints, and frictionless contacts *)
From Coq Require Import List Arith ZArith Bool Reals Lra Lia Psatz.
From Verif Require Import Num Tensor Utils Bodies Forces Constraints Contacts World Lapack Pdipm Lcp Engines Spec GeoSpec JointSpec EngineSpec
     RBase ResFacts LinAlg LapackSpec KktSpec PdipmSpec WorldFacts HandlerFacts LayoutFacts HistFacts SysFacts RewindFacts JointFacts JeFacts
     CacheFacts BodyReach GeomFacts PdipmFacts PdipmLoop SolverFacts EngineFacts ContactSys EngineBalance ContactLaw.
Import ListNotations.
Open Scope R_scope.

Section Engine.
Variables (bs : list (body R)) (js : list (joint R)) (J0 : list jent) (w : world R) (la : lapack R) (mi : nat).
Hypothesis HS : sound bs js J0 w.
Hypothesis HL : lapack_ok la.
Hypothesis HV : valid la w.
Hypothesis Hm : Forall (fun b : body R => 0 < b_mass b /\ 0 < b_inertia b) bs.
Hypothesis HI : independent w.
Notation n := (3 * length (w_bodies w))%nat.
Notation neq := (w_num_constraints w).
Notation nc := (length (w_contacts w)).

Lemma M_pos x : length x = n -> x <> vzeros n -> 0 < dot x (mv (w_M w) x).
Proof.
  intros Lx Nx. rewrite (so_M0 _ _ _ _ HS). apply mass_quad_pos; auto; rewrite <- ?(so_len _ _ _ _ HS); auto. now rewrite Lx.
Qed.
Lemma A_rank y : length y = neq -> vm n y (Je w) = vzeros n -> y = vzeros neq.
Proof.
  intros Ly E. apply HI; [exact Ly|]. intros x Lx. rewrite <- (Je_cv _ _ _ _ HS) by exact Lx. rewrite <- (dot_vm neq n) by (auto; apply (so_Je _ _ _ _ HS)). now rewrite E, dot_zeros_l.
Qed.
Lemma sys_nonsingular : nonsingular (n + neq) (sys w).
Proof.
  intros z Lz E. set (x := firstn n z). set (y := skipn n z).
  assert (Lx : length x = n) by (unfold x; rewrite firstn_length; lia). assert (Ly : length y = neq) by (unfold y; rewrite skipn_length; lia).
  assert (Ez : z = x ++ y) by (unfold x, y; now rewrite firstn_skipn). rewrite Ez in E. rewrite (mv_sys _ _ _ _ HS) in E by auto.
  pose proof (wf_length _ _ _ (proj1 (so_symm _ _ _ _ HS))) as LM.
  assert (L1 : length (vsub (mv (w_M w) x) (vm n y (Je w))) = n) by (rewrite vsub_length, mv_length, vm_length; lia).
  assert (E' : vsub (mv (w_M w) x) (vm n y (Je w)) = vzeros n /\ mv (Je w) x = vzeros neq).
  { assert (Q : (vzeros (n + neq) : vecR) = vzeros n ++ vzeros neq) by (unfold vzeros; apply repeat_app). rewrite Q in E.
    pose proof (f_equal (firstn n) E) as E1. pose proof (f_equal (skipn n) E) as E2.
    rewrite !firstn_app, L1, vzeros_length, Nat.sub_diag, !firstn_O, !app_nil_r, !firstn_all2 in E1 by (rewrite ?vzeros_length; lia).
    rewrite !skipn_app, L1, vzeros_length, Nat.sub_diag, (skipn_all2 (vsub _ _)), (skipn_all2 (vzeros n)) in E2 by (rewrite ?vzeros_length; lia). cbn [app skipn] in E2. auto. }
  destruct E' as [E1 E2].
  assert (D : dot x (mv (w_M w) x) = 0).
  { pose proof (f_equal (dot x) E1) as D. rewrite vsub_vadd, dot_vadd_r, dot_vopp_r, dot_zeros_r in D by vlen. rewrite (dot_comm x (vm _ _ _)), (dot_vm neq n) in D by (auto; apply (so_Je _ _ _ _ HS)).
    rewrite E2, dot_zeros_r in D. lra. }
  assert (X : x = vzeros n).
  { destruct (list_eq_dec Req_EM_T x (vzeros n)) as [|Nx]; [auto|]. pose proof (M_pos x Lx Nx). lra. }
  assert (Y : y = vzeros neq).
  { apply A_rank; [exact Ly|]. rewrite X, mv_zeros in E1. replace (length (w_M w)) with n in E1 by lia. apply (f_equal vopp) in E1. rewrite vopp_zeros in E1. rewrite <- E1.
    rewrite vsub_vadd. vec_eq. ring. }
  rewrite Ez, X, Y. unfold vzeros. symmetry. apply repeat_app.
Qed.
Lemma dot_split3 (l b g l' b' g' : vecR) : length l = length l' -> length b = length b' -> dot (l ++ b ++ g) (l' ++ b' ++ g') = dot l l' + (dot b b' + dot g g').
Proof. intros H1 H2. now rewrite !dot_app by auto. Qed.
Lemma step_posed dt f : (forall c, In c (w_contacts w) -> mixed w b_fric c = 0) -> posed n (nc + 2 * nc + nc) neq (step_prob w dt f).
Proof.
  intros Hf. constructor; cbn [step_prob pr_Q pr_G pr_F pr_A].
  - exact M_pos.
  - exact A_rank.
  - intros z Lz. destruct (split3 z nc Lz) as (l & b & g & -> & Ll & Lb & Lg). rewrite mv_F by (auto; apply map_length).
    pose proof (pair_sums_length b nc Lb) as Lp. pose proof (twice_length g) as Lt.
    rewrite dot_split3 by (rewrite ?vzeros_length; unfold vec in *; lia). rewrite dot_zeros_r, (dot_twice nc) by auto.
    assert (Z : vmul (mu_vec w) l = vzeros nc).
    { apply (dot_unit nc); [rewrite vmul_length; unfold mu_vec; rewrite map_length; unfold vec in *; lia|apply vzeros_length|]. intros x Lx. rewrite dot_zeros_l.
      assert (G : Forall (fun a => a = 0) (mu_vec w)). { unfold mu_vec. apply Forall_map, Forall_forall. intros c Hc. specialize (Hf c Hc). unfold mixed in Hf. rnum. lra. }
      clear - G. revert l x. induction G as [|a m Ha G IH]; intros l x; [apply dot_nil_l|]. destruct l as [|p l]; [apply dot_nil_l|]. destruct x as [|q x]; [apply dot_nil_r|].
      unfold vmul in *. cbn [vmap2]. rewrite dot_cons, IH, Ha. rnum. ring. }
    rewrite Z. rewrite vsub_vadd, dot_vadd_r, dot_vopp_r, dot_zeros_r by (rewrite ?vopp_length, ?vzeros_length; unfold vec in *; lia). rewrite (dot_comm g). lra.
Qed.
Lemma solve_total dt f : (0 < mi)%nat -> world_apply_forces w (w_t w) = Ok f -> w_fric_dirs w = 2%nat -> (forall c, In c (w_contacts w) -> mixed w b_fric c = 0) ->
  exists v c, solve_dynamics la mi w dt = Ok (v, c).
Proof.
  intros Hmi Ef H2 Hmu. destruct (apply_forces_layout _ _ _ Ef) as [Lf _]. unfold solve_dynamics. cbv zeta. rewrite Ef. cbn [bind].
  destruct (w_contacts w) as [|c0 cs] eqn:EC.
  - fold (sys w). destruct (inv_total _ HL _ _ (wf_sys _ _ _ _ HS) sys_nonsingular) as [inv Ei].
    destruct (w_cache w) as [i|]; [cbn [bind]; eauto|]. rewrite Ei. cbn [bind]. eauto.
  - rewrite <- EC in *. fold (step_rhs w dt f).
    assert (Hc : w_contacts w <> []) by congruence.
    assert (EP : contact_problem w (if Nat.ltb 0 neq then step_rhs w dt f ++ vzeros neq else step_rhs w dt f) = Ok (step_prob w dt f)).
    { assert (EJ : Jf w = Ok (jf_all w)) by (unfold Jf; rewrite EC, H2; rewrite <- EC; reflexivity).
      destruct (contact_problem w (if Nat.ltb 0 neq then step_rhs w dt f ++ vzeros neq else step_rhs w dt f)) as [pr|e] eqn:E.
      - destruct (contact_problem_inv _ _ _ _ HS dt f pr Hc Lf E) as [_ ->]. reflexivity.
      - unfold contact_problem in E. rewrite EJ in E. discriminate. }
    match goal with |- context[contact_problem w ?u] => replace (contact_problem w u) with (Ok (step_prob w dt f)) by (symmetry; exact EP) end. rewrite H2. cbn [bind].
    assert (Hn : (0 < nc + 2 * nc + nc)%nat) by (rewrite EC; cbn; lia).
    destruct (lcp_forward_total la HL n (nc + 2 * nc + nc) neq Hn (mkOpts (ncst C_1em12) 3 mi) [step_prob w dt f]) as (xs & sv & E); auto.
    { constructor; [now apply (step_sized _ _ _ _ HS)|constructor]. }
    { constructor; [now apply step_posed|constructor]. }
    rewrite E. cbn [bind].
    assert (H3 : (0 < lo_lim (mkOpts (ncst C_1em12 : R) 3 mi))%nat) by (cbn; lia).
    assert (Hsz : Forall (sized n (nc + 2 * nc + nc) neq) [step_prob w dt f]) by (constructor; [now apply (step_sized _ _ _ _ HS)|constructor]).
    destruct (forward_best la HL _ _ _ _ _ _ _ Hsz H3 E) as (Ex & Lb & _). cbn [length] in Lb. destruct (sv_best sv) as [|it l]; [discriminate|]. rewrite Ex. cbn [map]. eauto.
Qed.
End Engine.
