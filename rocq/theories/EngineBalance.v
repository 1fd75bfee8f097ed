(** Newton's law holds for every velocity the engine returns *)
From Coq Require Import List Arith ZArith Bool Reals Lra Lia.
From Verif Require Import Num Tensor Utils Bodies Forces Constraints Contacts World Lapack Pdipm Lcp Engines Spec GeoSpec JointSpec EngineSpec
     RBase ResFacts LinAlg LapackSpec KktSpec PdipmSpec WorldFacts HandlerFacts LayoutFacts HistFacts SysFacts RewindFacts JointFacts JeFacts
     CacheFacts BodyReach PdipmFacts PdipmLoop SolverFacts EngineFacts ContactSys.
Import ListNotations.
Open Scope R_scope.

Lemma Rsum_map2_seq {A} (f : nat -> A -> R) l k : Rsum (map (fun ib => f (fst ib) (snd ib)) (combine (seq k (length l)) l)) = Rsum (mapi_from k f l).
Proof. now rewrite mapi_combine. Qed.
Lemma kinetic_dot w x y : w_M w = world_M (w_bodies w) -> length x = (3 * length (w_bodies w))%nat -> length y = (3 * length (w_bodies w))%nat ->
  dot x (mv (w_M w) y) = kinetic w x y.
Proof.
  intros -> Hx Hy. rewrite (dot_sum3 (length (w_bodies w))) by (auto; rewrite mv_length; apply (wf_world_M (w_bodies w))).
  unfold sum3, kinetic, mapi.
  assert (G : forall i b, nth_error (w_bodies w) i = Some b -> d3 (v3_at x i) (v3_at (mv (world_M (w_bodies w)) y) i) =
     b_inertia b * (fst (v3_at x i) * fst (v3_at y i)) + b_mass b * component (snd (v3_at x i)) (snd (v3_at y i))).
  { intros i b Hb. rewrite (v3_at_mv_M _ _ _ _ Hy Hb). unfold d3, mass3, component. cbn [fst snd]. ring. }
  revert G. generalize (mv (world_M (w_bodies w)) y) as z. generalize (w_bodies w) as l. intros l z.
  assert (K : forall k, (forall i b, nth_error l i = Some b -> d3 (v3_at x (k + i)) (v3_at z (k + i)) =
      b_inertia b * (fst (v3_at x (k + i)) * fst (v3_at y (k + i))) + b_mass b * component (snd (v3_at x (k + i))) (snd (v3_at y (k + i)))) ->
    fold_right Rplus 0 (map (fun i => d3 (v3_at x i) (v3_at z i)) (seq k (length l))) =
    Rsum (mapi_from k (fun i b => b_inertia b * (fst (v3_at x i) * fst (v3_at y i)) + b_mass b * component (snd (v3_at x i)) (snd (v3_at y i))) l)).
  { induction l as [|b l IH]; intros k G; [reflexivity|]. cbn [length seq map fold_right mapi_from Rsum]. f_equal.
    - specialize (G 0%nat b eq_refl). now rewrite Nat.add_0_r in G.
    - apply IH. intros i b' Hb'. specialize (G (S i) b' Hb'). now rewrite Nat.add_succ_r in G. }
  intros G. apply (K 0%nat). intros i b Hb. now apply G.
Qed.

Lemma list_eq_dec_nil {A} (l : list A) : {l = []} + {l <> []}.
Proof. destruct l; [now left|right; discriminate]. Qed.
Section Power.
Variables (nb : nat) (x : vecR).
Fixpoint diffs (b : vecR) : vecR := match b with p :: q :: b' => p - q :: diffs b' | _ => [] end.
Lemma diffs_length b nc : length b = (2 * nc)%nat -> length (diffs b) = nc.
Proof.
  revert b; induction nc as [|nc IH]; intros b Hb; [destruct b; [reflexivity|cbn in Hb; lia]|].
  destruct b as [|p [|q b]]; cbn in Hb; try lia. cbn. rewrite IH; lia.
Qed.
Lemma contact_power_split (cs : list (contact R)) lam b : length lam = length cs -> length b = (2 * length cs)%nat ->
  dot lam (map (fun c => component (c_normal c) (relative_velocity x c)) cs) +
  dot b (flat_map (fun c => [component (tangent (c_normal c)) (relative_velocity x c); - component (tangent (c_normal c)) (relative_velocity x c)]) cs) =
  contact_power cs (combine lam (diffs b)) x.
Proof.
  revert lam b; induction cs as [|c cs IH]; intros lam b Hl Hb.
  - cbn. rewrite !dot_nil_r. unfold contact_power. cbn. ring.
  - destruct lam as [|l lam]; [discriminate|]. destruct b as [|p [|q b]]; cbn in Hb; try lia.
    unfold contact_power. cbn [map flat_map app combine diffs map2 Rsum fold_right fst snd]. rewrite !dot_cons.
    specialize (IH lam b). unfold contact_power, Rsum in IH. rewrite <- IH by (cbn in *; lia). ring.
Qed.
End Power.

Section Engine.
Variables (bs : list (body R)) (js : list (joint R)) (J0 : list jent) (w : world R) (la : lapack R) (mi : nat).
Hypothesis HS : sound bs js J0 w.
Hypothesis HL : lapack_ok la.
Hypothesis HV : valid la w.
Notation n := (3 * length (w_bodies w))%nat.
Notation neq := (w_num_constraints w).
Notation nc := (length (w_contacts w)).

Lemma so_range : Forall (in_range (length (w_bodies w))) (w_contacts w).
Proof. rewrite (so_len _ _ _ _ HS). exact (so_pairs _ _ _ _ HS). Qed.
Lemma Je_cv x : length x = n -> mv (Je w) x = constraint_velocity w x.
Proof. intros Hx. exact (founded_measures _ _ _ _ x (so_found _ _ _ _ HS) Hx). Qed.
Lemma balance_of dt f v lam b y err : length lam = nc -> length b = (2 * nc)%nat -> length y = neq ->
  length v = n -> length f = n -> length err = n ->
  mv (w_M w) v = vadd (vadd (vadd (vadd (mv (w_M w) (w_v w)) (vscale dt f)) (vadd (vm n lam (Jc w)) (vm n b (jf_all w)))) (vm n y (Je w))) err ->
  balance w dt f v (combine lam (diffs b)) y err.
Proof.
  intros Hl Hb Hy Hv Hf He E. split; [rewrite combine_length, (diffs_length _ nc Hb); lia|]. split; [exact Hy|]. intros x Hx.
  pose proof (so_M _ _ _ _ HS) as HM. pose proof (so_vlen _ _ _ _ HS) as Lv.
  rewrite <- !kinetic_dot by auto. rewrite E.
  assert (LM : length (w_M w) = n) by apply (so_symm _ _ _ _ HS).
  rewrite !dot_vadd_r by vlen. rewrite dot_vscale_r.
  rewrite !(dot_comm x (vm _ _ _)). rewrite (dot_vm nc n) by (auto; apply wf_Jc, so_range). rewrite (dot_vm (2 * nc) n) by (auto; apply wf_jf, so_range).
  rewrite (dot_vm neq n) by (auto; apply (so_Je _ _ _ _ HS)). rewrite Je_cv by auto. rewrite mv_Jc by (auto using so_range). rewrite mv_jf by (auto using so_range).
  rewrite contact_power_split by auto. rewrite (dot_comm x err). ring.
Qed.

(** *** the LCP path *)
Definition step_rhs dt f : vecR := vadd (mv (w_M w) (w_v w)) (vscale dt f).
Definition step_prob dt f : prob R :=
  {| pr_Q := w_M w; pr_p := step_rhs dt f; pr_G := lcp_G n nc (Jc w) (jf_all w);
     pr_h := lcp_h 2 nc (vmul (mv (Jc w) (w_v w)) (restitutions w));
     pr_A := Je w; pr_b := vzeros neq; pr_F := lcp_F 2 nc (E_mat 2 nc) (mdiag (mu_vec w)) |}.
Lemma step_rhs_length dt f : length f = n -> length (step_rhs dt f) = n.
Proof. intros Hf. unfold step_rhs. rewrite vadd_length, mv_length, vscale_length, Hf, (wf_length _ _ _ (proj1 (so_symm _ _ _ _ HS))). lia. Qed.
Lemma restitutions_length : length (restitutions w) = nc.
Proof. apply map_length. Qed.
Lemma step_sized dt f : length f = n -> sized n (nc + 2 * nc + nc) neq (step_prob dt f).
Proof.
  intros Hf. constructor; cbn [step_prob pr_Q pr_p pr_G pr_h pr_A pr_b pr_F].
  - constructor.
    + apply (so_symm _ _ _ _ HS).
    + unfold lcp_G. replace (nc + 2 * nc + nc)%nat with (nc + (2 * nc + nc))%nat by lia. apply wf_app; [apply wf_Jc, so_range|]. apply wf_app; [apply wf_jf, so_range|apply wf_mzeros].
    + apply wf_F. apply map_length.
    + apply (so_Je _ _ _ _ HS).
  - now apply step_rhs_length.
  - unfold lcp_h. rewrite app_length, vmul_length, mv_length, restitutions_length, vzeros_length. unfold Jc. rewrite map_length. lia.
  - apply vzeros_length.
Qed.
(** the point the solver returned *)
Definition returned dt f (it : iter R) : Prop := exists xs sv,
  lcp_forward la (mkOpts (ncst C_1em12) 3 mi) n (nc + 2 * nc + nc) neq [step_prob dt f] = Ok (Some (xs, sv)) /\ sv_best sv = [it].
Lemma contact_solve dt v c f : w_contacts w <> [] -> world_apply_forces w (w_t w) = Ok f ->
  solve_dynamics la mi w dt = Ok (v, c) -> w_fric_dirs w = 2%nat /\ exists it, returned dt f it /\ v = vopp (i_x it) /\
  point n (nc + 2 * nc + nc) neq it /\ interior it /\ mv (Je w) (i_x it) = vzeros neq /\ balanced n (nc + 2 * nc + nc) (step_prob dt f) it.
Proof.
  intros Hc Hf H. unfold solve_dynamics in H. cbv zeta in H. rewrite Hf in H. cbn [bind] in H.
  destruct (apply_forces_layout _ _ _ Hf) as [Lf _]. fold (step_rhs dt f) in H.
  assert (EP : forall pr, contact_problem w (if Nat.ltb 0 neq then step_rhs dt f ++ vzeros neq else step_rhs dt f) = Ok pr -> w_fric_dirs w = 2%nat /\ pr = step_prob dt f).
  { intros pr Hp. unfold contact_problem in Hp. bind_inv Hp as jf Ej. injection Hp as <-. destruct (Jf_inv _ _ Hc Ej) as [E2 ->]. split; [exact E2|].
    unfold step_prob. rewrite E2. unfold world_E. rewrite E2. f_equal.
    pose proof (step_rhs_length dt f Lf) as L. destruct (Nat.ltb 0 neq).
    - rewrite firstn_app, L, Nat.sub_diag, firstn_O, app_nil_r. apply firstn_all2. lia.
    - apply firstn_all2. lia. }
  destruct (w_contacts w) as [|c0 cs] eqn:EC; [congruence|]. rewrite <- EC in *.
  bind_inv H as pr Epr. destruct (EP pr Epr) as [E2 ->]. split; [exact E2|]. rewrite E2 in H. bind_inv H as r Er.
  destruct r as [[[|x xs] sv]|]; try discriminate. injection H as <- _.
  assert (Hsz : Forall (sized n (nc + 2 * nc + nc) neq) [step_prob dt f]) by (constructor; [now apply step_sized|constructor]).
  assert (H3 : (0 < lo_lim (mkOpts (ncst C_1em12 : R) 3 mi))%nat) by (cbn; lia).
  destruct (forward_best la HL _ _ _ _ _ _ _ Hsz H3 Er) as (Ex & Lb & _). cbn [length] in Lb.
  destruct (sv_best sv) as [|it [|]] eqn:Eb; try discriminate. injection Ex as -> ->.
  exists it. split; [exists [i_x it], sv; auto|]. split; [reflexivity|].
  destruct (forward_returned la HL _ _ _ _ _ _ _ Hsz H3 Er 0 it) as (pr & Ep & P1 & P2 & P3 & P4); [now rewrite Eb|].
  injection Ep as <-. auto.
Qed.
Lemma split3 {A} (z : list A) k : length z = (k + 2 * k + k)%nat -> exists l b g, z = l ++ b ++ g /\ length l = k /\ length b = (2 * k)%nat /\ length g = k.
Proof.
  intros H. exists (firstn k z), (firstn (2 * k) (skipn k z)), (skipn (2 * k) (skipn k z)). rewrite !firstn_skipn.
  rewrite !firstn_length, !skipn_length. repeat split; lia.
Qed.
Lemma vm_G l b g : length l = nc -> length b = (2 * nc)%nat -> length g = nc ->
  vm n (l ++ b ++ g) (lcp_G n nc (Jc w) (jf_all w)) = vadd (vm n l (Jc w)) (vm n b (jf_all w)).
Proof.
  intros Hl Hb Hg. unfold lcp_G. pose proof (wf_Jc w so_range) as W1. pose proof (wf_jf w so_range) as W2. pose proof (wf_mzeros nc n) as W3.
  pose proof (wf_app _ _ _ _ _ W2 W3) as W4. assert (L2 : length (b ++ g) = (2 * nc + nc)%nat) by (rewrite app_length; unfold vec in *; lia).
  rewrite (vm_app _ _ _ _ _ _ _ W1 W4 Hl L2), (vm_app _ _ _ _ _ _ _ W2 W3 Hb Hg). f_equal.
  assert (E : vm n g (mzeros nc n) = vzeros n).
  { apply (dot_unit n); [apply vm_length|apply vzeros_length|]. intros z Hz. rewrite (dot_vm nc n) by (auto; apply wf_mzeros). now rewrite mv_mzeros, dot_zeros_r, dot_zeros_l. }
  rewrite E. apply vadd_zeros_r, vm_length.
Qed.

(** Newton's law, exact at every returned point *)
Lemma solve_balance dt v c : solve_dynamics la mi w dt = Ok (v, c) -> exists f imps y,
  world_apply_forces w (w_t w) = Ok f /\ length v = n /\ balance w dt f v imps y (vzeros n) /\ constraint_velocity w v = vzeros neq.
Proof.
  intros H. pose proof H as H'. unfold solve_dynamics in H'. cbv zeta in H'. bind_inv H' as f Ef. clear H'.
  destruct (apply_forces_layout _ _ _ Ef) as [Lf _]. pose proof (wf_length _ _ _ (proj1 (so_symm _ _ _ _ HS))) as LM.
  destruct (list_eq_dec_nil (w_contacts w)) as [EC|EC].
  - destruct (free_solve _ _ _ _ HS la mi HL HV dt v c f EC Ef H) as (Lv & lam & Ll & E1 & E2).
    exists f, (combine [] (diffs [])), lam. split; [exact Ef|]. split; [exact Lv|]. split; [|now rewrite <- Je_cv].
    apply balance_of; auto; rewrite ?EC; auto; [apply vzeros_length|]. rewrite E1.
    replace (vm n [] (Jc w)) with (vzeros n : vecR) by (symmetry; apply vm_nil). replace (vm n [] (jf_all w)) with (vzeros n : vecR) by (symmetry; apply vm_nil).
    vec_eq. ring.
  - destruct (contact_solve dt v c f EC Ef H) as (_ & it & _ & -> & [Px _ _ Py] & _ & E2 & zeta & Lz & E1).
    destruct (split3 zeta nc Lz) as (l & b & g & -> & Ll & Lb & Lg). cbn [step_prob pr_Q pr_p pr_G pr_A] in E1.
    rewrite vm_G in E1 by auto.
    exists f, (combine l (diffs b)), (i_y it). split; [exact Ef|]. split; [rewrite vopp_length; exact Px|]. split.
    + apply balance_of; auto; [rewrite vopp_length; exact Px|apply vzeros_length|]. rewrite mv_vopp. fold (step_rhs dt f).
      pose proof (step_rhs_length dt f Lf) as LR. vec_eq.
      apply (f_equal (fun z => vget z i)) in E1. rewrite !vget_vadd, vget_zeros in E1 by vlen. lra.
    + rewrite <- Je_cv by (rewrite vopp_length; exact Px). now rewrite mv_vopp, E2, vopp_zeros.
Qed.
End Engine.
