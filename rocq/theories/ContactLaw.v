(** The engine's LCP is the law of contact, and what it means for the kinetic energy *)
From Coq Require Import List Arith ZArith Bool Reals Lra Lia.
From Verif Require Import Num Tensor Utils Bodies Forces Constraints Contacts World Lapack Pdipm Lcp Engines Spec GeoSpec JointSpec EngineSpec
     RBase ResFacts LinAlg LapackSpec KktSpec PdipmSpec WorldFacts HandlerFacts LayoutFacts HistFacts SysFacts RewindFacts JointFacts JeFacts
     CacheFacts BodyReach PdipmFacts PdipmLoop SolverFacts EngineFacts ContactSys EngineBalance.
Import ListNotations.
Open Scope R_scope.

Lemma dot_term (s z : vecR) i : Forall (fun a => 0 <= a) s -> Forall (fun a => 0 <= a) z -> vget s i * vget z i <= dot s z.
Proof.
  revert z i. induction s as [|a s IH]; intros [|b z] i Hs Hz; try (unfold vget; destruct i; cbn; unfold dot; cbn; rnum; lra).
  apply Forall_cons_iff in Hs. apply Forall_cons_iff in Hz. destruct Hs as [Ha Hs]. destruct Hz as [Hb Hz]. rewrite dot_cons.
  pose proof (dot_nonneg s z Hs Hz) as P. assert (P2 : 0 <= a * b) by nra. destruct i as [|i]; [unfold vget; cbn; lra|]. specialize (IH z i Hs Hz). unfold vget in *. cbn [nth]. lra.
Qed.
Lemma vget_nonneg (z : vecR) i : Forall (fun a => 0 <= a) z -> 0 <= vget z i.
Proof. revert i. induction z as [|b z IH]; intros i Hz; [unfold vget; destruct i; cbn; rnum; lra|]. apply Forall_cons_iff in Hz. destruct i; [apply Hz|]. now apply IH. Qed.
Lemma pos_nonneg v : pos v -> Forall (fun a => 0 <= a) v.
Proof. apply Forall_impl. intros a. lra. Qed.
Lemma vget_map_nth {A} (f : A -> R) l i a : nth_error l i = Some a -> vget (map f l) i = f a.
Proof. revert i; induction l as [|b l IH]; intros [|i] H; try discriminate; [injection H as ->; reflexivity|]. exact (IH i H). Qed.
Lemma vget_pairs {A} (f g : A -> R) l i a : nth_error l i = Some a ->
  vget (flat_map (fun c => [f c; g c]) l) (2 * i) = f a /\ vget (flat_map (fun c => [f c; g c]) l) (2 * i + 1) = g a.
Proof.
  revert i; induction l as [|b l IH]; intros [|i] H; try discriminate; [injection H as ->; split; reflexivity|].
  replace (2 * S i)%nat with (S (S (2 * i))) by lia. exact (IH i H).
Qed.
Lemma vget_twice g i : (i < length g)%nat -> vget (twice g) (2 * i) = vget g i /\ vget (twice g) (2 * i + 1) = vget g i.
Proof. intros H. unfold twice. apply (vget_pairs (fun a => a) (fun a => a)). unfold vget. now apply nth_error_nth'. Qed.
Lemma vget_pair_sums nc b i : length b = (2 * nc)%nat -> (i < nc)%nat -> vget (pair_sums b) i = vget b (2 * i) + vget b (2 * i + 1).
Proof.
  revert b i; induction nc as [|nc IH]; intros b i Hb Hi; [lia|]. destruct b as [|p [|q b]]; cbn in Hb; try lia. destruct i as [|i]; [reflexivity|].
  replace (2 * S i)%nat with (S (S (2 * i))) by lia. cbn [pair_sums]. unfold vget in *. cbn [nth Nat.add]. apply IH; lia.
Qed.
Lemma vget_diffs nc b i : length b = (2 * nc)%nat -> (i < nc)%nat -> vget (diffs b) i = vget b (2 * i) - vget b (2 * i + 1).
Proof.
  revert b i; induction nc as [|nc IH]; intros b i Hb Hi; [lia|]. destruct b as [|p [|q b]]; cbn in Hb; try lia. destruct i as [|i]; [reflexivity|].
  replace (2 * S i)%nat with (S (S (2 * i))) by lia. cbn [diffs]. unfold vget in *. cbn [nth Nat.add]. apply IH; lia.
Qed.
Lemma nth_combine_R (a b : vecR) i : length a = length b -> nth i (combine a b) (0, 0) = (vget a i, vget b i).
Proof. intros H. unfold vget. now rewrite combine_nth. Qed.
Lemma impulses_split nc l b g : length l = nc -> length b = (2 * nc)%nat -> length g = nc -> impulses nc (l ++ b ++ g) = combine l (diffs b).
Proof.
  intros Hl Hb Hg. pose proof (diffs_length b nc Hb) as Ld. apply (nth_ext _ _ (0, 0) (0, 0)).
  - unfold impulses. rewrite map_length, seq_length, combine_length. unfold vec in *. lia.
  - unfold impulses. rewrite map_length, seq_length. intros i Hi. rewrite nth_combine_R by (unfold vec in *; lia).
    set (F := fun j => let '(l0, b1, b2, _) := multipliers nc (l ++ b ++ g) j in (l0, b1 - b2)).
    rewrite (nth_indep _ _ (F 0%nat)) by (rewrite map_length, seq_length; exact Hi).
    rewrite (map_nth F), seq_nth by exact Hi. cbn [Nat.add]. unfold F. unfold multipliers. rewrite (vget_diffs nc) by auto.
    replace (nc + 2 * i + 1)%nat with (length l + (2 * i + 1))%nat by lia. replace (nc + 2 * i)%nat with (length l + 2 * i)%nat by lia.
    rewrite !vget_app_r, !vget_app_l by (unfold vec in *; lia). reflexivity.
Qed.

Section Engine.
Variables (bs : list (body R)) (js : list (joint R)) (J0 : list jent) (w : world R).
Hypothesis HS : sound bs js J0 w.
Notation n := (3 * length (w_bodies w))%nat.
Notation neq := (w_num_constraints w).
Notation nc := (length (w_contacts w)).

Lemma contact_problem_inv dt f pr : w_contacts w <> [] -> length f = n ->
  contact_problem w (if Nat.ltb 0 neq then step_rhs w dt f ++ vzeros neq else step_rhs w dt f) = Ok pr -> w_fric_dirs w = 2%nat /\ pr = step_prob w dt f.
Proof.
  intros Hc Lf Hp. unfold contact_problem in Hp. bind_inv Hp as jf Ej. injection Hp as <-. destruct (Jf_inv _ _ Hc Ej) as [E2 ->]. split; [exact E2|].
  unfold step_prob. rewrite E2. unfold world_E. rewrite E2. f_equal.
  pose proof (step_rhs_length bs js J0 w HS dt f Lf) as L. destruct (Nat.ltb 0 neq).
  - rewrite firstn_app, L, Nat.sub_diag, firstn_O, app_nil_r. apply firstn_all2. lia.
  - apply firstn_all2. lia.
Qed.

(** the meaning of a point of the LCP with residual at most r *)
Section Point.
Variables (dt : R) (f : vecR) (it : iter R) (r : R).
Hypothesis Lf : length f = n.
Hypothesis Pt : point n (nc + 2 * nc + nc) neq it.
Hypothesis Hs : Forall (fun a => 0 <= a) (i_s it).
Hypothesis Hz : Forall (fun a => 0 <= a) (i_z it).
Hypothesis Hr : residual n (step_prob w dt f) it <= r.

Lemma relvel_opp x c : relative_velocity (vopp x) c = v2opp (relative_velocity x c).
Proof.
  assert (E : forall i, v3_at (vopp x) i = (- fst (v3_at x i), v2opp (snd (v3_at x i)))).
  { intros i. unfold v3_at, v2opp. cbn [fst snd]. rnum. now rewrite !vget_vopp. }
  unfold relative_velocity. rewrite !E. unfold point_velocity, v2sub, v2opp. rnum. cbn [fst snd]. f_equal; ring.
Qed.
Lemma inequality_at l b g : i_z it = l ++ b ++ g -> length l = nc -> length b = (2 * nc)%nat -> length g = nc ->
  inequality (step_prob w dt f) it =
  vsub (vsub (vadd (map (fun c => - normal_velocity (vopp (i_x it)) c) (w_contacts w) ++
                    flat_map (fun c => [- slip_velocity (vopp (i_x it)) c; slip_velocity (vopp (i_x it)) c]) (w_contacts w) ++ vzeros nc) (i_s it))
             (vzeros nc ++ twice g ++ vsub (vmul (mu_vec w) l) (pair_sums b)))
       (map (fun c => mixed w b_rest c * normal_velocity (w_v w) c) (w_contacts w) ++ vzeros (2 * nc) ++ vzeros nc).
Proof.
  intros Ez Ll Lb Lg. unfold inequality. cbn [step_prob pr_G pr_F pr_h]. rewrite Ez, mv_F by (auto; apply map_length). f_equal; [f_equal; f_equal|].
  - unfold lcp_G. rewrite !mv_app, mv_mzeros. rewrite mv_Jc, mv_jf by (try apply (so_range _ _ _ _ HS); apply Pt). f_equal; [|f_equal].
    + apply map_ext. intros c. unfold normal_velocity. rewrite relvel_opp. unfold component, v2opp. rnum. cbn [fst snd]. ring.
    + rewrite !flat_map_concat_map. f_equal. apply map_ext. intros c. unfold slip_velocity. rewrite relvel_opp. unfold component, v2opp. rnum. cbn [fst snd]. f_equal; [ring|f_equal; ring].
  - unfold lcp_h. f_equal.
    + rewrite mv_Jc by (try apply (so_range _ _ _ _ HS); apply (so_vlen _ _ _ _ HS)). unfold restitutions. unfold vmul.
      assert (G : forall cs : list (contact R), vmap2 nmul (map (fun c => component (c_normal c) (relative_velocity (w_v w) c)) cs)
        (map (fun c => ndiv (nadd (body_at (w_bodies w) b_rest (c_i1 c)) (body_at (w_bodies w) b_rest (c_i2 c))) (nofZ 2)) cs) =
        map (fun c => mixed w b_rest c * normal_velocity (w_v w) c) cs).
      { induction cs as [|c cs IH]; [reflexivity|]. cbn [map vmap2]. f_equal; [|exact IH]. unfold mixed, normal_velocity. rnum. ring. }
      apply G.
    + unfold vzeros. rewrite <- repeat_app. try (f_equal; lia).
Qed.
Lemma point_law i c : nth_error (w_contacts w) i = Some c -> let '(l, b1, b2, g) := multipliers nc (i_z it) i in contact_law r w (vopp (i_x it)) c l b1 b2 g.
Proof.
  intros Hc. assert (Hi : (i < nc)%nat) by (apply nth_error_Some; congruence).
  destruct (residual_bounds _ _ _ _ Hs Hz Hr) as (_ & B & _ & B4). destruct Pt as [_ Ls Lz _].
  destruct (split3 (i_z it) nc Lz) as (l & b & g & Ez & Ll & Lb & Lg). pose proof (inequality_at l b g Ez Ll Lb Lg) as EI.
  unfold multipliers.
  pose proof (vget_nonneg _ i Hz) as P1. pose proof (vget_nonneg _ (nc + 2 * i) Hz) as P2. pose proof (vget_nonneg _ (nc + 2 * i + 1) Hz) as P3. pose proof (vget_nonneg _ (3 * nc + i) Hz) as P4.
  pose proof (vget_nonneg _ i Hs) as Q1. pose proof (vget_nonneg _ (nc + 2 * i) Hs) as Q2. pose proof (vget_nonneg _ (nc + 2 * i + 1) Hs) as Q3. pose proof (vget_nonneg _ (3 * nc + i) Hs) as Q4.
  pose proof (dot_term _ _ i Hs Hz) as T1. pose proof (dot_term _ _ (nc + 2 * i) Hs Hz) as T2. pose proof (dot_term _ _ (nc + 2 * i + 1) Hs Hz) as T3. pose proof (dot_term _ _ (3 * nc + i) Hs Hz) as T4.
  pose proof (vget_norm (inequality (step_prob w dt f) it) i) as N1. pose proof (vget_norm (inequality (step_prob w dt f) it) (nc + 2 * i)) as N2.
  pose proof (vget_norm (inequality (step_prob w dt f) it) (nc + 2 * i + 1)) as N3. pose proof (vget_norm (inequality (step_prob w dt f) it) (3 * nc + i)) as N4.
  assert (Lmu : length (mu_vec w) = nc) by apply map_length. pose proof (twice_length g) as Ltw. pose proof (pair_sums_length b nc Lb) as Lps.
  set (v := vopp (i_x it)) in *.
  assert (Lfm : length (flat_map (fun c => [- slip_velocity v c; slip_velocity v c]) (w_contacts w)) = (2 * nc)%nat).
  { clear. induction (w_contacts w) as [|c cs IH]; [reflexivity|]. cbn [flat_map length app]. lia. }
  assert (LL : length (map (fun c => - normal_velocity v c) (w_contacts w)) = nc /\ length (map (fun c => mixed w b_rest c * normal_velocity (w_v w) c) (w_contacts w)) = nc) by (split; apply map_length). destruct LL as [LL1 LL2].
  assert (LF : length (vsub (vmul (mu_vec w) l) (pair_sums b)) = nc) by (rewrite vsub_length, vmul_length; unfold vec in *; lia).
  rewrite EI in N1, N2, N3, N4.
  rewrite !vget_vsub, vget_vadd in N1, N2, N3, N4 by (rewrite ?vsub_length, ?vadd_length, ?app_length, ?vzeros_length; unfold vec in *; lia).
  assert (EG : forall (x y z0 : vecR) k, length x = nc -> length y = (2 * nc)%nat -> (k < 2 * nc)%nat -> vget (x ++ y ++ z0) (nc + k) = vget y k).
  { intros x y z0 k Hx Hy Hk. rewrite <- Hx at 1. rewrite vget_app_r. apply vget_app_l. unfold vec in *. lia. }
  assert (EH : forall (x y z0 : vecR) k, length x = nc -> length y = (2 * nc)%nat -> vget (x ++ y ++ z0) (3 * nc + k) = vget z0 k).
  { intros x y z0 k Hx Hy. replace (3 * nc + k)%nat with (length x + (length y + k))%nat by lia. now rewrite !vget_app_r. }
  assert (EF : forall (x y z0 : vecR), length x = nc -> vget (x ++ y ++ z0) i = vget x i).
  { intros x y z0 Hx. apply vget_app_l. unfold vec in *. lia. }
  replace (nc + 2 * i + 1)%nat with (nc + (2 * i + 1))%nat in * by lia.
  rewrite !EF in N1 by (auto; apply vzeros_length). rewrite !EG in N2, N3 by (auto; try apply vzeros_length; unfold vec in *; lia).
  rewrite !EH in N4 by (auto; try apply vzeros_length; unfold vec in *; lia).
  rewrite !(vget_map_nth _ _ _ _ Hc), !vget_zeros in N1. destruct (vget_pairs (fun c => - slip_velocity v c) (fun c => slip_velocity v c) _ _ _ Hc) as [V1 V2].
  destruct (vget_twice g i ltac:(lia)) as [W1 W2].
  rewrite V1, W1, vget_zeros in N2. rewrite V2, W2, vget_zeros in N3. rewrite vget_vsub, vget_vmul, (vget_pair_sums nc), !vget_zeros in N4 by (rewrite ?vmul_length; unfold vec in *; lia).
  assert (Emu : vget (mu_vec w) i = mixed w b_fric c).
  { unfold mu_vec. rewrite (vget_map_nth _ _ _ _ Hc). unfold mixed. rnum. field. }
  rewrite Emu in N4.
  assert (Z1 : vget (i_z it) i = vget l i) by (rewrite Ez; now apply EF).
  assert (Z2 : vget (i_z it) (nc + 2 * i) = vget b (2 * i)) by (rewrite Ez; apply EG; auto; lia).
  assert (Z3 : vget (i_z it) (nc + (2 * i + 1)) = vget b (2 * i + 1)) by (rewrite Ez; apply EG; auto; lia).
  assert (Z4 : vget (i_z it) (3 * nc + i) = vget g i) by (rewrite Ez; apply EH; auto).
  rewrite Z1, Z2, Z3, Z4 in *.
  assert (I1 : forall x, Rabs x <= norm2 (inequality (step_prob w dt f) it) -> - r <= x <= r).
  { intros x Hx. pose proof (Rle_abs x). pose proof (Rle_abs (- x)). rewrite Rabs_Ropp in *. lra. }
  rewrite EI in I1. apply I1 in N1. apply I1 in N2. apply I1 in N3. apply I1 in N4.
  clear - P1 P2 P3 P4 Q1 Q2 Q3 Q4 T1 T2 T3 T4 N1 N2 N3 N4 B4.
  constructor; auto.
  - lra.
  - nra.
  - lra.
  - apply Rabs_le. lra.
  - nra.
  - nra.
Qed.
Lemma point_balance : exists err, length err = n /\ norm2 err <= r /\ balance w dt f (vopp (i_x it)) (impulses nc (i_z it)) (i_y it) err.
Proof.
  destruct (residual_bounds _ _ _ _ Hs Hz Hr) as (B & _). destruct Pt as [Lx Ls Lz Ly].
  destruct (split3 (i_z it) nc Lz) as (l & b & g & Ez & Ll & Lb & Lg).
  exists (vopp (stationarity n (step_prob w dt f) it)).
  assert (Lst : length (stationarity n (step_prob w dt f) it) = n).
  { pose proof (step_rhs_length _ _ _ _ HS dt f Lf) as LR. pose proof (wf_length _ _ _ (proj1 (so_symm _ _ _ _ HS))) as LM.
    unfold stationarity. cbn [step_prob pr_Q pr_p pr_G pr_A]. rewrite !vadd_length, !vm_length, mv_length. unfold mat, vec in *. lia. }
  split; [now rewrite vopp_length|]. split.
  - unfold norm2. rewrite dot_vopp_l, dot_vopp_r, Ropp_involutive. exact B.
  - rewrite Ez, impulses_split by auto. apply (balance_of _ _ _ _ HS); auto; try (rewrite vopp_length; auto).
    unfold stationarity. cbn [step_prob pr_Q pr_p pr_G pr_A]. rewrite Ez, (vm_G _ _ _ _ HS) by auto. rewrite mv_vopp. fold (step_rhs w dt f).
    pose proof (step_rhs_length _ _ _ _ HS dt f Lf) as LR. pose proof (wf_length _ _ _ (proj1 (so_symm _ _ _ _ HS))) as LM. pose proof (so_vlen _ _ _ _ HS) as LV. vec_eq. ring.
Qed.
End Point.
End Engine.
