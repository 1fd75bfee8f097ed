(** Derivatives of the solutions of the LCP, and what the backward pass returns *)
From Coq Require Import List Arith ZArith Bool Reals Lra Lia.
From Verif Require Import Num Tensor Lapack Pdipm Lcp LinAlg LapackSpec KktSpec PdipmSpec RBase KktFactor KktTotal PdipmFacts PdipmLoop SolverFacts ResFacts GradSpec.
Import ListNotations.
Open Scope R_scope.

(** *** calculus *)
Lemma lim_loc (f g : R -> R) r l : 0 < r -> (forall t, - r < t < r -> f t = g t) -> derivable_pt_lim f 0 l -> derivable_pt_lim g 0 l.
Proof. intros Hr H. apply (derivable_pt_lim_locally_ext f g 0 (- r) r); [lra|]. intros t Ht. apply H. lra. Qed.
Lemma lim_const (f : R -> R) r c : 0 < r -> (forall t, - r < t < r -> f t = c) -> derivable_pt_lim f 0 0.
Proof. intros Hr H. apply (lim_loc (fct_cte c) f r); auto. - intros t Ht. symmetry. now apply H. - apply derivable_pt_lim_const. Qed.

Fixpoint lsum (l : list nat) (f : nat -> R) : R := match l with [] => 0 | i :: l' => f i + lsum l' f end.
Lemma lim_lsum (l : list nat) (f : R -> nat -> R) (f' : nat -> R) :
  (forall i, In i l -> derivable_pt_lim (fun t => f t i) 0 (f' i)) -> derivable_pt_lim (fun t => lsum l (f t)) 0 (lsum l f').
Proof.
  induction l as [|i l IH]; intros H; cbn [lsum]; [apply derivable_pt_lim_const|].
  apply (derivable_pt_lim_plus (fun t => f t i) (fun t => lsum l (f t))); [apply H; now left|apply IH; intros; apply H; now right].
Qed.
Lemma lsum_ext l f g : (forall i, In i l -> f i = g i) -> lsum l f = lsum l g.
Proof. induction l as [|i l IH]; intros H; cbn; [reflexivity|]. rewrite H by now left. rewrite IH; auto. intros; apply H; now right. Qed.
Lemma lsum_plus l f g : lsum l (fun i => f i + g i) = lsum l f + lsum l g.
Proof. induction l as [|i l IH]; cbn; [ring|]. rewrite IH. ring. Qed.
Lemma vec_seq (x : vecR) n : length x = n -> x = map (vget x) (seq 0 n).
Proof. intros L. apply vext; [vlen; now rewrite map_length, seq_length|]. intros i Hi. rewrite vget_seq; [reflexivity|lia]. Qed.
Lemma dot_lsum (x y : vecR) n : length x = n -> length y = n -> dot x y = lsum (seq 0 n) (fun i => vget x i * vget y i).
Proof.
  intros Lx Ly. rewrite (vec_seq x n Lx), (vec_seq y n Ly) at 1. generalize (seq 0 n) as l. induction l as [|i l IH]; cbn [map lsum]; [apply dot_nil_l|].
  rewrite dot_cons. now rewrite IH.
Qed.

(** rate of a scalar product *)
Lemma rate_dot (f g : R -> vecR) f' g' n r : 0 < r -> (forall t, - r < t < r -> length (f t) = n) -> (forall t, - r < t < r -> length (g t) = n) ->
  length f' = n -> length g' = n -> vrate f f' -> vrate g g' ->
  derivable_pt_lim (fun t => dot (f t) (g t)) 0 (dot f' (g 0) + dot (f 0) g').
Proof.
  intros Hr Lf Lg Lf' Lg' Hf Hg. assert (H0 : - r < 0 < r) by lra.
  apply (lim_loc (fun t => lsum (seq 0 n) (fun i => vget (f t) i * vget (g t) i)) _ r); [exact Hr|intros t Ht; symmetry; now apply dot_lsum; auto|].
  rewrite (dot_lsum f' (g 0) n), (dot_lsum (f 0) g' n) by auto. rewrite <- lsum_plus. apply lim_lsum. intros i _.
  apply (derivable_pt_lim_mult (fun t => vget (f t) i) (fun t => vget (g t) i)); auto.
Qed.
Lemma rate_vadd (f g : R -> vecR) f' g' n r : 0 < r -> (forall t, - r < t < r -> length (f t) = n) -> (forall t, - r < t < r -> length (g t) = n) ->
  length f' = n -> length g' = n -> vrate f f' -> vrate g g' -> vrate (fun t => vadd (f t) (g t)) (vadd f' g').
Proof.
  intros Hr Lf Lg Lf' Lg' Hf Hg i. destruct (lt_dec i n) as [Hi|Hi].
  - rewrite vget_vadd by lia. apply (lim_loc (fun t => vget (f t) i + vget (g t) i) _ r); [exact Hr| |].
    + intros t Ht. rewrite vget_vadd by (rewrite ?Lf, ?Lg; auto). reflexivity.
    + apply (derivable_pt_lim_plus (fun t => vget (f t) i) (fun t => vget (g t) i)); auto.
  - rewrite vget_out by (vlen). apply (lim_const _ r 0); [exact Hr|]. intros t Ht. apply vget_out. rewrite vadd_length, (Lf t Ht), (Lg t Ht). lia.
Qed.
Lemma rate_vopp (f : R -> vecR) f' : vrate f f' -> vrate (fun t => vopp (f t)) (vopp f').
Proof.
  intros Hf i. rewrite vget_vopp. apply (derivable_pt_lim_ext (fun t => - vget (f t) i)); [intros t; now rewrite vget_vopp|].
  apply (derivable_pt_lim_opp (fun t => vget (f t) i)); auto.
Qed.
Lemma rate_vsub (f g : R -> vecR) f' g' n r : 0 < r -> (forall t, - r < t < r -> length (f t) = n) -> (forall t, - r < t < r -> length (g t) = n) ->
  length f' = n -> length g' = n -> vrate f f' -> vrate g g' -> vrate (fun t => vsub (f t) (g t)) (vsub f' g').
Proof.
  intros Hr Lf Lg Lf' Lg' Hf Hg i. rewrite vsub_vadd. apply (derivable_pt_lim_ext (fun t => vget (vadd (f t) (vopp (g t))) i)); [intros t; now rewrite vsub_vadd|].
  revert i. change (vrate (fun t => vadd (f t) (vopp (g t))) (vadd f' (vopp g'))). apply (rate_vadd _ _ _ _ n r); auto; try (intros; rewrite vopp_length; auto). now apply rate_vopp.
Qed.
Lemma rate_vmul (f g : R -> vecR) f' g' n r : 0 < r -> (forall t, - r < t < r -> length (f t) = n) -> (forall t, - r < t < r -> length (g t) = n) ->
  length f' = n -> length g' = n -> vrate f f' -> vrate g g' -> vrate (fun t => vmul (f t) (g t)) (vadd (vmul f' (g 0)) (vmul (f 0) g')).
Proof.
  intros Hr Lf Lg Lf' Lg' Hf Hg i. assert (H0 : - r < 0 < r) by lra. pose proof (Lf 0 H0) as L1. pose proof (Lg 0 H0) as L2. destruct (lt_dec i n) as [Hi|Hi].
  - rewrite vget_vadd by (rewrite vmul_length; lia). rewrite !vget_vmul by lia. apply (lim_loc (fun t => vget (f t) i * vget (g t) i) _ r); [exact Hr| |].
    + intros t Ht. rewrite vget_vmul by (rewrite ?Lf, ?Lg; auto). reflexivity.
    + apply (derivable_pt_lim_mult (fun t => vget (f t) i) (fun t => vget (g t) i)); auto.
  - rewrite vget_out by (rewrite vadd_length, !vmul_length; lia). apply (lim_const _ r 0); [exact Hr|]. intros t Ht. apply vget_out. rewrite vmul_length, (Lf t Ht), (Lg t Ht). lia.
Qed.
Lemma rate_mv (M : R -> matR) (f : R -> vecR) M' f' m n r : 0 < r -> (forall t, - r < t < r -> wf m n (M t)) -> (forall t, - r < t < r -> length (f t) = n) ->
  wf m n M' -> length f' = n -> mrate M M' -> vrate f f' -> vrate (fun t => mv (M t) (f t)) (vadd (mv M' (f 0)) (mv (M 0) f')).
Proof.
  intros Hr WM Lf WM' Lf' HM Hf i. assert (H0 : - r < 0 < r) by lra. destruct (lt_dec i m) as [Hi|Hi].
  - pose proof (proj1 (WM 0 H0)) as L1. pose proof (proj1 WM') as L2. rewrite vget_vadd by (rewrite mv_length; unfold vec, mat in *; lia). rewrite !vget_mv by (unfold vec, mat in *; lia).
    apply (lim_loc (fun t => dot (nth i (M t) []) (f t)) _ r); [exact Hr| |].
    + intros t Ht. rewrite vget_mv by (rewrite (proj1 (WM t Ht)); lia). reflexivity.
    + apply (rate_dot (fun t => nth i (M t) []) f (nth i M' []) f' n r); auto.
      * intros t Ht. now apply (wf_row m n _ i (WM t Ht)).
      * now apply (wf_row m n _ i WM').
      * intros j. apply HM.
  - rewrite vget_out by (rewrite vadd_length, !mv_length, (proj1 (WM 0 H0)), (proj1 WM'); lia). apply (lim_const _ r 0); [exact Hr|].
    intros t Ht. apply vget_out. rewrite mv_length, (proj1 (WM t Ht)). lia.
Qed.
Lemma mget_mtr_out n (A : matR) i j : ~ ((j < n)%nat /\ (i < length A)%nat) -> mget (mtr n A) j i = 0.
Proof.
  intros H. unfold mget. destruct (lt_dec j n) as [Hj|Hj].
  - rewrite mtr_nth by auto. apply vget_out. rewrite map_length. unfold vec, mat in *. lia.
  - rewrite nth_overflow by (rewrite mtr_length; lia). apply vget_out. cbn. lia.
Qed.
Lemma rate_mtr (M : R -> matR) M' m n r : 0 < r -> (forall t, - r < t < r -> wf m n (M t)) -> wf m n M' -> mrate M M' -> mrate (fun t => mtr n (M t)) (mtr n M').
Proof.
  intros Hr WM WM' HM j i. destruct (lt_dec j n) as [Hj|Hj]; [destruct (lt_dec i m) as [Hi|Hi]|].
  - rewrite mget_mtr by (rewrite ?(proj1 WM'); auto). apply (lim_loc (fun t => mget (M t) i j) _ r); auto.
    intros t Ht. rewrite mget_mtr by (rewrite ?(proj1 (WM t Ht)); auto). reflexivity.
  - rewrite mget_mtr_out by (rewrite (proj1 WM'); lia). apply (lim_const _ r 0); [exact Hr|]. intros t Ht. apply mget_mtr_out. rewrite (proj1 (WM t Ht)). lia.
  - rewrite mget_mtr_out by lia. apply (lim_const _ r 0); [exact Hr|]. intros t Ht. apply mget_mtr_out. lia.
Qed.
Lemma rate_vm (M : R -> matR) (f : R -> vecR) M' f' m n r : 0 < r -> (forall t, - r < t < r -> wf m n (M t)) -> (forall t, - r < t < r -> length (f t) = m) ->
  wf m n M' -> length f' = m -> mrate M M' -> vrate f f' -> vrate (fun t => vm n (f t) (M t)) (vadd (vm n (f 0) M') (vm n f' (M 0))).
Proof.
  intros Hr WM Lf WM' Lf' HM Hf. unfold vm. apply (rate_mv (fun t => mtr n (M t)) f (mtr n M') f' n m r); auto.
  - intros t Ht. apply wf_mtr, (WM t Ht). - apply wf_mtr, WM'. - now apply (rate_mtr _ _ m n r).
Qed.
Lemma rate_still (f : R -> vecR) f' n r : 0 < r -> length f' = n -> (forall t, - r < t < r -> f t = f 0) -> vrate f f' -> f' = vzeros n.
Proof.
  intros Hr L H Hf. apply vext; [vlen|]. intros i Hi. rewrite vget_zeros. apply (uniqueness_limite (fun t => vget (f t) i) 0); [apply Hf|].
  apply (lim_const _ r (vget (f 0) i)); auto. intros t Ht. now rewrite (H t Ht).
Qed.

(** *** matrices as gradients *)
Lemma mdot_outer m n (a b : vecR) (M : matR) : wf m n M -> length a = m -> length b = n -> mdot (outer a b) M = dot a (mv M b).
Proof.
  intros [L W]. revert m a L. induction M as [|q M IH]; intros m a L La Lb; destruct a as [|a0 a]; cbn in L, La; subst m; try discriminate; [symmetry; apply dot_nil_l|].
  apply Forall_cons_iff in W. destruct W as [Lq W]. cbn [outer map mdot]. rewrite mv_cons, dot_cons. change (map (fun a1 => vscale a1 b) a) with (outer a b).
  rewrite (IH W (length M) a eq_refl) by auto. rewrite dot_vscale_l, (dot_comm b q). reflexivity.
Qed.
Lemma mdot_madd m n (A B M : matR) : wf m n A -> wf m n B -> wf m n M -> mdot (madd A B) M = mdot A M + mdot B M.
Proof.
  intros [LA WA] [LB WB] [LM WM]. revert m B M LA LB LM WB WM. induction A as [|a A IH]; intros m [|b B] [|q M] LA LB LM WB WM; cbn in *; subst m; try discriminate; [ring|].
  apply Forall_cons_iff in WA. apply Forall_cons_iff in WB. apply Forall_cons_iff in WM. destruct WA as [La WA]. destruct WB as [Lb WB]. destruct WM as [Lq WM].
  unfold madd in *. cbn [map2 mdot]. rewrite (IH WA (length A) B M) by (auto; lia). rewrite dot_vadd_l by (vlen). ring.
Qed.
Lemma mdot_mscale k (A M : matR) : mdot (mscale k A) M = k * mdot A M.
Proof. revert M. induction A as [|a A IH]; intros [|q M]; cbn [mscale map mdot]; try ring. change (map (vscale k) A) with (mscale k A). rewrite IH, dot_vscale_l. ring. Qed.
Lemma mdot_mopp (A M : matR) : mdot (mopp A) M = - mdot A M.
Proof. revert M. induction A as [|a A IH]; intros [|q M]; unfold mopp in *; cbn [map mdot]; try ring. rewrite IH, dot_vopp_l. ring. Qed.

(** *** one problem *)
Section One.
Variables nz nineq neq : nat.
Variables (pr : R -> prob R) (it : R -> iter R) (r : R) (dpr : prob R) (dit : iter R).
Hypothesis HC : solution_curve nz nineq neq pr it r.
Hypothesis HD : data_rate nz nineq neq pr dpr.
Hypothesis HP : point_rate nz nineq neq it dit.
Let pr0 := pr 0. Let it0 := it 0.
Let Hr : 0 < r := sc_r _ _ _ _ _ _ HC.
Let H0 : - r < 0 < r. Proof. lra. Qed.

Let WQ : forall t, - r < t < r -> wf nz nz (pr_Q (pr t)). Proof. intros t Ht. apply (sc_sized _ _ _ _ _ _ HC t Ht). Qed.
Let WG : forall t, - r < t < r -> wf nineq nz (pr_G (pr t)). Proof. intros t Ht. apply (sc_sized _ _ _ _ _ _ HC t Ht). Qed.
Let WF : forall t, - r < t < r -> wf nineq nineq (pr_F (pr t)). Proof. intros t Ht. apply (sc_sized _ _ _ _ _ _ HC t Ht). Qed.
Let WA : forall t, - r < t < r -> wf neq nz (pr_A (pr t)). Proof. intros t Ht. apply (sc_sized _ _ _ _ _ _ HC t Ht). Qed.
Let Lp : forall t, - r < t < r -> length (pr_p (pr t)) = nz. Proof. intros t Ht. apply (sc_sized _ _ _ _ _ _ HC t Ht). Qed.
Let Lh : forall t, - r < t < r -> length (pr_h (pr t)) = nineq. Proof. intros t Ht. apply (sc_sized _ _ _ _ _ _ HC t Ht). Qed.
Let Lb : forall t, - r < t < r -> length (pr_b (pr t)) = neq. Proof. intros t Ht. apply (sc_sized _ _ _ _ _ _ HC t Ht). Qed.
Let Lx : forall t, - r < t < r -> length (i_x (it t)) = nz. Proof. intros t Ht. apply (sc_point _ _ _ _ _ _ HC t Ht). Qed.
Let Ls : forall t, - r < t < r -> length (i_s (it t)) = nineq. Proof. intros t Ht. apply (sc_point _ _ _ _ _ _ HC t Ht). Qed.
Let Lz : forall t, - r < t < r -> length (i_z (it t)) = nineq. Proof. intros t Ht. apply (sc_point _ _ _ _ _ _ HC t Ht). Qed.
Let Ly : forall t, - r < t < r -> length (i_y (it t)) = neq. Proof. intros t Ht. apply (sc_point _ _ _ _ _ _ HC t Ht). Qed.
Let WQ' : wf nz nz (pr_Q dpr). Proof. apply HD. Qed.
Let WG' : wf nineq nz (pr_G dpr). Proof. apply HD. Qed.
Let WF' : wf nineq nineq (pr_F dpr). Proof. apply HD. Qed.
Let WA' : wf neq nz (pr_A dpr). Proof. apply HD. Qed.
Let Lp' : length (pr_p dpr) = nz. Proof. apply HD. Qed.
Let Lh' : length (pr_h dpr) = nineq. Proof. apply HD. Qed.
Let Lb' : length (pr_b dpr) = neq. Proof. apply HD. Qed.
Let Lx' : length (i_x dit) = nz. Proof. apply HP. Qed.
Let Ls' : length (i_s dit) = nineq. Proof. apply HP. Qed.
Let Lz' : length (i_z dit) = nineq. Proof. apply HP. Qed.
Let Ly' : length (i_y dit) = neq. Proof. apply HP. Qed.
Let lmv m n (M : matR) x : wf m n M -> length (mv M x) = m. Proof. intros [W _]. now rewrite mv_length. Qed.
Let ladd n (x y : vecR) : length x = n -> length y = n -> length (vadd x y) = n. Proof. intros. vlen. Qed.
Let lsub n (x y : vecR) : length x = n -> length y = n -> length (vsub x y) = n. Proof. intros. vlen. Qed.

Lemma curve_x : vadd (vadd (vadd (mv (pr_Q dpr) (i_x it0)) (mv (pr_Q pr0) (i_x dit))) (pr_p dpr))
  (vadd (vadd (vm nz (i_z it0) (pr_G dpr)) (vm nz (i_z dit) (pr_G pr0))) (vadd (vm nz (i_y it0) (pr_A dpr)) (vm nz (i_y dit) (pr_A pr0)))) = vzeros nz.
Proof.
  apply (rate_still (fun t => stationarity nz (pr t) (it t)) _ nz r Hr).
  - repeat apply ladd; eauto using vm_length.
  - intros t Ht. apply (sc_x _ _ _ _ _ _ HC t Ht).
  - unfold stationarity. apply (rate_vadd (fun t => vadd (mv (pr_Q (pr t)) (i_x (it t))) (pr_p (pr t))) (fun t => vadd (vm nz (i_z (it t)) (pr_G (pr t))) (vm nz (i_y (it t)) (pr_A (pr t)))) _ _ nz r Hr);
      try (intros; repeat apply ladd; eauto using vm_length; fail).
    + apply (rate_vadd (fun t => mv (pr_Q (pr t)) (i_x (it t))) (fun t => pr_p (pr t)) _ _ nz r Hr); try (intros; repeat apply ladd; eauto; fail); [|apply HD].
      apply (rate_mv (fun t => pr_Q (pr t)) (fun t => i_x (it t)) _ _ nz nz r Hr); auto; [apply HD|apply HP].
    + apply (rate_vadd (fun t => vm nz (i_z (it t)) (pr_G (pr t))) (fun t => vm nz (i_y (it t)) (pr_A (pr t))) _ _ nz r Hr); try (intros; repeat apply ladd; eauto using vm_length; fail).
      * apply (rate_vm (fun t => pr_G (pr t)) (fun t => i_z (it t)) _ _ nineq nz r Hr); auto; [apply HD|apply HP].
      * apply (rate_vm (fun t => pr_A (pr t)) (fun t => i_y (it t)) _ _ neq nz r Hr); auto; [apply HD|apply HP].
Qed.
Lemma curve_z : vsub (vsub (vadd (vadd (mv (pr_G dpr) (i_x it0)) (mv (pr_G pr0) (i_x dit))) (i_s dit)) (vadd (mv (pr_F dpr) (i_z it0)) (mv (pr_F pr0) (i_z dit)))) (pr_h dpr) = vzeros nineq.
Proof.
  apply (rate_still (fun t => inequality (pr t) (it t)) _ nineq r Hr).
  - repeat first [apply ladd|apply lsub]; eauto.
  - intros t Ht. apply (sc_z _ _ _ _ _ _ HC t Ht).
  - unfold inequality. apply (rate_vsub (fun t => vsub (vadd (mv (pr_G (pr t)) (i_x (it t))) (i_s (it t))) (mv (pr_F (pr t)) (i_z (it t)))) (fun t => pr_h (pr t)) _ _ nineq r Hr);
      try (intros; repeat first [apply ladd|apply lsub]; eauto; fail); [|apply HD].
    apply (rate_vsub (fun t => vadd (mv (pr_G (pr t)) (i_x (it t))) (i_s (it t))) (fun t => mv (pr_F (pr t)) (i_z (it t))) _ _ nineq r Hr); try (intros; repeat first [apply ladd|apply lsub]; eauto; fail).
    + apply (rate_vadd (fun t => mv (pr_G (pr t)) (i_x (it t))) (fun t => i_s (it t)) _ _ nineq r Hr); try (intros; repeat first [apply ladd|apply lsub]; eauto; fail); [|apply HP].
      apply (rate_mv (fun t => pr_G (pr t)) (fun t => i_x (it t)) _ _ nineq nz r Hr); auto; [apply HD|apply HP].
    + apply (rate_mv (fun t => pr_F (pr t)) (fun t => i_z (it t)) _ _ nineq nineq r Hr); auto; [apply HD|apply HP].
Qed.
Lemma curve_y : vsub (vadd (mv (pr_A dpr) (i_x it0)) (mv (pr_A pr0) (i_x dit))) (pr_b dpr) = vzeros neq.
Proof.
  apply (rate_still (fun t => equality (pr t) (it t)) _ neq r Hr).
  - repeat first [apply ladd|apply lsub]; eauto.
  - intros t Ht. apply (sc_y _ _ _ _ _ _ HC t Ht).
  - unfold equality. apply (rate_vsub (fun t => mv (pr_A (pr t)) (i_x (it t))) (fun t => pr_b (pr t)) _ _ neq r Hr); try (intros; repeat first [apply ladd|apply lsub]; eauto; fail); [|apply HD].
    apply (rate_mv (fun t => pr_A (pr t)) (fun t => i_x (it t)) _ _ neq nz r Hr); auto; [apply HD|apply HP].
Qed.
Lemma curve_c : vadd (vmul (i_s dit) (i_z it0)) (vmul (i_s it0) (i_z dit)) = vzeros nineq.
Proof.
  apply (rate_still (fun t => vmul (i_s (it t)) (i_z (it t))) _ nineq r Hr).
  - rewrite vadd_length, !vmul_length. pose proof (Lz 0 H0). pose proof (Ls 0 H0). unfold it0, vec in *. lia.
  - intros t Ht. apply (sc_c _ _ _ _ _ _ HC t Ht).
  - apply (rate_vmul (fun t => i_s (it t)) (fun t => i_z (it t)) _ _ nineq r Hr); auto; apply HP.
Qed.

(** the gradients of the backward pass, from a solution of its linear system *)
Definition grads_of (x z y dx dlam dnu : vecR) : grads R :=
  {| g_p := dx; g_G := madd (outer dlam x) (outer z dx); g_F := mopp (outer dlam z); g_h := vopp dlam;
     g_A := madd (outer dnu x) (outer y dx); g_b := vopp dnu; g_Q := mscale (1 / nofZ 2) (madd (outer dx x) (outer x dx)) |}.

Ltac leq n := transitivity n; [|symmetry]; repeat first [apply ladd | apply lsub | apply vm_length]; auto; first [now eapply lmv; eauto | idtac].
Lemma curve_chain dl dx ds dlam dnu : interior it0 -> length dl = nz ->
  kkt_solution nz nineq neq (pr_Q pr0) (pr_G pr0) (pr_F pr0) (pr_A pr0) (vdiv (i_z it0) (i_s it0)) dl (vzeros nineq) (vzeros nineq) (vzeros neq) dx ds dlam dnu ->
  dot dl (i_x dit) = chain (grads_of (i_x it0) (i_z it0) (i_y it0) dx dlam dnu) dpr + (dot (i_z dit) (mv (pr_F pr0) dlam) - dot dlam (mv (pr_F pr0) (i_z dit))).
Proof.
  intros [Ps Pz] Ldl [K1 K2 K3 K4 Kx Ks Kz Ky]. pose proof curve_x as E1. pose proof curve_z as E2. pose proof curve_y as E3. pose proof curve_c as E4.
  pose proof (sc_sized _ _ _ _ _ _ HC 0 H0) as S0. pose proof (sc_point _ _ _ _ _ _ HC 0 H0) as P0. fold pr0 in S0. fold it0 in P0. destruct S0 as [[SQ SG SF SA] _ _ _]. destruct P0 as [Px Psl Pzl Pyl].
  pose proof (dr_sized _ _ _ _ _ HD) as [[SQ' _ _ _] _ _ _]. pose proof (proj1 SQ) as SQw.
  (* the equations of the curve, tested against dx, dlam, dnu *)
  apply (f_equal (dot dx)) in E1. rewrite dot_zeros_r in E1.
  rewrite !dot_vadd_r in E1 by leq nz.
  rewrite (dot_comm dx (vm nz (i_z it0) (pr_G dpr))), (dot_comm dx (vm nz (i_z dit) (pr_G pr0))), (dot_comm dx (vm nz (i_y it0) (pr_A dpr))), (dot_comm dx (vm nz (i_y dit) (pr_A pr0))) in E1.
  rewrite (dot_vm nineq nz (pr_G dpr)), (dot_vm nineq nz (pr_G pr0)), (dot_vm neq nz (pr_A dpr)), (dot_vm neq nz (pr_A pr0)) in E1 by auto.
  rewrite Ky, vopp_zeros, dot_zeros_r in E1.
  apply (f_equal (dot dlam)) in E2. rewrite dot_zeros_r in E2.
  rewrite !dot_vsub_r in E2 by leq nineq. rewrite !dot_vadd_r in E2 by leq nineq.
  apply (f_equal (dot dnu)) in E3. rewrite dot_zeros_r in E3.
  rewrite !dot_vsub_r in E3 by leq neq. rewrite !dot_vadd_r in E3 by leq neq.
  (* the equations of the backward pass, tested against x', z' *)
  assert (Ex : - dot dl (i_x dit) = dot dx (mv (pr_Q pr0) (i_x dit)) + dot dlam (mv (pr_G pr0) (i_x dit)) + dot dnu (mv (pr_A pr0) (i_x dit))).
  { apply (f_equal (fun v => dot v (i_x dit))) in Kx. rewrite dot_vopp_l in Kx. rewrite <- Kx. rewrite !dot_vadd_l by leq nz.
    rewrite (symm_dot nz (pr_Q pr0)), (dot_vm nineq nz), (dot_vm neq nz) by auto. reflexivity. }
  assert (Ez : dot (i_z dit) (mv (pr_G pr0) dx) + dot (i_z dit) ds - dot (i_z dit) (mv (pr_F pr0) dlam) = 0).
  { apply (f_equal (dot (i_z dit))) in Kz. rewrite vopp_zeros, dot_zeros_r in Kz. rewrite !dot_vsub_r in Kz by leq nineq. rewrite !dot_vadd_r in Kz by leq nineq. exact Kz. }
  assert (Ec : dot (i_z dit) ds = dot dlam (i_s dit)).
  { rewrite (dot_lsum (i_z dit) ds nineq), (dot_lsum dlam (i_s dit) nineq) by auto. apply lsum_ext. intros i Hi. apply in_seq in Hi.
    apply (f_equal (fun v => vget v i)) in Ks. apply (f_equal (fun v => vget v i)) in E4. unfold vec, mat in *.
    rewrite vopp_zeros, vget_zeros in Ks. rewrite vget_zeros in E4.
    rewrite vget_vadd, vget_vmul, vget_vdiv in Ks by vlen. rewrite vget_vadd, !vget_vmul in E4 by vlen.
    assert (A1 : 0 < vget (i_s it0) i) by (apply pos_get; [exact Ps|unfold vec in *; lia]). assert (A2 : 0 < vget (i_z it0) i) by (apply pos_get; [exact Pz|unfold vec in *; lia]).
    replace (vget dlam i) with (- (vget (i_z it0) i / vget (i_s it0) i * vget ds i)) by lra.
    replace (vget (i_s dit) i) with (- (vget (i_s it0) i * vget (i_z dit) i / vget (i_z it0) i)). { field. lra. }
    apply (Rmult_eq_reg_r (vget (i_z it0) i)); [|lra]. unfold Rdiv. field_simplify; lra. }
  unfold chain, grads_of. cbn [g_Q g_p g_G g_h g_A g_b g_F].
  assert (Wo : forall m n (a b : vecR), length a = m -> length b = n -> wf m n (outer a b)) by (intros m n a b <- <-; apply wf_outer).
  rewrite mdot_mscale, (mdot_madd nz nz), !(mdot_outer nz nz) by auto.
  rewrite (mdot_madd nineq nz), !(mdot_outer nineq nz) by auto. rewrite (mdot_madd neq nz), !(mdot_outer neq nz) by auto.
  rewrite mdot_mopp, (mdot_outer nineq nineq) by auto. rewrite !dot_vopp_l.
  rewrite <- (symm_dot nz (pr_Q dpr) (i_x it0) dx) by auto. rewrite (dot_comm (mv (pr_Q dpr) (i_x it0)) dx). unfold it0, pr0 in *. rnum. lra.
Qed.
End One.

(** *** backward after forward *)
Section Back.
Variable la : lapack R.
Hypothesis HL : lapack_ok la.
Variables nz nineq neq : nat.
Hypothesis Hn : (0 < nineq)%nat.

(** the loop returns elements with usable factorisations *)
Lemma factor_good ps es es1 : Forall2 (good la nz nineq neq) ps es -> factor_batch la nineq neq es = Ok es1 -> Forall2 (good la nz nineq neq) ps es1.
Proof.
  intros H E. assert (HO : Forall (elt_ok la nz nineq neq) es). { clear E. induction H as [|pr e ps es [H _] _ IH]; constructor; auto. }
  pose proof (factor_batch_ok la HL nz nineq neq Hn es es1 HO E) as H1. refine (Forall2_trans _ _ _ _ _ _ _ H H1).
  intros pr e e1 (G1 & G2 & G3 & G4) (F1 & F2 & F3). split; [apply F1|]. rewrite F2, F3. auto.
Qed.
Lemma pd_loop_good k eps lim : forall ps es best nni b es', Forall2 (good la nz nineq neq) ps es ->
  pd_loop la nz nineq neq k eps lim es best nni = Ok (b, es') -> Forall2 (good la nz nineq neq) ps es'.
Proof.
  induction k as [|k IH]; intros ps es best nni b es' HG E; cbn [pd_loop] in E.
  - destruct best; [now injection E as _ <-|discriminate].
  - destruct (factor_batch la nineq neq es) as [es1|er] eqn:Ef; [|now injection E as _ <-].
    pose proof (factor_good ps es es1 HG Ef) as H1.
    destruct best as [b0|]; destruct (orb _ _).
    + now injection E as _ <-.
    + apply (IH ps _ _ _ _ _ (step_good la HL nz nineq neq Hn ps es es1 HG Ef) E).
    + now injection E as _ <-.
    + apply (IH ps _ _ _ _ _ (step_good la HL nz nineq neq Hn ps es es1 HG Ef) E).
Qed.

(** one element of the batch *)
Lemma backward1_system pr e it dl g : good la nz nineq neq pr e -> point nz nineq neq it -> interior it -> length dl = nz ->
  lcp_backward1 la nz nineq neq e it dl = Ok g ->
  exists dx ds dlam dnu, g = grads_of (i_x it) (i_z it) (i_y it) dx dlam dnu /\
    kkt_solution nz nineq neq (pr_Q pr) (pr_G pr) (pr_F pr) (pr_A pr) (vdiv (i_z it) (i_s it)) dl (vzeros nineq) (vzeros nineq) (vzeros neq) dx ds dlam dnu.
Proof.
  intros ([Es Est Ep Ei] & <- & _) Pt Int Ldl H. unfold lcp_backward1 in H. cbv zeta in H. bind_inv H as SL E1.
  assert (Ld : length (vdiv (i_z it) (i_s it)) = nineq) by (rewrite vdiv_length, (pt_z _ _ _ _ Pt), (pt_s _ _ _ _ Pt); lia).
  assert (Pd : forall i, (i < nineq)%nat -> 0 < vget (vdiv (i_z it) (i_s it)) i).
  { intros i Hi. pose proof (pt_z _ _ _ _ Pt). pose proof (pt_s _ _ _ _ Pt). rewrite vget_vdiv by (unfold vec in *; lia). apply Rdiv_lt_0_compat; apply pos_get; try apply Int; unfold vec in *; lia. }
  destruct (state_factor la nz nineq neq _ _ _ _ _ _ _ _ SL HL (sz_mat _ _ _ _ Es) Est Ld E1) as [S1 S2]. destruct Est as (HQ & LA & HA & _).
  assert (Hd0 : forall i, (i < nineq)%nat -> vget (vdiv (i_z it) (i_s it)) i <> 0) by (intros i Hi; apply Rgt_not_eq; now apply Pd).
  pose proof (solve_kkt_ok la HL nz nineq neq _ _ _ _ (sz_mat _ _ _ _ Es) _ HQ LA HA SL (vdiv (i_z it) (i_s it)) dl (vzeros nineq) (vzeros nineq) (vzeros neq) S2 Ld Hd0 Ldl (vzeros_length _) (vzeros_length _) (vzeros_length _)) as K.
  destruct (solve_kkt la nz neq (e_QLU e) (vdiv (i_z it) (i_s it)) (pr_G (e_pr e)) (pr_A (e_pr e)) SL dl (vzeros nineq) (vzeros nineq) (vzeros neq)) as [[[dx ds] dlam] dnu] eqn:E2.
  injection H as <-. exists dx, ds, dlam, dnu. split; [reflexivity|exact K].
Qed.
Lemma backward1_total pr e it dl : good la nz nineq neq pr e -> posed nz nineq neq pr -> point nz nineq neq it -> interior it ->
  exists g, lcp_backward1 la nz nineq neq e it dl = Ok g.
Proof.
  intros ([Es Est Ep Ei] & <- & _) Hw Pt Int. unfold lcp_backward1. cbv zeta.
  assert (Ld : length (vdiv (i_z it) (i_s it)) = nineq) by (rewrite vdiv_length, (pt_z _ _ _ _ Pt), (pt_s _ _ _ _ Pt); lia).
  assert (Pd : forall i, (i < nineq)%nat -> 0 < vget (vdiv (i_z it) (i_s it)) i).
  { intros i Hi. pose proof (pt_z _ _ _ _ Pt). pose proof (pt_s _ _ _ _ Pt). rewrite vget_vdiv by (unfold vec in *; lia). apply Rdiv_lt_0_compat; apply pos_get; try apply Int; unfold vec in *; lia. }
  destruct (state_total la nz nineq neq _ _ _ _ _ _ _ _ HL (sz_mat _ _ _ _ Es) Hw Est Ld Pd) as [SL E1]. rewrite E1. cbn [bind].
  destruct (solve_kkt _ _ _ _ _ _ _ _ _ _ _ _) as [[[dx ds] dlam] dnu]. eexists. reflexivity.
Qed.

Variables (o : lcp_opts R) (ps : list (prob R)) (xs : list (vec R)) (sv : lcp_saved R).
Hypothesis Hsz : Forall (sized nz nineq neq) ps.
Hypothesis Hlim : (0 < lo_lim o)%nat.
Hypothesis HF : lcp_forward la o nz nineq neq ps = Ok (Some (xs, sv)).

Lemma forward_saved : sv_nz sv = nz /\ sv_nineq sv = nineq /\ sv_neq sv = neq /\ Forall2 (good la nz nineq neq) ps (sv_elts sv).
Proof.
  destruct (lcp_forward_start _ _ _ _ _ _ _ HF) as (_ & es0 & best & es & E0 & EL & ER). destruct best as [b|]; [|discriminate]. injection ER as -> ->. cbn.
  repeat (split; [reflexivity|]). exact (pd_loop_good _ _ _ ps es0 None 0%nat (Some b) es (start_good la HL nz nineq neq ps es0 Hsz E0) EL).
Qed.

Lemma Forall2_at {A B} (P : A -> B -> Prop) l m i b : Forall2 P l m -> nth_error m i = Some b -> exists a, nth_error l i = Some a /\ P a b.
Proof. intros H. revert i. induction H as [|x y l m Hxy _ IH]; intros [|i] E; cbn [nth_error] in *; try discriminate; [injection E as <-; eauto|auto]. Qed.
Lemma combine_at {A B} (l : list A) (m : list B) i a b : nth_error (combine l m) i = Some (a, b) -> nth_error l i = Some a /\ nth_error m i = Some b.
Proof. revert m i. induction l as [|x l IH]; intros [|y m] [|i] E; cbn [combine nth_error] in *; try discriminate; [injection E as <- <-; auto|auto]. Qed.
Lemma backward_at dls gs i g : lcp_backward la sv dls = Ok gs -> nth_error gs i = Some g ->
  exists pr e it dl, nth_error ps i = Some pr /\ good la nz nineq neq pr e /\ nth_error (sv_best sv) i = Some it /\ nth_error dls i = Some dl /\
    lcp_backward1 la nz nineq neq e it dl = Ok g.
Proof.
  destruct forward_saved as (E1 & E2 & E3 & HG). unfold lcp_backward. rewrite E1, E2, E3. intros H Hg. apply mapM_Forall2 in H.
  destruct (Forall2_at _ _ _ i g H Hg) as ([[e it] dl] & Ec & Eb). apply combine_at in Ec. destruct Ec as [Ec Edl]. apply combine_at in Ec. destruct Ec as [Ee Eit].
  destruct (Forall2_at _ _ _ i e HG Ee) as (pr & Ep & Hpe). exists pr, e, it, dl. auto.
Qed.

(** the derivative of the loss, and what the gradients make of it *)
Lemma backward_derivative dls gs i g dl p0 it0 pr it r dpr dit :
  lcp_backward la sv dls = Ok gs -> nth_error gs i = Some g -> nth_error dls i = Some dl -> length dl = nz ->
  nth_error ps i = Some p0 -> nth_error (sv_best sv) i = Some it0 ->
  solution_curve nz nineq neq pr it r -> pr 0 = p0 -> it 0 = it0 -> data_rate nz nineq neq pr dpr -> point_rate nz nineq neq it dit ->
  derivable_pt_lim (fun t => dot dl (i_x (it t))) 0
    (chain g dpr + (dot (i_z dit) (mv (pr_F p0) (vopp (g_h g))) - dot (vopp (g_h g)) (mv (pr_F p0) (i_z dit)))).
Proof.
  intros HB Hg Hdl Ldl Hp Hit HC P0 I0 HD HP. destruct (backward_at dls gs i g HB Hg) as (p1 & e & it1 & dl1 & Ep & He & Eit & Edl & Eb).
  rewrite Hp in Ep. injection Ep as <-. rewrite Hit in Eit. injection Eit as <-. rewrite Hdl in Edl. injection Edl as <-.
  destruct (forward_returned la HL o nz nineq neq ps xs sv Hsz Hlim HF i it0 Hit) as (p2 & _ & Pt & Int & _).
  destruct (backward1_system p0 e it0 dl g He Pt Int Ldl Eb) as (dx & ds & dlam & dnu & -> & K). cbn [g_h grads_of]. rewrite vopp_vopp.
  rewrite <- P0, <- I0 in *. rewrite <- (curve_chain nz nineq neq pr it r dpr dit HC HD HP dl dx ds dlam dnu Int Ldl K).
  pose proof (sc_r _ _ _ _ _ _ HC) as Hr. pose proof (rate_dot (fun _ => dl) (fun t => i_x (it t)) (vzeros nz) (i_x dit) nz r Hr) as D.
  rewrite dot_zeros_l, Rplus_0_l in D. apply D; auto.
  - intros t Ht. apply (sc_point _ _ _ _ _ _ HC t Ht).
  - apply vzeros_length.
  - apply HP.
  - intros j. rewrite vget_zeros. apply derivable_pt_lim_const.
  - apply HP.
Qed.
Lemma backward_derivative_symmetric dls gs i g dl p0 it0 pr it r dpr dit :
  lcp_backward la sv dls = Ok gs -> nth_error gs i = Some g -> nth_error dls i = Some dl -> length dl = nz ->
  nth_error ps i = Some p0 -> nth_error (sv_best sv) i = Some it0 -> symm nineq (pr_F p0) ->
  solution_curve nz nineq neq pr it r -> pr 0 = p0 -> it 0 = it0 -> data_rate nz nineq neq pr dpr -> point_rate nz nineq neq it dit ->
  derivable_pt_lim (fun t => dot dl (i_x (it t))) 0 (chain g dpr).
Proof.
  intros HB Hg Hdl Ldl Hp Hit HS HC P0 I0 HD HP. pose proof (backward_derivative dls gs i g dl p0 it0 pr it r dpr dit HB Hg Hdl Ldl Hp Hit HC P0 I0 HD HP) as D.
  replace (dot (i_z dit) (mv (pr_F p0) (vopp (g_h g)))) with (dot (vopp (g_h g)) (mv (pr_F p0) (i_z dit))) in D; [now rewrite Rminus_diag_eq, Rplus_0_r in D by reflexivity|].
  destruct (backward_at dls gs i g HB Hg) as (p1 & e & it1 & dl1 & Ep & He & Eit & Edl & Eb).
  rewrite Hp in Ep. injection Ep as <-. rewrite Hit in Eit. injection Eit as <-. rewrite Hdl in Edl. injection Edl as <-.
  destruct (forward_returned la HL o nz nineq neq ps xs sv Hsz Hlim HF i it0 Hit) as (p2 & _ & Pt & Int & _).
  destruct (backward1_system p0 e it0 dl g He Pt Int Ldl Eb) as (dx & ds & dlam & dnu & -> & K). cbn [g_h grads_of]. rewrite vopp_vopp.
  rewrite dot_comm. apply (symm_dot nineq); auto; [apply HP|apply K].
Qed.
Lemma backward_total dls : Forall (posed nz nineq neq) ps -> length dls = length ps ->
  exists gs, lcp_backward la sv dls = Ok gs /\ length gs = length ps.
Proof.
  intros Hw Hlen. destruct forward_saved as (E1 & E2 & E3 & HG). unfold lcp_backward. rewrite E1, E2, E3.
  destruct (forward_best la HL o nz nineq neq ps xs sv Hsz Hlim HF) as (_ & HLn & _).
  assert (HB : forall i it, nth_error (sv_best sv) i = Some it -> point nz nineq neq it /\ interior it).
  { intros i it Hi. destruct (forward_returned la HL o nz nineq neq ps xs sv Hsz Hlim HF i it Hi) as (p2 & _ & Pt & Int & _). auto. }
  revert HLn HB Hlen. generalize (sv_best sv) as bs. clear HF Hsz E1 E2 E3. revert dls.
  induction HG as [|pr e ps' es Hpe _ IH]; intros dls bs HLn HB Hlen.
  - exists []. split; reflexivity.
  - destruct bs as [|it bs]; [discriminate|]. destruct dls as [|dl dls]; [discriminate|]. apply Forall_cons_iff in Hw. destruct Hw as [Hw Hw'].
    destruct (HB 0%nat it eq_refl) as [Pt Int]. destruct (backward1_total pr e it dl Hpe Hw Pt Int) as [g Eg].
    destruct (IH Hw' dls bs ltac:(cbn in HLn; lia) ltac:(intros i it' Hi; exact (HB (S i) it' Hi)) ltac:(cbn in Hlen; lia)) as (gs & Egs & Lgs).
    exists (g :: gs). cbn [combine mapM]. rewrite Eg. cbn [bind]. rewrite Egs. split; [reflexivity|cbn; lia].
Qed.
End Back.
