(** The solver and a common velocity: adding Q V to p shifts every iterate by V, when G V = 0 and A V = 0 *)
From Coq Require Import List Arith ZArith Bool Reals Lia Lra Psatz.
From Verif Require Import Num Tensor RBase ResFacts LinAlg Lapack LapackSpec Pdipm Lcp KktSpec KktFacts KktFactor PdipmSpec PdipmFacts PdipmLoop.
Import ListNotations.
Open Scope R_scope.

(** apply [f] to the value of a result *)
Definition rmap {A B} (f : A -> B) (r : res A) : res B := match r with Ok a => Ok (f a) | Err e => Err e end.
Lemma mapM_rmap {A B C D} (f : A -> res B) (g : C -> res D) (h : A -> C) (k : B -> D) l :
  (forall a, In a l -> g (h a) = rmap k (f a)) -> mapM g (map h l) = rmap (map k) (mapM f l).
Proof.
  induction l as [|a l IH]; intros H; [reflexivity|]. cbn [map mapM]. rewrite (H a (or_introl eq_refl)). destruct (f a) as [b|e]; [|reflexivity]. cbn [rmap bind].
  rewrite IH by (intros; apply H; now right). destruct (mapM f l); reflexivity.
Qed.
Lemma mapM_ext' {A B} (f g : A -> res B) l : (forall a, In a l -> f a = g a) -> mapM f l = mapM g l.
Proof. induction l as [|a l IH]; intros H; [reflexivity|]. cbn [mapM]. rewrite (H a (or_introl eq_refl)), IH; [reflexivity|]. intros; apply H; now right. Qed.

Section Boost.
Variable la : lapack R.
Hypothesis HL : lapack_ok la.
Variables nz nineq neq : nat.
Hypothesis Hn : (0 < nineq)%nat.
Variable V : vecR.
Hypothesis LV : length V = nz.

Definition bprob (pr : prob R) : prob R :=
  mkProb (pr_Q pr) (vadd (pr_p pr) (mv (pr_Q pr) V)) (pr_G pr) (pr_h pr) (pr_A pr) (pr_b pr) (pr_F pr).
Definition biter (it : iter R) : iter R := mkIter (vsub (i_x it) V) (i_s it) (i_z it) (i_y it).
Definition belt (e : elt R) : elt R := mkElt (bprob (e_pr e)) (e_QLU e) (e_SLU e) (e_R e) (biter (e_it e)).
(** the constraints do not see [V] *)
Definition unseen (pr : prob R) : Prop := mv (pr_G pr) V = vzeros nineq /\ mv (pr_A pr) V = vzeros neq.

Lemma vsub_vadd_swap (x y : vecR) : vadd (vsub x V) y = vsub (vadd x y) V.
Proof. rewrite !vsub_vadd, !vadd_assoc. f_equal. apply vadd_comm. Qed.

Lemma G_unseen (G : matR) x m : length G = m -> length x = nz -> mv G V = vzeros m -> mv G (vsub x V) = mv G x.
Proof. intros LG Lx E. rewrite mv_vsub by lia. rewrite E. apply vsub_zeros_r. now rewrite mv_length. Qed.
Lemma G_unseen' (G : matR) x m : length G = m -> length x = nz -> mv G V = vzeros m -> mv G (vadd x V) = mv G x.
Proof. intros LG Lx E. rewrite mv_vadd by lia. rewrite E. apply vadd_zeros_r. now rewrite mv_length. Qed.

Section Elt.
Variable e : elt R.
Hypothesis Hsz : sized nz nineq neq (e_pr e).
Hypothesis Hpt : point nz nineq neq (e_it e).
Hypothesis Hu : unseen (e_pr e).
Lemma r_x_belt : r_x nz neq (belt e) = r_x nz neq e.
Proof.
  destruct Hsz as [[[[LQ _] _] _ _ _] Lp _ _]. destruct Hpt as [Lx _ _ _]. unfold r_x, belt, bprob, biter. cbn [e_pr e_it i_x i_s i_z i_y pr_Q pr_p pr_G pr_h pr_A pr_b pr_F].
  match goal with |- vadd (vadd ?a _) _ = _ => set (yz := a) end.
  rewrite mv_vsub by lia. rewrite vsub_vadd, !vadd_assoc. f_equal. f_equal.
  rewrite (vadd_comm (pr_p _)), <- vadd_assoc, (vadd_comm (vopp _)), <- vsub_vadd, vsub_self, mv_length. rewrite LQ. now apply vadd_zeros_l.
Qed.
Lemma r_z_belt : r_z (belt e) = r_z e.
Proof.
  destruct Hsz as [[_ [LG _] _ _] _ _ _]. destruct Hpt as [Lx _ _ _]. destruct Hu as [UG _]. unfold r_z, belt, bprob, biter. cbn [e_pr e_it i_x i_s i_z i_y pr_Q pr_p pr_G pr_h pr_A pr_b pr_F].
  now rewrite (G_unseen _ _ nineq).
Qed.
Lemma r_y_belt : r_y neq (belt e) = r_y neq e.
Proof.
  destruct Hsz as [[_ _ _ [LA _]] _ _ _]. destruct Hpt as [Lx _ _ _]. destruct Hu as [_ UA]. unfold r_y, belt, bprob, biter. cbn [e_pr e_it i_x i_s i_z i_y pr_Q pr_p pr_G pr_h pr_A pr_b pr_F].
  now rewrite (G_unseen _ _ neq).
Qed.
Lemma resid_belt : resid_of nz nineq neq (belt e) = resid_of nz nineq neq e.
Proof. unfold resid_of. rewrite r_x_belt, r_z_belt, r_y_belt. reflexivity. Qed.
Lemma aff_belt : aff_dir la nz neq (belt e) = aff_dir la nz neq e.
Proof. unfold aff_dir. rewrite r_x_belt, r_z_belt, r_y_belt. reflexivity. Qed.
End Elt.

Lemma map2_map_l {A B C D} (f : A -> B) (g : B -> C -> D) l m : map2 g (map f l) m = map2 (fun a c => g (f a) c) l m.
Proof. revert m. induction l as [|a l IH]; intros [|c m]; cbn; auto. now rewrite IH. Qed.
Lemma map2_map_out {A B C D} (f : C -> D) (g : A -> B -> C) l m : map f (map2 g l m) = map2 (fun a b => f (g a b)) l m.
Proof. revert m. induction l as [|a l IH]; intros [|c m]; cbn; auto. now rewrite IH. Qed.
Lemma map2_ext {A B C} (f g : A -> B -> C) l m : (forall a b, f a b = g a b) -> map2 f l m = map2 g l m.
Proof. intros H. revert m. induction l as [|a l IH]; intros [|c m]; cbn; auto. now rewrite H, IH. Qed.

Definition ready (e : elt R) : Prop := sized nz nineq neq (e_pr e) /\ point nz nineq neq (e_it e) /\ unseen (e_pr e).
Definition bpair (p : elt R * dirs R) : elt R * dirs R := (belt (fst p), snd p).

Lemma affs_belt es : Forall ready es -> batch_affs la nz neq (map belt es) = map bpair (batch_affs la nz neq es).
Proof.
  intros H. unfold batch_affs. rewrite !map_map. apply map_ext_in. intros e Hin. rewrite Forall_forall in H. destruct (H e Hin) as (H1 & H2 & H3).
  unfold bpair. cbn [fst snd]. now rewrite aff_belt.
Qed.
Lemma alphas_belt k ds : alphas k (map bpair ds) = alphas k ds.
Proof.
  unfold alphas. rewrite !map_map.
  f_equal; (f_equal; apply map_ext; intros [e [[[dx dsv] dz] dy]]; reflexivity).
Qed.
Lemma dirs_belt es : Forall ready es -> batch_dirs la nz nineq neq (map belt es) = map bpair (batch_dirs la nz nineq neq es).
Proof.
  intros H. unfold batch_dirs. cbv zeta. rewrite affs_belt by auto. rewrite alphas_belt, map2_map_l, map2_map_out. apply map2_ext. intros [e d] a. reflexivity.
Qed.
Lemma step_belt es : Forall ready es -> batch_step la nz nineq neq (map belt es) = map belt (batch_step la nz nineq neq es).
Proof.
  intros H. unfold batch_step. cbv zeta. rewrite dirs_belt by auto. rewrite alphas_belt, map2_map_l, map2_map_out. apply map2_ext. intros [e [[[dx dsv] dz] dy]] a.
  unfold bpair, belt, elt_with_it, iter_step, biter. cbn [fst snd e_pr e_it e_QLU e_SLU e_R i_x i_s i_z i_y]. do 2 f_equal. apply vsub_vadd_swap.
Qed.
Lemma factor_belt es : factor_batch la nineq neq (map belt es) = rmap (map belt) (factor_batch la nineq neq es).
Proof.
  unfold factor_batch. apply mapM_rmap. intros e _. cbn [belt e_SLU e_R]. change (d_of (belt e)) with (d_of e).
  destruct (factor_kkt la nineq neq (e_SLU e) (e_R e) (d_of e)); reflexivity.
Qed.

Definition bbest (b : best_t R) : best_t R := map (fun p => (fst p, biter (snd p))) b.
Definition bout (r : option (best_t R) * list (elt R)) : option (best_t R) * list (elt R) := (option_map bbest (fst r), map belt (snd r)).
Lemma improved_belt b es : Forall ready es -> improved nz nineq neq (bbest b) (map belt es) = improved nz nineq neq b es.
Proof.
  unfold improved. intros H. revert b. induction H as [|e es (H1 & H2 & H3) _ IH]; intros [|p b]; unfold bbest in *; cbn [map map2 fst snd]; auto. rewrite IH. now rewrite resid_belt.
Qed.
Lemma update_belt b es : Forall ready es -> best_update nz nineq neq (bbest b) (map belt es) = bbest (best_update nz nineq neq b es).
Proof.
  unfold best_update. intros H. revert b. induction H as [|e es (H1 & H2 & H3) _ IH]; intros [|p b]; unfold bbest in *; cbn [map map2 fst snd]; auto. rewrite IH. f_equal. rewrite resid_belt by auto.
  destruct (nltb _ _); reflexivity.
Qed.
Lemma first_belt es : Forall ready es -> map (fun e => (resid_of nz nineq neq e, e_it e)) (map belt es) = bbest (map (fun e => (resid_of nz nineq neq e, e_it e)) es).
Proof. intros H. unfold bbest. rewrite !map_map. apply map_ext_in. intros e Hin. rewrite Forall_forall in H. destruct (H e Hin) as (H1 & H2 & H3). cbn [fst snd]. now rewrite resid_belt. Qed.
Lemma bbest_fst b : map fst (bbest b) = map fst b.
Proof. unfold bbest. rewrite map_map. apply map_ext. reflexivity. Qed.

Lemma good_ready ps es : Forall unseen ps -> Forall2 (good la nz nineq neq) ps es -> Forall ready es.
Proof.
  intros Hu H. induction H as [|pr e ps es (G1 & G2 & _) _ IH]; constructor.
  - apply Forall_cons_iff in Hu. destruct Hu as [Hu _]. split; [apply G1|]. split; [apply G1|]. now rewrite G2.
  - apply IH. now apply Forall_cons_iff in Hu.
Qed.
Lemma mu_belt es : map (mu_of nineq) (map belt es) = map (mu_of nineq) es.
Proof. rewrite map_map. apply map_ext. reflexivity. Qed.

Lemma loop_belt k eps lim ps : Forall unseen ps -> forall es best nni, Forall2 (good la nz nineq neq) ps es ->
  pd_loop la nz nineq neq k eps lim (map belt es) (option_map bbest best) nni = rmap bout (pd_loop la nz nineq neq k eps lim es best nni).
Proof.
  intros Hu. induction k as [|k IH]; intros es best nni H; cbn [pd_loop].
  - destruct best; reflexivity.
  - pose proof (good_ready _ _ Hu H) as Hr. rewrite factor_belt. destruct (factor_batch la nineq neq es) as [es1|er] eqn:E; cbn [rmap]; [|destruct best; reflexivity].
    rewrite mu_belt.
    pose proof (step_good la HL nz nineq neq Hn ps es es1 H E) as Hg.
    assert (Hr1 : Forall ready es1).
    { assert (HO : Forall (elt_ok la nz nineq neq) es). { clear - H. induction H as [|pr e ps es [H _] _ IH]; constructor; auto. }
      pose proof (factor_batch_ok la HL nz nineq neq Hn es es1 HO E) as H1. clear - H1 Hr. induction H1 as [|e e1 es es1 (F1 & F2 & F3) _ IH]; constructor.
      - apply Forall_cons_iff in Hr. destruct Hr as [(R1 & R2 & R3) _]. unfold ready. rewrite F2, F3. auto.
      - apply IH. now apply Forall_cons_iff in Hr. }
    rewrite step_belt by exact Hr1.
    destruct best as [b|]; cbn [option_map].
    + rewrite update_belt, improved_belt, bbest_fst by auto. destruct (_ || _ || _); [reflexivity|]. now rewrite <- IH.
    + rewrite first_belt, bbest_fst by auto. destruct (_ || _ || _); [reflexivity|]. now rewrite <- IH.
Qed.

(** the initial point *)
Lemma init_belt pr Q_LU S_LU Rm : sized nz nineq neq pr -> unseen pr -> factors nz (pr_Q pr) Q_LU ->
  init_elt la nz nineq neq (bprob pr) Q_LU S_LU Rm = rmap belt (init_elt la nz nineq neq pr Q_LU S_LU Rm).
Proof.
  intros [[[WQ _] WG _ WA] Lp Lh Lb] [UG UA] HQ. unfold init_elt. cbv zeta. destruct (factor_kkt la nineq neq S_LU Rm (vones nineq)) as [SL|er]; [|reflexivity]. cbn [bind].
  assert (LQ : length (mv (pr_Q pr) V) = nz) by (rewrite mv_length; apply WQ).
  assert (E1 : la_getrs la Q_LU (mv (pr_Q pr) V) = V). { apply (getrs_unique la HL nz (pr_Q pr)); auto. }
  assert (K : forall x, length x = nz -> la_getrs la Q_LU (vadd x (mv (pr_Q pr) V)) = vadd (la_getrs la Q_LU x) V).
  { intros x Lx. rewrite (getrs_vadd la HL nz (pr_Q pr)) by auto. now rewrite E1. }
  assert (K' : forall x, length x = nz -> la_getrs la Q_LU (vsub x (mv (pr_Q pr) V)) = vsub (la_getrs la Q_LU x) V).
  { intros x Lx. rewrite !vsub_vadd. rewrite (getrs_vadd la HL nz (pr_Q pr)) by (rewrite ?vopp_length; auto). f_equal.
    apply (getrs_unique la HL nz (pr_Q pr)); rewrite ?vopp_length; auto. apply mv_vopp. }
  assert (Lg : forall x, length x = nz -> length (la_getrs la Q_LU x) = nz). { intros x Lx. now apply (getrs_solves la HL nz (pr_Q pr)). }
  unfold solve_kkt. cbn [bprob pr_Q pr_p pr_G pr_h pr_A pr_b pr_F]. rewrite K by auto. rewrite (G_unseen' (pr_G pr) _ nineq) by (auto; apply WG).
  rewrite (G_unseen' (pr_A pr) _ neq) by (auto; apply WA).
  set (hG := vsub (vadd (mv (pr_G pr) (la_getrs la Q_LU (pr_p pr))) _) _).
  set (w := vopp (la_getrs la SL _)). cbn [rmap belt bprob e_pr e_it e_QLU e_SLU e_R biter i_x i_s i_z i_y].
  unfold belt, biter. cbn [e_pr e_it e_QLU e_SLU e_R i_x i_s i_z i_y]. do 3 f_equal.
  rewrite vopp_vadd.
  assert (S : forall a b c : vecR, vsub (vadd a (vopp b)) c = vsub (vsub a c) b). { intros a b c. rewrite !vsub_vadd, !vadd_assoc. f_equal. apply vadd_comm. }
  assert (S2 : forall a b c : vecR, vsub (vsub a b) c = vsub (vsub a c) b). { intros a b c. rewrite !vsub_vadd, !vadd_assoc. f_equal. apply vadd_comm. }
  rewrite S. destruct (Nat.ltb 0 neq).
  - rewrite S2. rewrite K'; [reflexivity|]. rewrite !vsub_length, vopp_length, !vm_length. lia.
  - rewrite K'; [reflexivity|]. rewrite !vsub_length, vopp_length, !vm_length. lia.
Qed.

Definition bsaved (sv : lcp_saved R) : lcp_saved R := mkSaved (sv_nz sv) (sv_nineq sv) (sv_neq sv) (map biter (sv_best sv)) (map belt (sv_elts sv)).
Theorem forward_boost o ps : Forall (sized nz nineq neq) ps -> Forall unseen ps ->
  lcp_forward la o nz nineq neq (map bprob ps) =
  rmap (option_map (fun r => (map (fun x => vsub x V) (fst r), bsaved (snd r)))) (lcp_forward la o nz nineq neq ps).
Proof.
  intros Hs Hu. unfold lcp_forward. destruct (negb _); [reflexivity|]. destruct (Nat.eqb nineq 0); [reflexivity|].
  rewrite (mapM_rmap (fun pr => pre_factor_kkt la nz nineq neq (pr_Q pr) (pr_G pr) (pr_F pr) (pr_A pr)) _ bprob (fun x => x)).
  2:{ intros pr _. cbn [bprob pr_Q pr_G pr_F pr_A]. destruct (pre_factor_kkt _ _ _ _ _ _ _ _); reflexivity. }
  destruct (mapM _ ps) as [fs|er] eqn:Ef; [|reflexivity]. cbn [rmap bind]. rewrite map_id.
  unfold pd_forward.
  assert (E : mapM (fun '(pr, (Q_LU, S_LU, R)) => init_elt la nz nineq neq pr Q_LU S_LU R) (combine (map bprob ps) fs)
            = rmap (map belt) (mapM (fun '(pr, (Q_LU, S_LU, R)) => init_elt la nz nineq neq pr Q_LU S_LU R) (combine ps fs))).
  { pose proof (proj1 (mapM_Forall2 _ _ _) Ef) as F. replace (combine (map bprob ps) fs) with (map (fun '(pr, f) => (bprob pr, f)) (combine ps fs)).
    2:{ clear. revert fs. induction ps as [|pr ps IH]; intros [|f fs]; cbn; auto. now rewrite IH. }
    apply mapM_rmap. intros [pr [[QL SL] Rm]] Hin.
    assert (Hpr : sized nz nineq neq pr /\ unseen pr). { rewrite Forall_forall in Hs, Hu. split; [apply Hs|apply Hu]; eapply in_combine_l; eauto. }
    apply init_belt; try apply Hpr.
    assert (Epf : pre_factor_kkt la nz nineq neq (pr_Q pr) (pr_G pr) (pr_F pr) (pr_A pr) = Ok (QL, SL, Rm)).
    { clear - F Hin. induction F as [|a b ps fs Hab _ IH]; [contradiction|]. destruct Hin as [E|Hin]; [injection E as -> ->; exact Hab|auto]. }
    apply (pre_factor_ok la nz nineq neq _ _ _ _ QL SL Rm HL (sz_mat _ _ _ _ (proj1 Hpr)) Epf). }
  rewrite E. destruct (mapM _ (combine ps fs)) as [es|er] eqn:Es; [|reflexivity]. cbn [rmap bind].
  assert (Hg : Forall2 (good la nz nineq neq) ps es). { apply (start_good la HL); auto. unfold start. rewrite Ef. cbn [bind]. exact Es. }
  rewrite (loop_belt _ _ _ ps Hu es None 0 Hg : pd_loop la nz nineq neq _ _ _ (map belt es) None 0 = _).
  destruct (pd_loop la nz nineq neq _ _ _ es None 0) as [[best es']|er]; [|reflexivity]. cbn [rmap bind bout fst snd].
  destruct best as [b|]; [|reflexivity]. cbn [option_map rmap]. unfold bsaved. cbn [sv_nz sv_nineq sv_neq sv_best sv_elts fst snd]. unfold bbest. rewrite !map_map. reflexivity.
Qed.
End Boost.
