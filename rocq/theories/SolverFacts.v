(** The LCP solver as a whole *)
From Coq Require Import List Arith ZArith Bool Reals Lia Lra Psatz.
From Verif Require Import Num Tensor RBase ResFacts LinAlg Lapack LapackSpec PivFacts LuFacts Pdipm Lcp KktSpec RegSpec KktFacts KktFactor KktTotal PdipmSpec PdipmFacts PdipmLoop.
Import ListNotations.
Open Scope R_scope.

(** *** factorisations *)
Lemma refactor_state la nz nineq neq Q G F A Q_LU Rm : lapack_ok la -> shaped nz nineq neq Q G F A ->
  forall ds S S', kkt_state la nz nineq neq Q G F A Q_LU S Rm -> Forall (fun d => length d = nineq) ds ->
  refactor la nineq neq S Rm ds = Ok S' -> kkt_state la nz nineq neq Q G F A Q_LU S' Rm.
Proof.
  intros HL HS. induction ds as [|d ds IH]; intros S S' H L E; cbn [refactor] in E; [now injection E as <-|].
  bind_inv E as S1 E1. apply Forall_cons_iff in L. destruct L as [L1 L2]. destruct (state_factor _ _ _ _ _ _ _ _ _ _ _ _ _ HL HS H L1 E1) as [H1 _]. eauto.
Qed.
Lemma refactor_app la nineq neq Rm ds1 : forall S ds2, refactor la nineq neq S Rm (ds1 ++ ds2) = (do S' <- refactor la nineq neq S Rm ds1; refactor la nineq neq S' Rm ds2).
Proof. induction ds1 as [|d ds IH]; intros S ds2; cbn [refactor app bind]; [reflexivity|]. destruct (factor_kkt _ _ _ _ _ _); cbn [bind]; auto. Qed.
Lemma refactor_schur la nz nineq neq Q G F A Q_LU S0 Rm ds d S : lapack_ok la -> shaped nz nineq neq Q G F A ->
  pre_factor_kkt la nz nineq neq Q G F A = Ok (Q_LU, S0, Rm) -> Forall (fun d => length d = nineq) ds -> length d = nineq ->
  refactor la nineq neq S0 Rm (ds ++ [d]) = Ok S -> factors_schur nz nineq neq Q G F A d S.
Proof.
  intros HL HS HP Hds Hd E. rewrite refactor_app in E. bind_inv E as S1 E1. cbn [refactor] in E. bind_inv E as S2 E2. injection E as <-.
  pose proof (refactor_state _ _ _ _ _ _ _ _ _ _ HL HS ds S0 S1 (pre_factor_ok _ _ _ _ _ _ _ _ _ _ _ HL HS HP) Hds E1) as HK.
  exact (proj2 (state_factor _ _ _ _ _ _ _ _ _ _ _ _ _ HL HS HK Hd E2)).
Qed.
Lemma solve_after la nz nineq neq Q G F A Q_LU S0 Rm ds d S rx rs rz ry : lapack_ok la -> shaped nz nineq neq Q G F A ->
  pre_factor_kkt la nz nineq neq Q G F A = Ok (Q_LU, S0, Rm) -> Forall (fun d => length d = nineq) ds -> length d = nineq ->
  (forall i, (i < nineq)%nat -> vget d i <> 0) ->
  refactor la nineq neq S0 Rm (ds ++ [d]) = Ok S ->
  length rx = nz -> length rs = nineq -> length rz = nineq -> length ry = neq ->
  let '(dx, ds, dz, dy) := solve_kkt la nz neq Q_LU d G A S rx rs rz ry in
  kkt_solution nz nineq neq Q G F A d rx rs rz ry dx ds dz dy.
Proof.
  intros HL HS HP Hds Hd Hd0 E L1 L2 L3 L4. pose proof (refactor_schur _ _ _ _ _ _ _ _ _ _ _ _ _ _ HL HS HP Hds Hd E) as HF.
  destruct (pre_factor_ok _ _ _ _ _ _ _ _ _ _ _ HL HS HP) as (HQ & LA & HA & _).
  exact (solve_kkt_ok la HL nz nineq neq Q G F A HS Q_LU HQ LA HA S d rx rs rz ry HF Hd Hd0 L1 L2 L3 L4).
Qed.
Lemma refactor_total la nz nineq neq Q G F A Q_LU Rm : lapack_ok la -> shaped nz nineq neq Q G F A -> well_posed nz nineq neq Q G F A ->
  forall ds S, kkt_state la nz nineq neq Q G F A Q_LU S Rm -> Forall (fun d => length d = nineq /\ pos d) ds ->
  exists S', refactor la nineq neq S Rm ds = Ok S'.
Proof.
  intros HL HS HW. induction ds as [|d ds IH]; intros S H L; cbn [refactor]; [eexists; reflexivity|].
  apply Forall_cons_iff in L. destruct L as [[L1 P1] L2].
  destruct (state_total la nz nineq neq Q G F A Q_LU S Rm d HL HS HW H L1 ltac:(intros i Hi; apply pos_get; [exact P1|lia])) as [S1 E1].
  rewrite E1. cbn [bind]. apply IH; auto. exact (proj1 (state_factor _ _ _ _ _ _ _ _ _ _ _ _ _ HL HS H L1 E1)).
Qed.

(** *** forward *)
Lemma lcp_forward_start la o nz nineq neq ps r : lcp_forward la o nz nineq neq ps = Ok r -> (0 < nineq)%nat /\
  exists es0 best es, start la nz nineq neq ps = Ok es0 /\
    pd_loop la nz nineq neq (lo_max_iter o) (lo_eps o) (lo_lim o) es0 None 0 = Ok (best, es) /\
    r = match best with None => None | Some b => Some (map (fun bi => i_x (snd bi)) b, mkSaved nz nineq neq (map snd b) es) end.
Proof.
  unfold lcp_forward. destruct (negb _); [discriminate|]. destruct (Nat.eqb_spec nineq 0) as [|Z]; [discriminate|]. intros H. bind_inv H as fs Ef. bind_inv H as be Ebe. destruct be as [best es].
  split; [lia|]. unfold pd_forward in Ebe. bind_inv Ebe as es0 E0. exists es0, best, es. split; [unfold start; rewrite Ef; cbn [bind]; exact E0|]. split; [exact Ebe|].
  destruct best; now injection H as <-.
Qed.

Section Fwd.
Variable la : lapack R.
Hypothesis HL : lapack_ok la.
Variables (o : lcp_opts R) (nz nineq neq : nat) (ps : list (prob R)) (xs : list (vec R)) (sv : lcp_saved R).
Hypothesis Hsz : Forall (sized nz nineq neq) ps.
Hypothesis Hlim : (0 < lo_lim o)%nat.
Hypothesis HF : lcp_forward la o nz nineq neq ps = Ok (Some (xs, sv)).

Lemma start_length es0 : start la nz nineq neq ps = Ok es0 -> length es0 = length ps.
Proof. unfold start. intros E. bind_inv E as fs Ef. rewrite (mapM_Ok_length _ _ _ E), combine_length, (mapM_Ok_length _ _ _ Ef). lia. Qed.

Lemma good_resid es0 j es i e pr : (0 < nineq)%nat -> start la nz nineq neq ps = Ok es0 -> visited la nz nineq neq j es0 = Ok es -> nth_error es i = Some e -> nth_error ps i = Some pr ->
  resid_of nz nineq neq e = residual nz pr (e_it e).
Proof.
  intros Hn E0 Ev Ei Ep. pose proof (visited_good la HL nz nineq neq Hn ps j es0 es (start_good la HL nz nineq neq ps es0 Hsz E0) Ev) as G. clear - G Ei Ep Hn.
  revert i Ei Ep. induction G as [|pr' e' ps es (G1 & G2 & _) _ IH]; intros [|i] Ei Ep; cbn [nth_error] in *; try discriminate; [|eauto].
  injection Ei as ->. injection Ep as ->. rewrite (resid_of_eq la nz nineq neq Hn e G1). now rewrite G2.
Qed.

Lemma forward_best : xs = map (@i_x R) (sv_best sv) /\ length (sv_best sv) = length ps /\ exists K, (1 <= K <= lo_max_iter o)%nat /\
  (forall i pr it, nth_error ps i = Some pr -> nth_error (sv_best sv) i = Some it ->
    (exists j, (j < K)%nat /\ iterate la nz nineq neq ps j i it) /\
    (forall j it', (j < K)%nat -> iterate la nz nineq neq ps j i it' -> residual nz pr it <= residual nz pr it')) /\
  (forall i j, (i < length ps)%nat -> (j < K)%nat -> exists it', iterate la nz nineq neq ps j i it') /\
  (K = lo_max_iter o \/
   (forall i it, nth_error (sv_best sv) i = Some it -> exists j, (j + lo_lim o < K)%nat /\ iterate la nz nineq neq ps j i it) \/
   (forall i pr it, nth_error ps i = Some pr -> nth_error (sv_best sv) i = Some it -> residual nz pr it < lo_eps o) \/
   (forall i it', ~ iterate la nz nineq neq ps (S K) i it') \/
   (forall i it', iterate la nz nineq neq ps (K - 1) i it' -> Rcst C_1e100 < Rabs (dot (i_s it') (i_z it') / IZR (Z.of_nat nineq)))).
Proof.
  destruct (lcp_forward_start _ _ _ _ _ _ _ HF) as (Hn & es0 & best & es & E0 & EL & ER). destruct best as [b|]; [|discriminate]. injection ER as -> ->. cbn [sv_best].
  destruct (pd_loop_first la nz nineq neq Hn es0 (lo_max_iter o) (lo_eps o) (lo_lim o) b es Hlim EL) as (K & nni & HK & (S1 & S2 & S3 & S4) & HE).
  split; [now rewrite map_map|]. split; [rewrite map_length, S3; now apply start_length|]. exists K. split; [exact HK|].
  assert (HR : forall i pr r it, nth_error ps i = Some pr -> nth_error b i = Some (r, it) -> r = residual nz pr it).
  { intros i pr r it Hp Hb. destruct (S4 i r it Hb) as [(j & _ & es1 & e & Ev & Ei & -> & ->) _]. now apply (good_resid es0 j es1 i e pr). }
  split; [|split].
  - intros i pr it Hp Hb. rewrite nth_error_map in Hb. destruct (nth_error b i) as [[r it0]|] eqn:Eb; [|discriminate]. injection Hb as ->.
    destruct (S4 i r it Eb) as [(j & Hj & es1 & e & Ev & Ei & Er & Eit) Hmin]. split.
    + exists j. split; [lia|]. exists es0, es1, e. auto.
    + intros j' it' Hj' (es0' & es2 & e2 & E0' & Ev2 & Ei2 & <-). rewrite E0 in E0'. injection E0' as <-. rewrite <- (HR i pr r it Hp Eb), <- (good_resid es0 j' es2 i e2 pr) by auto.
      apply (Hmin j' _ (e_it e2) Hj'). exists es2, e2. auto.
  - intros i j Hi Hj. destruct (S2 j Hj) as (es1 & Ev). assert (Li : (i < length es1)%nat) by (rewrite (visited_length la nz nineq neq j es0 es1 Ev), (start_length es0 E0); exact Hi).
    destruct (nth_error es1 i) as [e|] eqn:Ei; [|apply nth_error_None in Ei; lia]. exists (e_it e), es0, es1, e. auto.
  - destruct HE as [HE|[HE|[HE|[HE|HE]]]]; [left; exact HE| | | |].
    + right. left. intros i it Hb. rewrite nth_error_map in Hb. destruct (nth_error b i) as [[r it0]|] eqn:Eb; [|discriminate]. injection Hb as ->.
      destruct (S4 i r it Eb) as [(j & Hj & es1 & e & Ev & Ei & Er & Eit) _]. exists j. split; [lia|]. exists es0, es1, e. auto.
    + right. right. left. intros i pr it Hp Hb. rewrite nth_error_map in Hb. destruct (nth_error b i) as [[r it0]|] eqn:Eb; [|discriminate]. injection Hb as ->.
      rewrite <- (HR i pr r it Hp Eb). apply (HE r it). now apply nth_error_In with i.
    + right. right. right. left. intros i it' (es0' & es2 & e2 & E0' & Ev2 & _). rewrite E0 in E0'. injection E0' as <-. destruct HE as (es1 & er & Ev & Ef).
      rewrite visited_snoc, Ev in Ev2. cbn [bind] in Ev2. rewrite Ef in Ev2. discriminate.
    + right. right. right. right. intros i it' (es0' & es2 & e2 & E0' & Ev2 & Ei & <-). rewrite E0 in E0'. injection E0' as <-. destruct HE as (es1 & Ev & Ef).
      rewrite Ev in Ev2. injection Ev2 as <-. rewrite Forall_forall in Ef. apply (Ef e2). now apply nth_error_In with i.
Qed.

(** what every returned point satisfies, converged or not *)
Lemma forward_returned i it : nth_error (sv_best sv) i = Some it -> exists pr, nth_error ps i = Some pr /\
  point nz nineq neq it /\ interior it /\ mv (pr_A pr) (i_x it) = pr_b pr /\ balanced nz nineq pr it.
Proof.
  intros Hb. destruct (lcp_forward_start _ _ _ _ _ _ _ HF) as (Hn & _). destruct forward_best as (_ & HLn & K & _ & H1 & _).
  assert (Hi : (i < length ps)%nat) by (rewrite <- HLn; apply nth_error_Some; congruence). destruct (nth_error ps i) as [pr|] eqn:Ep; [|apply nth_error_None in Ep; lia].
  destruct (H1 i pr it Ep Hb) as [(j & _ & Hit) _]. destruct (iterate_good la HL nz nineq neq Hn ps j i it Hsz Hit) as (pr' & Ep' & H). rewrite Ep in Ep'. injection Ep' as <-. exists pr. auto.
Qed.
End Fwd.

(** *** residuals along the iterations *)
Lemma iterate_next la nz nineq neq ps j i it it' pr : lapack_ok la -> (0 < nineq)%nat -> Forall (sized nz nineq neq) ps -> nth_error ps i = Some pr ->
  iterate la nz nineq neq ps j i it -> iterate la nz nineq neq ps (S j) i it' -> exists a, 0 <= a <= 1 /\
  stationarity nz pr it' = vscale (1 - a) (stationarity nz pr it) /\
  inequality pr it' = vscale (1 - a) (inequality pr it) /\ equality pr it' = vscale (1 - a) (equality pr it).
Proof.
  intros HL Hn Hsz Hp (es0 & es & e & E0 & Ev & Ei & <-) (es0' & es' & e' & E0' & Ev' & Ei' & <-). rewrite E0 in E0'. injection E0' as <-.
  rewrite visited_snoc, Ev in Ev'. cbn [bind] in Ev'. bind_inv Ev' as es1 EF. injection Ev' as <-.
  pose proof (visited_good la HL nz nineq neq Hn ps j es0 es (start_good la HL nz nineq neq ps es0 Hsz E0) Ev) as G.
  assert (HO : Forall (elt_ok la nz nineq neq) es). { clear - G. induction G as [|pr' e' ps es [H _] _ IH]; constructor; auto. }
  pose proof (factor_batch_ok la HL nz nineq neq Hn es es1 HO EF) as H1.
  destruct (batch_step_eq la nz nineq neq es1) as (cz & cs & cz2 & cs2 & C1 & C2 & C3 & C4 & EB). rewrite EB in Ei'. clear EB EF E0 Ev HO.
  rewrite nth_error_map in Ei'. revert ps i Hp Ei Ei' G Hsz. induction H1 as [|e0 e1 es es1 (F1 & F2 & F3) _ IH]; intros ps i Hp Ei Ei' G Hsz; [destruct i; discriminate|].
  inversion G as [|pr0 ? ps' ? (G1 & G2 & G3 & G4) G' Eps]; subst. destruct i as [|i]; cbn [nth_error] in *.
  - injection Ei as ->. injection Hp as <-. cbn [option_map] in Ei'. injection Ei' as <-. destruct (estep_ok la HL nz nineq neq Hn cz cs cz2 cs2 e1 C3 C4 F1) as (K1 & K2 & a & Ha & Sx & Sz & Sy & _).
    rewrite F3 in *. rewrite F2 in *. exists a. auto.
  - apply (IH ps' i); auto. now apply Forall_cons_iff in Hsz.
Qed.

(** *** totality on well-posed problems *)
Definition posed nz nineq neq (pr : prob R) := well_posed nz nineq neq (pr_Q pr) (pr_G pr) (pr_F pr) (pr_A pr).
Definition rposed nz nineq neq (pr : prob R) := regular nz nineq neq (pr_Q pr) (pr_G pr) (pr_F pr) (pr_A pr).
Section Tot.
Variable la : lapack R.
Hypothesis HL : lapack_ok la.
Variables nz nineq neq : nat.
Hypothesis Hn : (0 < nineq)%nat.
Definition wposed (e : elt R) := elt_ok la nz nineq neq e /\ rposed nz nineq neq (e_pr e).
Lemma factor_batch_total es : Forall wposed es -> exists es1, factor_batch la nineq neq es = Ok es1.
Proof.
  intros H. unfold factor_batch. induction H as [|e es [[Hs Ht Hp Hi] Hw] _ (es1 & IH)]; cbn [mapM]; [eexists; reflexivity|].
  destruct (state_regular la nz nineq neq _ _ _ _ _ _ _ (d_of e) HL (sz_mat _ _ _ _ Hs) Hw Ht (d_of_length nz nineq neq Hn e Hp) (d_of_pos nz nineq neq Hn e Hp Hi)) as [SL E].
  rewrite E. cbn [bind]. rewrite IH. cbn [bind]. eexists. reflexivity.
Qed.
Lemma step_wposed es es1 : Forall wposed es -> factor_batch la nineq neq es = Ok es1 -> Forall wposed (batch_step la nz nineq neq es1).
Proof.
  intros H E. assert (HO : Forall (elt_ok la nz nineq neq) es) by (revert H; apply Forall_impl; intros e He; apply He).
  pose proof (factor_batch_ok la HL nz nineq neq Hn es es1 HO E) as H1. destruct (batch_step_eq la nz nineq neq es1) as (cz & cs & cz2 & cs2 & C1 & C2 & C3 & C4 & ->). clear E HO.
  induction H1 as [|e e1 es es1 (F1 & F2 & F3) _ IH]; cbn [map]; constructor; apply Forall_cons_iff in H; destruct H as [H H']; [|auto].
  destruct (estep_ok la HL nz nineq neq Hn cz cs cz2 cs2 e1 C3 C4 F1) as (K1 & K2 & _). split; [exact K1|]. rewrite K2, F3. apply H.
Qed.
Lemma pd_loop_total k eps lim : forall es best nni, Forall wposed es -> (best = None -> (0 < k)%nat) ->
  exists b es', pd_loop la nz nineq neq k eps lim es best nni = Ok (Some b, es').
Proof.
  induction k as [|k IH]; intros es best nni H Hb; cbn [pd_loop].
  - destruct best as [b|]; [exists b, es; reflexivity|]. specialize (Hb eq_refl). lia.
  - destruct (factor_batch_total es H) as [es1 E]. rewrite E.
    destruct best as [b|].
    + destruct (orb _ _); [eexists _, _; reflexivity|]. apply IH; [now apply (step_wposed es)|discriminate].
    + destruct (orb _ _); [eexists _, _; reflexivity|]. apply IH; [now apply (step_wposed es)|discriminate].
Qed.
Lemma start_total ps : Forall (sized nz nineq neq) ps -> Forall (rposed nz nineq neq) ps -> exists es, start la nz nineq neq ps = Ok es /\ Forall wposed es.
Proof.
  intros Hs Hw. assert (X : exists fs es, mapM (fun pr => pre_factor_kkt la nz nineq neq (pr_Q pr) (pr_G pr) (pr_F pr) (pr_A pr)) ps = Ok fs /\
     mapM (fun '(pr, (Q_LU, S_LU, Rm)) => init_elt la nz nineq neq pr Q_LU S_LU Rm) (combine ps fs) = Ok es /\ Forall wposed es).
  { induction ps as [|pr ps IH]; [exists [], []; auto|]. apply Forall_cons_iff in Hs. apply Forall_cons_iff in Hw. destruct Hs as [Hs Hs']. destruct Hw as [Hw Hw'].
    destruct (IH Hs' Hw') as (fs & es & E1 & E2 & HP). destruct (pre_factor_regular la nz nineq neq _ _ _ _ HL (sz_mat _ _ _ _ Hs) Hw) as [[[QL SL] Rm] Ef].
    pose proof (pre_factor_ok la nz nineq neq _ _ _ _ QL SL Rm HL (sz_mat _ _ _ _ Hs) Ef) as Hst.
    destruct (state_regular la nz nineq neq _ _ _ _ _ _ _ (vones nineq) HL (sz_mat _ _ _ _ Hs) Hw Hst (vones_length nineq) ltac:(intros i Hi; rewrite vget_ones by auto; lra)) as [SL' ESL].
    assert (EI : exists e, init_elt la nz nineq neq pr QL SL Rm = Ok e).
    { unfold init_elt. cbv zeta. rewrite ESL. cbn [bind]. destruct (solve_kkt _ _ _ _ _ _ _ _ _ _ _ _) as [[[x s] z] y]. eexists. reflexivity. }
    destruct EI as [e Ee]. exists ((QL, SL, Rm) :: fs), (e :: es). cbn [mapM combine]. rewrite Ef. cbn [bind]. rewrite E1. cbn [bind]. rewrite Ee. cbn [bind]. rewrite E2. split; [reflexivity|]. split; [reflexivity|].
    constructor; [|exact HP]. destruct (init_elt_ok la HL nz nineq neq pr QL SL Rm e Hs Hst Ee) as (K1 & K2 & _). split; [exact K1|]. now rewrite K2. }
  destruct X as (fs & es & E1 & E2 & HP). exists es. split; [|exact HP]. unfold start. rewrite E1. cbn [bind]. exact E2.
Qed.
Lemma lcp_forward_regular o ps : (0 < lo_max_iter o)%nat -> Forall (sized nz nineq neq) ps -> Forall (rposed nz nineq neq) ps ->
  exists xs sv, lcp_forward la o nz nineq neq ps = Ok (Some (xs, sv)).
Proof.
  intros Hm Hs Hw. destruct (start_total ps Hs Hw) as (es & E & HP). destruct (pd_loop_total (lo_max_iter o) (lo_eps o) (lo_lim o) es None 0 HP ltac:(auto)) as (b & es' & EL).
  unfold lcp_forward. replace (Nat.ltb 0 nineq) with true by (symmetry; apply Nat.ltb_lt; exact Hn). rewrite orb_true_r. cbn [negb].
  destruct (Nat.eqb_spec nineq 0) as [Z|_]; [lia|]. unfold start in E. bind_inv E as fs Ef. rewrite Ef. cbn [bind]. unfold pd_forward. rewrite E. cbn [bind]. rewrite EL. cbn [bind]. eexists _, _. reflexivity.
Qed.
Lemma visited_total j : forall es, Forall wposed es -> exists es', visited la nz nineq neq j es = Ok es'.
Proof.
  induction j as [|j IH]; intros es H; cbn [visited]; [eexists; reflexivity|]. destruct (factor_batch_total es H) as [es1 E]. rewrite E. cbn [bind].
  apply IH. now apply (step_wposed es).
Qed.
Lemma iterate_regular ps j i : Forall (sized nz nineq neq) ps -> Forall (rposed nz nineq neq) ps -> (i < length ps)%nat ->
  exists it, iterate la nz nineq neq ps j i it.
Proof.
  intros Hs Hw Hi. destruct (start_total ps Hs Hw) as (es & E & HP). destruct (visited_total j es HP) as [es' Ev].
  pose proof (visited_good la HL nz nineq neq Hn ps j es es' (start_good la HL nz nineq neq ps es Hs E) Ev) as G.
  assert (L : length es' = length ps) by (clear - G; induction G; cbn; congruence).
  destruct (nth_error es' i) as [e|] eqn:Ei; [|apply nth_error_None in Ei; lia]. exists (e_it e), es, es', e. auto.
Qed.
Lemma posed_regular ps : Forall (sized nz nineq neq) ps -> Forall (posed nz nineq neq) ps -> Forall (rposed nz nineq neq) ps.
Proof.
  intros Hs Hw. induction Hs as [|pr ps Hs _ IH]; [constructor|]. apply Forall_cons_iff in Hw. destruct Hw as [Hw Hw'].
  constructor; [exact (well_posed_regular _ _ _ _ _ _ _ (sz_mat _ _ _ _ Hs) Hw)|auto].
Qed.
Lemma lcp_forward_total o ps : (0 < lo_max_iter o)%nat -> Forall (sized nz nineq neq) ps -> Forall (posed nz nineq neq) ps ->
  exists xs sv, lcp_forward la o nz nineq neq ps = Ok (Some (xs, sv)).
Proof. intros Hm Hs Hw. exact (lcp_forward_regular o ps Hm Hs (posed_regular ps Hs Hw)). Qed.
Lemma iterate_total ps j i : Forall (sized nz nineq neq) ps -> Forall (posed nz nineq neq) ps -> (i < length ps)%nat ->
  exists it, iterate la nz nineq neq ps j i it.
Proof. intros Hs Hw. exact (iterate_regular ps j i Hs (posed_regular ps Hs Hw)). Qed.
End Tot.

(** *** the residual as a certificate *)
Lemma norm2_nonneg v : 0 <= norm2 v. Proof. apply sqrt_pos. Qed.
Lemma norm2_zero v : norm2 v = 0 -> v = vzeros (length v).
Proof. intros H. apply dot_self_zero. apply sqrt_eq_0; [apply dot_self_nonneg|exact H]. Qed.
Lemma dot_nonneg (s z : vecR) : Forall (fun a => 0 <= a) s -> Forall (fun a => 0 <= a) z -> 0 <= dot s z.
Proof.
  revert z. induction s as [|a s IH]; intros [|b z] Hs Hz; try (rewrite ?dot_nil_l, ?dot_nil_r; lra). apply Forall_cons_iff in Hs. apply Forall_cons_iff in Hz.
  destruct Hs as [Ha Hs]. destruct Hz as [Hb Hz]. rewrite dot_cons. pose proof (IH z Hs Hz). nra.
Qed.
Lemma dot_zero_compl (s z : vecR) : Forall (fun a => 0 <= a) s -> Forall (fun a => 0 <= a) z -> dot s z <= 0 -> forall i, vget s i * vget z i = 0.
Proof.
  revert z. induction s as [|a s IH]; intros [|b z] Hs Hz H i; try (unfold vget; destruct i; cbn; rnum; ring).
  apply Forall_cons_iff in Hs. apply Forall_cons_iff in Hz. destruct Hs as [Ha Hs]. destruct Hz as [Hb Hz]. rewrite dot_cons in H. pose proof (dot_nonneg s z Hs Hz) as P.
  assert (P2 : 0 <= a * b) by nra. destruct i as [|i]; [unfold vget; cbn; lra|]. apply (IH z Hs Hz); lra.
Qed.
Lemma vget_norm (v : vecR) i : Rabs (vget v i) <= norm2 v.
Proof.
  unfold norm2. apply Rsqr_incr_0_var; [|apply sqrt_pos]. rewrite <- Rsqr_abs, Rsqr_sqrt by apply dot_self_nonneg. unfold Rsqr.
  revert i. induction v as [|a v IH]; intros i; [unfold vget; destruct i; cbn; unfold dot; cbn; rnum; lra|]. rewrite dot_cons. pose proof (dot_self_nonneg v) as P. pose proof (Rle_0_sqr a) as P2. unfold Rsqr in P2.
  destruct i as [|i]; [unfold vget; cbn; lra|]. specialize (IH i). unfold vget in *. cbn [nth]. unfold vec in *. lra.
Qed.
Lemma residual_bounds nz pr it r : Forall (fun a => 0 <= a) (i_s it) -> Forall (fun a => 0 <= a) (i_z it) -> residual nz pr it <= r ->
  norm2 (stationarity nz pr it) <= r /\ norm2 (inequality pr it) <= r /\ norm2 (equality pr it) <= r /\ 0 <= dot (i_s it) (i_z it) <= r.
Proof.
  intros Hs Hz H. unfold residual in H. pose proof (norm2_nonneg (stationarity nz pr it)). pose proof (norm2_nonneg (inequality pr it)). pose proof (norm2_nonneg (equality pr it)). pose proof (dot_nonneg _ _ Hs Hz). lra.
Qed.
Lemma residual_zero nz nineq neq pr it : (0 < nineq)%nat -> sized nz nineq neq pr -> point nz nineq neq it ->
  Forall (fun a => 0 <= a) (i_s it) -> Forall (fun a => 0 <= a) (i_z it) -> residual nz pr it = 0 -> solves_lcp nz nineq neq pr it.
Proof.
  intros Hn Hsz Hpt Hs Hz H. destruct (residual_bounds nz pr it 0 Hs Hz ltac:(lra)) as (B1 & B2 & B3 & B4).
  pose proof (norm2_nonneg (stationarity nz pr it)). pose proof (norm2_nonneg (inequality pr it)). pose proof (norm2_nonneg (equality pr it)).
  constructor; auto.
  - rewrite (norm2_zero (stationarity nz pr it)) by lra. f_equal. now apply (stationarity_length nz nineq neq).
  - rewrite (norm2_zero (inequality pr it)) by lra. f_equal. now apply (inequality_length nz nineq neq).
  - apply vsub_diag. { rewrite mv_length. transitivity neq; [apply Hsz|symmetry; apply Hsz]. }
    fold (equality pr it). rewrite (norm2_zero (equality pr it)) by lra. f_equal. rewrite mv_length. rewrite (equality_length nz nineq neq) by auto. symmetry. apply Hsz.
  - apply dot_zero_compl; auto. lra.
Qed.
