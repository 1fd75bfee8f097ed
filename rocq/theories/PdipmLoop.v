(** The interior-point loop over whole runs *)
From Coq Require Import List Arith ZArith Bool Reals Lia Lra Psatz.
From Verif Require Import Num Tensor RBase ResFacts LinAlg Lapack LapackSpec Pdipm Lcp KktSpec KktFactor PdipmSpec PdipmFacts.
Import ListNotations.
Open Scope R_scope.

Section Run.
Variable la : lapack R.
Hypothesis HL : lapack_ok la.
Variables nz nineq neq : nat.
Hypothesis Hn : (0 < nineq)%nat.
Notation elt_ok := (elt_ok la nz nineq neq).
Notation visited := (visited la nz nineq neq).
Notation factor_batch := (factor_batch la nineq neq).
Notation batch_step := (batch_step la nz nineq neq).
Notation balanced := (balanced nz nineq).

Lemma visited_snoc k es : visited (S k) es = (do b <- visited k es; do b1 <- factor_batch b; Ok (batch_step b1)).
Proof.
  revert es. induction k as [|k IH]; intros es; cbn [PdipmSpec.visited].
  - reflexivity.
  - destruct (factor_batch es) as [es1|er]; [|reflexivity]. cbn [bind]. exact (IH (batch_step es1)).
Qed.

(** everything true of the start that one iteration keeps, holds at every visited batch *)
Definition good (pr : prob R) (e : elt R) : Prop :=
  elt_ok e /\ e_pr e = pr /\ mv (pr_A pr) (i_x (e_it e)) = pr_b pr /\ balanced pr (e_it e).

Lemma Forall2_map_r {A B C} (P : A -> C -> Prop) (f : B -> C) l m : Forall2 (fun a b => P a (f b)) l m -> Forall2 P l (map f m).
Proof. intros H. induction H; cbn; constructor; auto. Qed.
Lemma Forall2_trans {A B C} (P : A -> B -> Prop) (Q : B -> C -> Prop) (S : A -> C -> Prop) l m n :
  (forall a b c, P a b -> Q b c -> S a c) -> Forall2 P l m -> Forall2 Q m n -> Forall2 S l n.
Proof. intros HPQ H. revert n. induction H; intros n H'; inversion H'; subst; constructor; eauto. Qed.

Lemma step_good ps es es1 : Forall2 good ps es -> factor_batch es = Ok es1 -> Forall2 good ps (batch_step es1).
Proof.
  intros H E. assert (HO : Forall elt_ok es). { clear E. induction H as [|pr e ps es [H _] _ IH]; constructor; auto. }
  pose proof (factor_batch_ok la HL nz nineq neq Hn es es1 HO E) as H1.
  destruct (batch_step_eq la nz nineq neq es1) as (cz & cs & cz2 & cs2 & C1 & C2 & C3 & C4 & ->).
  apply Forall2_map_r. refine (Forall2_trans _ _ _ _ _ _ _ H H1). intros pr e e1 (G1 & G2 & G3 & G4) (F1 & F2 & F3).
  destruct (estep_ok la HL nz nineq neq Hn cz cs cz2 cs2 e1 C3 C4 F1) as (K1 & K2 & a & Ha & Sx & Sz & Sy & B).
  rewrite F3, G2 in *. rewrite F2 in *. split; [exact K1|]. split; [exact K2|]. split; [|auto].
  pose proof (eo_sz _ _ _ _ _ G1) as Hsz. rewrite G2 in Hsz. pose proof Hsz as [[_ _ _ [LA _]] _ _ Lb].
  assert (E0 : equality pr (e_it e) = vzeros neq). { unfold equality. rewrite G3, vsub_self. now f_equal. }
  rewrite E0, vscale_zeros in Sy. unfold equality in Sy.
  assert (Lm : length (mv (pr_A pr) (i_x (e_it (estep la nz nineq neq cz cs cz2 cs2 e1)))) = neq) by (rewrite mv_length; exact LA).
  apply vsub_diag; [congruence|]. rewrite Lm. exact Sy.
Qed.
Lemma visited_good ps k es es' : Forall2 good ps es -> visited k es = Ok es' -> Forall2 good ps es'.
Proof.
  revert es. induction k as [|k IH]; intros es H E; cbn [PdipmSpec.visited] in E; [injection E as <-; exact H|].
  bind_inv E as es1 E1. exact (IH _ (step_good ps es es1 H E1) E).
Qed.
Lemma start_good ps es : Forall (sized nz nineq neq) ps -> start la nz nineq neq ps = Ok es -> Forall2 good ps es.
Proof.
  intros H E. unfold start in E. bind_inv E as fs Ef. apply mapM_Forall2 in Ef. revert es E.
  induction Ef as [|pr f ps fs E1 _ IH]; intros es E; cbn [combine mapM] in E.
  - injection E as <-. constructor.
  - apply Forall_cons_iff in H. destruct H as [H1 H2]. destruct f as [[QL SL] Rm]. bind_inv E as e Ee. bind_inv E as es2 Ees. injection E as <-.
    constructor; [|now apply IH]. pose proof (pre_factor_ok la nz nineq neq _ _ _ _ QL SL Rm HL (sz_mat _ _ _ _ H1) E1) as Hst.
    destruct (init_elt_ok la HL nz nineq neq pr QL SL Rm e H1 Hst Ee) as (K1 & K2 & K3 & K4). split; auto.
Qed.

Lemma iterate_good ps j i it : Forall (sized nz nineq neq) ps -> iterate la nz nineq neq ps j i it ->
  exists pr, nth_error ps i = Some pr /\ point nz nineq neq it /\ interior it /\ mv (pr_A pr) (i_x it) = pr_b pr /\ balanced pr it.
Proof.
  intros H (es0 & es & e & E0 & Ev & Ei & <-). pose proof (visited_good ps j es0 es (start_good ps es0 H E0) Ev) as G.
  clear - G Ei. revert i Ei. induction G as [|pr e0 ps es (G1 & G2 & G3 & G4) _ IH]; intros [|i] Ei; cbn [nth_error] in *; try discriminate; [|auto].
  injection Ei as ->. exists pr. split; [reflexivity|]. destruct G1. auto.
Qed.

(** *** residuals *)
Lemma dot_pos_nonneg (s z : vecR) : pos s -> pos z -> 0 <= dot s z.
Proof.
  revert z. induction s as [|a s IH]; intros [|b z] Hs Hz; try (rewrite ?dot_nil_l, ?dot_nil_r; lra). apply Forall_cons_iff in Hs. apply Forall_cons_iff in Hz.
  destruct Hs as [Ha Hs]. destruct Hz as [Hb Hz]. rewrite dot_cons. pose proof (IH z Hs Hz). nra.
Qed.
Lemma norm2_nil : norm2 [] = 0.
Proof. unfold norm2, dot. cbn. apply sqrt_0. Qed.
Lemma resid_of_eq e : elt_ok e -> resid_of nz nineq neq e = residual nz (e_pr e) (e_it e).
Proof.
  intros [Hsz _ Hpt [I1 I2]]. unfold resid_of, residual. rewrite r_x_eq with (nineq := nineq) by auto. rewrite r_z_eq. unfold vnorm. fold (norm2 (inequality (e_pr e) (e_it e))). fold (norm2 (stationarity nz (e_pr e) (e_it e))).
  replace (if Nat.ltb 0 neq then nsqrt (dot (r_y neq e) (r_y neq e)) else 0%num) with (norm2 (equality (e_pr e) (e_it e))).
  2:{ rewrite (r_y_eq nz nineq) by auto. destruct (Nat.ltb_spec 0 neq) as [Z|Z]; [reflexivity|]. pose proof (equality_length nz nineq neq Hn _ (e_it e) Hsz) as L.
      destruct (equality (e_pr e) (e_it e)); [apply norm2_nil|cbn in L; lia]. }
  rnum. f_equal. unfold mu_of. rnum. pose proof (dot_pos_nonneg _ _ I1 I2) as D.
  assert (Np : 0 < IZR (Z.of_nat nineq)) by (apply IZR_lt; lia).
  rewrite Rabs_pos_eq; [field; lra|]. apply Rmult_le_pos; [exact D|]. apply Rlt_le, Rinv_0_lt_compat, Np.
Qed.

(** *** best iterate *)
Variable es0 : list (elt R).
Definition res_at (j i : nat) (r : R) (it : iter R) : Prop :=
  exists es e, visited j es0 = Ok es /\ nth_error es i = Some e /\ r = resid_of nz nineq neq e /\ it = e_it e.
Definition summ (K : nat) (b : best_t R) (nni : nat) : Prop :=
  (nni < K)%nat /\ (forall j, (j < K)%nat -> exists es, visited j es0 = Ok es) /\ length b = length es0 /\
  forall i r it, nth_error b i = Some (r, it) ->
    (exists j, (j < K - nni)%nat /\ res_at j i r it) /\
    (forall j r' it', (j < K)%nat -> res_at j i r' it' -> r <= r').

Lemma batch_step_length es : length (batch_step es) = length es.
Proof. destruct (batch_step_eq la nz nineq neq es) as (cz & cs & cz2 & cs2 & _ & _ & _ & _ & ->). apply map_length. Qed.
Lemma visited_length k es es' : visited k es = Ok es' -> length es' = length es.
Proof.
  revert es. induction k as [|k IH]; intros es E; cbn [PdipmSpec.visited] in E; [injection E as <-; reflexivity|].
  bind_inv E as es1 E1. rewrite (IH _ E), batch_step_length. exact (mapM_Ok_length _ _ _ E1).
Qed.
Lemma nth_error_map2 {A B C} (f : A -> B -> C) l m i c : nth_error (map2 f l m) i = Some c ->
  exists a b, nth_error l i = Some a /\ nth_error m i = Some b /\ c = f a b.
Proof.
  revert m i. induction l as [|a l IH]; intros [|b m] [|i] H; cbn in H; try discriminate.
  - injection H as <-. exists a, b. auto.
  - apply IH in H. exact H.
Qed.
Lemma nth_error_map2_intro {A B C} (f : A -> B -> C) l m i a b : nth_error l i = Some a -> nth_error m i = Some b -> nth_error (map2 f l m) i = Some (f a b).
Proof. revert m i. induction l as [|a' l IH]; intros [|b' m] [|i] H1 H2; cbn in *; try discriminate; [congruence|now apply IH]. Qed.

Lemma res_at_fun j i r it r' it' : res_at j i r it -> res_at j i r' it' -> r = r' /\ it = it'.
Proof. intros (a & b & E1 & E2 & -> & ->) (a' & b' & E1' & E2' & -> & ->). rewrite E1 in E1'. injection E1' as <-. rewrite E2 in E2'. injection E2' as <-. auto. Qed.

Lemma summ_first : summ 1 (map (fun e => (resid_of nz nineq neq e, e_it e)) es0) 0.
Proof.
  split; [lia|]. split; [intros j Hj; replace j with 0%nat by lia; exists es0; reflexivity|]. split; [apply map_length|].
  intros i r it H. rewrite nth_error_map in H. destruct (nth_error es0 i) as [e|] eqn:E; [|discriminate]. injection H as <- <-.
  assert (HR : res_at 0 i (resid_of nz nineq neq e) (e_it e)) by (exists es0, e; auto).
  split; [exists 0%nat; split; [lia|exact HR]|]. intros j r' it' Hj H'. replace j with 0%nat in H' by lia. destruct (res_at_fun _ _ _ _ _ _ HR H') as [<- _]. apply Rle_refl.
Qed.
Lemma summ_next K b nni es : summ K b nni -> visited K es0 = Ok es ->
  summ (S K) (best_update nz nineq neq b es) (if existsb (fun x => x) (improved nz nineq neq b es) then 0%nat else S nni).
Proof.
  intros (H1 & H2 & H3 & H4) E. pose proof (visited_length K es0 es E) as Le. split; [destruct (existsb _ _); lia|]. split.
  { intros j Hj. destruct (Nat.eq_dec j K) as [->|]; [eauto|]. apply H2. lia. }
  split; [unfold best_update; rewrite map2_length; lia|].
  intros i r it H. unfold best_update in H. apply nth_error_map2 in H. destruct H as ([r0 it0] & e & Eb & Ee & Hc). cbn [fst] in Hc.
  assert (HR : res_at K i (resid_of nz nineq neq e) (e_it e)) by (exists es, e; auto).
  destruct (H4 i r0 it0 Eb) as [(j0 & Hj0 & Hr0) Hmin]. destruct (resid_of nz nineq neq e <? r0)%num eqn:Ei.
  - injection Hc as -> ->. apply Rltb_true in Ei. assert (X : existsb (fun x => x) (improved nz nineq neq b es) = true).
    { apply existsb_exists. exists true. split; [|reflexivity]. unfold improved. apply nth_error_In with i.
      rewrite (nth_error_map2_intro _ b es i (r0, it0) e Eb Ee). cbn [fst]. f_equal. now apply Rltb_true. }
    rewrite X. split; [exists K; split; [lia|exact HR]|]. intros j r' it' Hj H'. destruct (Nat.eq_dec j K) as [->|].
    + destruct (res_at_fun _ _ _ _ _ _ HR H') as [<- _]. apply Rle_refl.
    + exact (Rle_trans _ _ _ (Rlt_le _ _ Ei) (Hmin j r' it' ltac:(lia) H')).
  - injection Hc as -> ->. apply Rltb_false in Ei. split.
    + exists j0. split; [|exact Hr0]. destruct (existsb _ _); lia.
    + intros j r' it' Hj H'. destruct (Nat.eq_dec j K) as [->|].
      * destruct (res_at_fun _ _ _ _ _ _ HR H') as [<- _]. exact Ei.
      * apply (Hmin j r' it'); [lia|exact H'].
Qed.

(** why the loop ended after K iterations *)
Definition stopped (eps : R) (lim : nat) (b : best_t R) (K nni : nat) : Prop :=
  nni = lim \/ (forall r it, In (r, it) b -> r < eps) \/
  (exists es er, visited K es0 = Ok es /\ factor_batch es = Err er) \/
  (exists es, visited (K - 1) es0 = Ok es /\ Forall (fun e => Rcst C_1e100 < mu_of nineq e) es).

Lemma fold_max (l : list R) : forall a, a <= fold_left (fun m b => if m <? b then b else m)%num l a /\
  (forall b, In b l -> b <= fold_left (fun m b => if m <? b then b else m)%num l a).
Proof.
  induction l as [|c l IH]; intros a; cbn [fold_left]; [split; [lra|intros b []]|].
  destruct (IH (if a <? c then c else a)%num) as (H1 & H2).
  assert (Hm : a <= (if a <? c then c else a)%num /\ c <= (if a <? c then c else a)%num).
  { destruct (a <? c)%num eqn:E; [apply Rltb_true in E|apply Rltb_false in E]; lra. }
  split; [lra|]. intros b [<-|Hb]; [lra|auto].
Qed.
Lemma vmax_ge (x : vecR) a : In a x -> a <= vmax x.
Proof. destruct x as [|b x]; [intros []|]. intros [<-|H]; cbn [vmax]; [apply (proj1 (fold_max x b))|apply (proj2 (fold_max x b)); auto]. Qed.

Lemma pd_loop_summ k eps lim : forall K es b nni b' es', summ K b nni -> visited K es0 = Ok es ->
  pd_loop la nz nineq neq k eps lim es (Some b) nni = Ok (Some b', es') ->
  exists K' nni', (K <= K' <= K + k)%nat /\ summ K' b' nni' /\ ((K' = K + k)%nat \/ stopped eps lim b' K' nni').
Proof.
  induction k as [|k IH]; intros K es b nni b' es' HS HV H; cbn [pd_loop] in H.
  - injection H as <- <-. exists K, nni. split; [lia|]. split; [exact HS|]. left. lia.
  - destruct (factor_batch es) as [es1|er] eqn:EF.
    + pose proof (summ_next K b nni es HS HV) as HS'. set (nni1 := if existsb _ _ then 0%nat else S nni) in *.
      set (b1 := best_update nz nineq neq b es) in *. destruct (Nat.eqb_spec nni1 lim) as [El|El]; cbn [orb] in H.
      { injection H as <- <-. exists (S K), nni1. split; [lia|]. split; [exact HS'|]. right. now left. }
      destruct (vmax (map fst b1) <? eps)%num eqn:Ev; cbn [orb] in H.
      { injection H as <- <-. exists (S K), nni1. split; [lia|]. split; [exact HS'|]. right. right. left. intros r it Hin. apply Rltb_true in Ev.
        pose proof (vmax_ge (map fst b1) r (in_map fst _ _ Hin)). unfold vec in *. lra. }
      destruct (ncst C_1e100 <? vmin (map (mu_of nineq) es))%num eqn:Em.
      { injection H as <- <-. exists (S K), nni1. split; [lia|]. split; [exact HS'|]. right. right. right. right. exists es.
        replace (S K - 1)%nat with K by lia. split; [exact HV|]. apply Rltb_true in Em. apply Forall_forall. intros e He.
        pose proof (vmin_le (map (mu_of nineq) es) (mu_of nineq e) (in_map _ _ _ He)). rnum. unfold vec in *. lra. }
      assert (HV' : visited (S K) es0 = Ok (batch_step es1)) by (rewrite visited_snoc, HV; cbn [bind]; rewrite EF; reflexivity).
      destruct (IH (S K) _ b1 nni1 b' es' HS' HV' H) as (K' & nni' & HK & HS'' & HE). exists K', nni'. split; [lia|]. split; [exact HS''|]. destruct HE; [left; lia|now right].
    + injection H as <- <-. exists K, nni. split; [lia|]. split; [exact HS|]. right. right. right. left. exists es, er. auto.
Qed.
Lemma pd_loop_first k eps lim b' es' : (0 < lim)%nat ->
  pd_loop la nz nineq neq k eps lim es0 None 0 = Ok (Some b', es') ->
  exists K' nni', (1 <= K' <= k)%nat /\ summ K' b' nni' /\ (K' = k \/ stopped eps lim b' K' nni').
Proof.
  intros Hlim H. destruct k as [|k]; cbn [pd_loop] in H; [discriminate|]. destruct (factor_batch es0) as [es1|er] eqn:EF; [|discriminate].
  pose proof summ_first as HS. set (b1 := map _ es0) in *. destruct (Nat.eqb_spec 0 lim) as [El|El]; [lia|]. cbn [orb] in H.
  destruct (vmax (map fst b1) <? eps)%num eqn:Ev; cbn [orb] in H.
  { injection H as <- <-. exists 1%nat, 0%nat. split; [lia|]. split; [exact HS|]. right. right. left. intros r it Hin. apply Rltb_true in Ev.
    pose proof (vmax_ge (map fst b1) r (in_map fst _ _ Hin)). unfold vec in *. lra. }
  destruct (ncst C_1e100 <? vmin (map (mu_of nineq) es0))%num eqn:Em.
  { injection H as <- <-. exists 1%nat, 0%nat. split; [lia|]. split; [exact HS|]. right. right. right. right. exists es0.
    split; [reflexivity|]. apply Rltb_true in Em. apply Forall_forall. intros e He.
    pose proof (vmin_le (map (mu_of nineq) es0) (mu_of nineq e) (in_map _ _ _ He)). rnum. unfold vec in *. lra. }
  assert (HV' : visited 1 es0 = Ok (batch_step es1)) by (rewrite visited_snoc; cbn [PdipmSpec.visited bind]; rewrite EF; reflexivity).
  destruct (pd_loop_summ k eps lim 1 _ b1 0 b' es' HS HV' H) as (K' & nni' & HK & HS'' & HE). exists K', nni'. split; [lia|]. split; [exact HS''|]. destruct HE; [left; lia|now right].
Qed.
End Run.
