(** The interior-point loop: step lengths, residuals, best iterate *)
From Coq Require Import List Arith ZArith Bool Reals Lia Lra Psatz.
From Verif Require Import Num Tensor RBase ResFacts LinAlg Lapack LapackSpec Pdipm KktSpec KktFactor PdipmSpec.
Import ListNotations.
Open Scope R_scope.

(** *** minima and maxima *)
Lemma fold_min (l : list R) : forall a,
  (fold_left (fun m b => if b <? m then b else m)%num l a <= a) /\
  (forall b, In b l -> fold_left (fun m b => if b <? m then b else m)%num l a <= b) /\
  In (fold_left (fun m b => if b <? m then b else m)%num l a) (a :: l).
Proof.
  induction l as [|c l IH]; intros a; cbn [fold_left].
  - split; [lra|]. split; [intros b []|now left].
  - destruct (IH (if c <? a then c else a)%num) as (H1 & H2 & H3).
    assert (Hm : (if c <? a then c else a)%num <= a /\ (if c <? a then c else a)%num <= c).
    { destruct (c <? a)%num eqn:E; [apply Rltb_true in E|apply Rltb_false in E]; lra. }
    split; [lra|]. split.
    + intros b [<-|Hb]; [lra|auto].
    + destruct H3 as [H3|H3]; [|right; now right]. rewrite <- H3. destruct (c <? a)%num; [right; now left|now left].
Qed.
Lemma vmin_le (x : vecR) a : In a x -> vmin x <= a.
Proof. destruct x as [|b x]; [intros []|]. intros [<-|H]; cbn [vmin]; [apply (proj1 (fold_min x b))|apply (proj1 (proj2 (fold_min x b))); auto]. Qed.
Lemma vmin_in (x : vecR) : x <> [] -> In (vmin x) x.
Proof. destruct x as [|b x]; [congruence|]. intros _. apply (fold_min x b). Qed.
Lemma nmin_l (a b : R) : nmin a b <= a.
Proof. unfold nmin. destruct (b <? a)%num eqn:E; [apply Rltb_true in E|]; lra. Qed.
Lemma nmin_r (a b : R) : nmin a b <= b.
Proof. unfold nmin. destruct (b <? a)%num eqn:E; [|apply Rltb_false in E]; lra. Qed.
Lemma nmin_ge (a b c : R) : c <= a -> c <= b -> c <= nmin a b.
Proof. unfold nmin. destruct (b <? a)%num; auto. Qed.
Lemma nmin_gt (a b c : R) : c < a -> c < b -> c < nmin a b.
Proof. unfold nmin. destruct (b <? a)%num; auto. Qed.
Lemma step_cap_ge (vs : list (vecR * vecR)) : 1 <= step_cap vs.
Proof. unfold step_cap. cbv zeta. destruct (1 <? _)%num eqn:E; [apply Rltb_true in E|rnum]; rnum; lra. Qed.

(** *** get_step *)
Lemma pos_get v i : pos v -> (i < length v)%nat -> 0 < vget v i.
Proof. intros H Hi. unfold pos in H. rewrite Forall_forall in H. apply H. now apply nth_In. Qed.
Lemma pos_intro (v : vecR) : (forall i, (i < length v)%nat -> 0 < vget v i) -> pos v.
Proof. intros H. apply Forall_forall. intros a Ha. destruct (In_nth v a 0 Ha) as (i & Hi & <-). now apply H. Qed.

Lemma step1_le cap (v dv : vecR) i : length dv = length v -> (i < length v)%nat ->
  step1 cap v dv <= (if 0 <? vget dv i then cap else - vget v i / vget dv i)%num.
Proof.
  intros L Hi. unfold step1. apply vmin_le.
  pose proof (vget_map2 (fun a b => (if 0 <? b then cap else - a / b)%num) v dv i Hi ltac:(lia)) as E.
  cbv beta in E. rewrite <- E. unfold vget. apply nth_In. rewrite vmap2_length. lia.
Qed.
Lemma step1_in cap (v dv : vecR) : length dv = length v -> v <> [] -> exists i, (i < length v)%nat /\
  step1 cap v dv = (if 0 <? vget dv i then cap else - vget v i / vget dv i)%num.
Proof.
  intros L N. unfold step1. set (l := vmap2 _ v dv).
  assert (Nl : l <> []). { unfold l. destruct v; [congruence|]. destruct dv; [discriminate|]. discriminate. }
  destruct (In_nth l _ 0 (vmin_in l Nl)) as (i & Hi & E). unfold l in Hi. rewrite vmap2_length in Hi.
  exists i. split; [lia|]. rewrite <- E.
  exact (vget_map2 (fun a b => (if 0 <? b then cap else - a / b)%num) v dv i ltac:(lia) ltac:(lia)).
Qed.
Lemma step1_nonneg cap v dv : 1 <= cap -> length dv = length v -> v <> [] -> pos v -> 0 <= step1 cap v dv.
Proof.
  intros Hc L N P. destruct (step1_in cap v dv L N) as (i & Hi & ->).
  pose proof (pos_get v i P Hi). destruct (0 <? vget dv i)%num eqn:E; [lra|]. apply Rltb_false in E. rnum.
  destruct (Req_dec (vget dv i) 0) as [Z|Z]; [rewrite Z; unfold Rdiv; rewrite Rinv_0; lra|].
  replace (- vget v i / vget dv i) with (vget v i / - vget dv i) by (field; lra). apply Rlt_le, Rdiv_lt_0_compat; lra.
Qed.
Lemma step1_pos cap v dv : 1 <= cap -> length dv = length v -> v <> [] -> pos v -> Forall (fun a => a <> 0) dv -> 0 < step1 cap v dv.
Proof.
  intros Hc L N P D. destruct (step1_in cap v dv L N) as (i & Hi & ->).
  pose proof (pos_get v i P Hi). destruct (0 <? vget dv i)%num eqn:E; [lra|]. apply Rltb_false in E. rnum.
  assert (Z : vget dv i <> 0) by (rewrite Forall_forall in D; apply D; apply nth_In; lia).
  replace (- vget v i / vget dv i) with (vget v i / - vget dv i) by (field; lra). apply Rdiv_lt_0_compat; lra.
Qed.
Lemma step1_move cap (v dv : vecR) a : 1 <= cap -> length dv = length v -> pos v ->
  0 <= a -> a <= 999 / 1000 * step1 cap v dv -> pos (vadd v (vscale a dv)).
Proof.
  intros Hc L P Ha Hs. apply pos_intro. intros i Hi. rewrite vadd_length, vscale_length, L, Nat.min_id in Hi.
  rewrite vget_vadd by (rewrite ?vscale_length; lia). rewrite vget_vscale.
  pose proof (pos_get v i P Hi) as Hv. pose proof (step1_le cap v dv i L Hi) as Hl.
  destruct (0 <? vget dv i)%num eqn:E; [apply Rltb_true in E; rnum; nra|]. apply Rltb_false in E. rnum.
  destruct (Req_dec (vget dv i) 0) as [Z|Z]; [rewrite Z; lra|].
  assert (E1 : - vget v i / vget dv i * vget dv i = - vget v i) by (field; lra).
  assert (D : vget dv i < 0) by lra. nra.
Qed.

(** *** one update of the batch, element by element *)
Lemma map2_map_map {A B C D} (f : B -> C -> D) (g : A -> B) (h : A -> C) l :
  map2 f (map g l) (map h l) = map (fun x => f (g x) (h x)) l.
Proof. induction l; cbn; congruence. Qed.
Lemma map2_map_r {A C D} (f : A -> C -> D) (h : A -> C) l : map2 f l (map h l) = map (fun x => f x (h x)) l.
Proof. induction l; cbn; congruence. Qed.

Lemma vsub_swap (a b c : vecR) : vsub (vsub a b) c = vsub (vsub a c) b.
Proof. revert b c. induction a as [|x a IH]; intros [|y b] [|z c]; try reflexivity. unfold vsub in *. cbn [vmap2]. f_equal; [rnum; ring|apply IH]. Qed.
Lemma vadd_mid (a b c d : vecR) : vadd (vadd a b) (vadd c d) = vadd (vadd a c) (vadd b d).
Proof. rewrite !vadd_assoc. f_equal. rewrite <- !vadd_assoc. f_equal. apply vadd_comm. Qed.
Lemma vsub_self (v : vecR) : vsub v v = vzeros (length v).
Proof. vec_eq. ring. Qed.
Lemma shift_pos_pos (v : vecR) : pos (shift_pos v).
Proof.
  unfold shift_pos, pos. cbv zeta. destruct (vmin v <=? 0)%num eqn:E.
  - apply Rleb_true in E. apply Forall_forall. intros b Hb. apply in_map_iff in Hb. destruct Hb as (a & <- & Ha). pose proof (vmin_le v a Ha). rnum. lra.
  - apply Rleb_false in E. apply Forall_forall. intros a Ha. pose proof (vmin_le v a Ha). rnum. lra.
Qed.
Lemma shift_pos_length (v : vecR) : length (shift_pos v) = length v.
Proof. unfold shift_pos. cbv zeta. destruct (_ <=? _)%num; [apply map_length|reflexivity]. Qed.

Section Loop.
Variable la : lapack R.
Hypothesis HL : lapack_ok la.
Variables nz nineq neq : nat.
Hypothesis Hn : (0 < nineq)%nat.

Definition alpha1 (k : R -> R) (cz cs : R) (it : iter R) (d : dirs R) : R :=
  let '(_, ds, dz, _) := d in nmin (k (nmin (step1 cz (i_z it) dz) (step1 cs (i_s it) ds))) 1.
Definition total_dir (cz cs : R) (e : elt R) : dirs R :=
  let aff := aff_dir la nz neq e in
  dirs_add aff (cor_dir la nz nineq neq e aff (alpha1 (fun a => a) cz cs (e_it e) aff)).
Definition estep (cz cs cz2 cs2 : R) (e : elt R) : elt R :=
  let d := total_dir cz cs e in
  elt_with_it e (iter_step (e_it e) d (alpha1 (fun a => 999 / 1000 * a) cz2 cs2 (e_it e) d)).

Lemma alphas_eq k (l : list (elt R * dirs R)) : exists cz cs, 1 <= cz /\ 1 <= cs /\
  alphas k l = map (fun '(e, d) => alpha1 k cz cs (e_it e) d) l.
Proof.
  unfold alphas, get_step. set (vz := map (fun '(e, (_, _, dz, _)) => (i_z (e_it e), dz)) l). set (vs := map (fun '(e, (_, ds, _, _)) => (i_s (e_it e), ds)) l).
  exists (step_cap vz), (step_cap vs). split; [apply step_cap_ge|]. split; [apply step_cap_ge|].
  generalize (step_cap vz), (step_cap vs). intros cz cs. unfold vz, vs. rewrite !map_map, map2_map_map.
  apply map_ext. intros (e & [[dx ds] dz] & dy). reflexivity.
Qed.
Lemma batch_step_eq es : exists cz cs cz2 cs2, 1 <= cz /\ 1 <= cs /\ 1 <= cz2 /\ 1 <= cs2 /\
  batch_step la nz nineq neq es = map (estep cz cs cz2 cs2) es.
Proof.
  unfold batch_step, batch_dirs, batch_affs. set (affs := map (fun e => (e, aff_dir la nz neq e)) es). destruct (alphas_eq (fun a => a) affs) as (cz & cs & H1 & H2 & E). rewrite E, map2_map_r.
  match goal with |- context [alphas (fun a => (ncst C_0_999 * a)%num) ?t] => set (tot := t) end. destruct (alphas_eq (fun a => (ncst C_0_999 * a)%num) tot) as (cz2 & cs2 & H3 & H4 & E2). rewrite E2, map2_map_r.
  exists cz, cs, cz2, cs2. repeat split; auto. unfold tot, affs. rewrite !map_map. apply map_ext. intros e. reflexivity.
Qed.
(** *** invariants of one element *)
Record elt_ok (e : elt R) : Prop := {
  eo_sz : sized nz nineq neq (e_pr e);
  eo_st : kkt_state la nz nineq neq (pr_Q (e_pr e)) (pr_G (e_pr e)) (pr_F (e_pr e)) (pr_A (e_pr e)) (e_QLU e) (e_SLU e) (e_R e);
  eo_pt : point nz nineq neq (e_it e);
  eo_in : interior (e_it e) }.
Definition factored (e : elt R) : Prop :=
  elt_ok e /\ factors_schur nz nineq neq (pr_Q (e_pr e)) (pr_G (e_pr e)) (pr_F (e_pr e)) (pr_A (e_pr e)) (d_of e) (e_SLU e).

Lemma d_of_length e : point nz nineq neq (e_it e) -> length (d_of e) = nineq.
Proof. intros [_ H1 H2 _]. unfold d_of. rewrite vdiv_length. lia. Qed.
Lemma d_of_pos e : point nz nineq neq (e_it e) -> interior (e_it e) -> forall i, (i < nineq)%nat -> 0 < vget (d_of e) i.
Proof.
  intros [_ L1 L2 _] [P1 P2] i Hi. unfold d_of. rewrite vget_vdiv by lia. apply Rdiv_lt_0_compat; apply pos_get; auto; lia.
Qed.

Lemma r_x_eq e : sized nz nineq neq (e_pr e) -> point nz nineq neq (e_it e) -> r_x nz neq e = stationarity nz (e_pr e) (e_it e).
Proof.
  intros [[SQ _ _ WA] Lp _ _] [Lx _ _ Ly]. unfold r_x, stationarity. cbv zeta. destruct (Nat.ltb_spec 0 neq) as [Z|Z].
  - rewrite (vadd_comm (vm nz (i_y _) _)). rewrite (vadd_comm (vadd (mv _ _) _)). rewrite vadd_assoc. reflexivity.
  - destruct (i_y (e_it e)) as [|]; [|cbn in Ly; lia]. rewrite vm_nil, vadd_zeros_r by apply vm_length.
    rewrite (vadd_comm (vadd (mv _ _) _)), vadd_assoc. reflexivity.
Qed.
Lemma r_z_eq e : r_z e = inequality (e_pr e) (e_it e).
Proof. unfold r_z, inequality. apply vsub_swap. Qed.
Lemma r_y_eq e : sized nz nineq neq (e_pr e) -> r_y neq e = equality (e_pr e) (e_it e).
Proof.
  intros [[_ _ _ WA] _ _ _]. unfold r_y, equality. cbv zeta. destruct (Nat.ltb_spec 0 neq) as [Z|Z]; [reflexivity|].
  destruct WA as [LA _]. destruct (pr_A (e_pr e)); [reflexivity|cbn in LA; lia].
Qed.
Lemma stationarity_length pr it : sized nz nineq neq pr -> length (stationarity nz pr it) = nz.
Proof. intros [[[[LQ _] _] _ _ _] Lp _ _]. unfold stationarity. rewrite !vadd_length, !vm_length, mv_length. unfold mat, vec in *. lia. Qed.
Lemma inequality_length pr it : sized nz nineq neq pr -> point nz nineq neq it -> length (inequality pr it) = nineq.
Proof. intros [[_ [LG _] [LF _] _] _ Lh _] [_ Ls _ _]. unfold inequality. rewrite !vsub_length, vadd_length, !mv_length. unfold mat, vec in *. lia. Qed.
Lemma equality_length pr it : sized nz nineq neq pr -> length (equality pr it) = neq.
Proof. intros [[_ _ _ [LA _]] _ _ Lb]. unfold equality. rewrite vsub_length, mv_length. unfold mat, vec in *. lia. Qed.

Notation kkt_dir e rx rs rz ry d := (let '(dx, ds, dz, dy) := d in
  kkt_solution nz nineq neq (pr_Q (e_pr e)) (pr_G (e_pr e)) (pr_F (e_pr e)) (pr_A (e_pr e)) (d_of e) rx rs rz ry dx ds dz dy).

Lemma solve_elt e rx rs rz ry : factored e -> length rx = nz -> length rs = nineq -> length rz = nineq -> length ry = neq ->
  kkt_dir e rx rs rz ry (solve_kkt la nz neq (e_QLU e) (d_of e) (pr_G (e_pr e)) (pr_A (e_pr e)) (e_SLU e) rx rs rz ry).
Proof.
  intros [[Hsz (HQ & LA & HA & _) Hpt Hin] HF] L1 L2 L3 L4.
  apply (solve_kkt_ok la HL nz nineq neq _ _ _ _ (sz_mat _ _ _ _ Hsz) _ HQ LA HA); auto.
  - now apply d_of_length.
  - intros i Hi. apply Rgt_not_eq. now apply d_of_pos.
Qed.
Lemma aff_dir_ok e : factored e ->
  kkt_dir e (stationarity nz (e_pr e) (e_it e)) (i_z (e_it e)) (inequality (e_pr e) (e_it e)) (equality (e_pr e) (e_it e)) (aff_dir la nz neq e).
Proof.
  intros H. pose proof H as [[Hsz _ Hpt _] _]. unfold aff_dir. rewrite r_x_eq, r_z_eq, r_y_eq by auto.
  apply solve_elt; auto; [now apply stationarity_length|apply Hpt|now apply inequality_length|now apply equality_length].
Qed.
Lemma cor_dir_ok e aff a : factored e -> length (snd (fst (fst aff))) = nineq -> length (snd (fst aff)) = nineq ->
  exists rs, length rs = nineq /\ kkt_dir e (vzeros nz) rs (vzeros nineq) (vzeros neq) (cor_dir la nz nineq neq e aff a).
Proof.
  intros H. pose proof H as [[Hsz _ Hpt _] _]. destruct aff as [[[dx ds] dz] dy]. cbn [fst snd]. intros L1 L2. unfold cor_dir. cbv zeta.
  eexists. split; [|apply solve_elt; auto; [apply vzeros_length| |apply vzeros_length|apply vzeros_length]];
    rewrite vdiv_length, map_length, vmul_length, (pt_s _ _ _ _ Hpt); lia.
Qed.
Lemma kkt_add Q G F A d rx rs rz ry dx ds dz dy rx' rs' rz' ry' dx' ds' dz' dy' : shaped nz nineq neq Q G F A -> length d = nineq ->
  length rx = nz -> length rs = nineq -> length rz = nineq -> length ry = neq ->
  length rx' = nz -> length rs' = nineq -> length rz' = nineq -> length ry' = neq ->
  kkt_solution nz nineq neq Q G F A d rx rs rz ry dx ds dz dy ->
  kkt_solution nz nineq neq Q G F A d rx' rs' rz' ry' dx' ds' dz' dy' ->
  kkt_solution nz nineq neq Q G F A d (vadd rx rx') (vadd rs rs') (vadd rz rz') (vadd ry ry') (vadd dx dx') (vadd ds ds') (vadd dz dz') (vadd dy dy').
Proof.
  intros HS Ld Lx Ls Lz Ly Lx' Ls' Lz' Ly' [K1 K2 K3 K4 Ex Es Ez Ey] [K1' K2' K3' K4' Ex' Es' Ez' Ey'].
  destruct HS as [[[LQ _] _] [LG _] [LF _] [LA _]]. constructor.
  1-4: rewrite vadd_length; lia.
  - rewrite vopp_vadd, <- Ex, <- Ex'. rewrite mv_vadd, !vm_vadd by lia.
    generalize (mv Q dx), (mv Q dx'), (vm nz dz G), (vm nz dz' G), (vm nz dy A), (vm nz dy' A). intros a b c e f g.
    rewrite (vadd_mid a b). apply vadd_mid.
  - rewrite vopp_vadd, <- Es, <- Es'. clear - Ld K2 K3 K2' K3'. vec_eq. ring.
  - rewrite vopp_vadd, <- Ez, <- Ez'. rewrite !mv_vadd by lia. assert (LGd : length (mv G dx) = nineq) by (rewrite mv_length; exact LG). assert (LGd' : length (mv G dx') = nineq) by (rewrite mv_length; exact LG).
    assert (LFd : length (mv F dz) = nineq) by (rewrite mv_length; exact LF). assert (LFd' : length (mv F dz') = nineq) by (rewrite mv_length; exact LF).
    generalize dependent (mv F dz). generalize dependent (mv F dz'). generalize dependent (mv G dx). generalize dependent (mv G dx'). intros a b c e La Lb Lc Le _ Le'. clear - K2 K2' La Lb Lc Le Le'. vec_eq. ring.
  - rewrite vopp_vadd, <- Ey, <- Ey'. rewrite mv_vadd by lia. reflexivity.
Qed.
Lemma total_dir_ok cz cs e : factored e -> exists rs, length rs = nineq /\
  kkt_dir e (stationarity nz (e_pr e) (e_it e)) rs (inequality (e_pr e) (e_it e)) (equality (e_pr e) (e_it e)) (total_dir cz cs e).
Proof.
  intros H. pose proof H as [[Hsz _ Hpt _] _]. unfold total_dir. cbv zeta. pose proof (aff_dir_ok e H) as HA.
  destruct (cor_dir_ok e (aff_dir la nz neq e) (alpha1 (fun a => a) cz cs (e_it e) (aff_dir la nz neq e)) H) as (rs & Lrs & HC).
  { destruct (aff_dir la nz neq e) as [[[dx ds] dz] dy]. apply HA. }
  { destruct (aff_dir la nz neq e) as [[[dx ds] dz] dy]. apply HA. }
  exists (vadd (i_z (e_it e)) rs). split; [rewrite vadd_length, (pt_z _ _ _ _ Hpt); lia|].
  destruct (aff_dir la nz neq e) as [[[dx ds] dz] dy]. destruct (cor_dir la nz nineq neq e _ _) as [[[dx' ds'] dz'] dy']. cbn [dirs_add].
  pose proof (kkt_add _ _ _ _ (d_of e) _ _ _ _ _ _ _ _ _ _ _ _ _ _ _ _ (sz_mat _ _ _ _ Hsz) (d_of_length e Hpt)
    (stationarity_length _ (e_it e) Hsz) (pt_z _ _ _ _ Hpt) (inequality_length _ _ Hsz Hpt) (equality_length _ (e_it e) Hsz)
    (vzeros_length nz) Lrs (vzeros_length nineq) (vzeros_length neq) HA HC) as K.
  rewrite !vadd_zeros_r in K; auto; [now apply equality_length|now apply inequality_length|now apply stationarity_length].
Qed.

(** *** one step: interior, residuals scaled *)
Lemma point_step it d a : point nz nineq neq it ->
  (let '(dx, ds, dz, dy) := d in length dx = nz /\ length ds = nineq /\ length dz = nineq /\ length dy = neq) ->
  point nz nineq neq (iter_step it d a).
Proof.
  destruct d as [[[dx ds] dz] dy]. intros [P1 P2 P3 P4] (L1 & L2 & L3 & L4). constructor; cbn [iter_step i_x i_s i_z i_y]; rewrite vadd_length, vscale_length; lia.
Qed.
Lemma stationarity_step pr it dx ds dz dy a : sized nz nineq neq pr -> point nz nineq neq it ->
  length dx = nz -> length dz = nineq -> length dy = neq ->
  vadd (vadd (mv (pr_Q pr) dx) (vm nz dz (pr_G pr))) (vm nz dy (pr_A pr)) = vopp (stationarity nz pr it) ->
  stationarity nz pr (iter_step it (dx, ds, dz, dy) a) = vscale (1 - a) (stationarity nz pr it).
Proof.
  intros Hsz [P1 P2 P3 P4] L1 L3 L4 E. replace (1 - a) with (1 + - a) by ring. rewrite vscale_plus, vscale_1.
  replace (vscale (- a) (stationarity nz pr it)) with (vscale a (vopp (stationarity nz pr it)))
    by (rewrite vopp_scale, vscale_mult; f_equal; ring).
  rewrite <- E. unfold stationarity. cbn [iter_step i_x i_s i_z i_y].
  rewrite mv_vadd, !vm_vadd, mv_vscale, !vm_vscale, !vscale_vadd by (rewrite vscale_length; lia).
  generalize (mv (pr_Q pr) (i_x it)), (vscale a (mv (pr_Q pr) dx)), (vm nz (i_z it) (pr_G pr)), (vscale a (vm nz dz (pr_G pr))), (vm nz (i_y it) (pr_A pr)), (vscale a (vm nz dy (pr_A pr))), (pr_p pr).
  intros q q' g g' y y' p. rewrite (vadd_mid g g'). rewrite (vadd_assoc q q' p), (vadd_comm q' p), <- (vadd_assoc q p q').
  rewrite vadd_mid. f_equal. rewrite (vadd_assoc q' g' y'). reflexivity.
Qed.
Lemma inequality_step pr it dx ds dz dy a : sized nz nineq neq pr -> point nz nineq neq it ->
  length dx = nz -> length ds = nineq -> length dz = nineq ->
  vsub (vadd (mv (pr_G pr) dx) ds) (mv (pr_F pr) dz) = vopp (inequality pr it) ->
  inequality pr (iter_step it (dx, ds, dz, dy) a) = vscale (1 - a) (inequality pr it).
Proof.
  intros [[_ [LG _] [LF _] _] _ Lh _] [P1 P2 P3 P4] L1 L2 L3 E.
  replace (vscale (1 - a) (inequality pr it)) with (vadd (inequality pr it) (vscale a (vopp (inequality pr it)))).
  2:{ replace (1 - a) with (1 + - a) by ring. rewrite vscale_plus, vscale_1. f_equal. rewrite vopp_scale, vscale_mult. f_equal. ring. }
  rewrite <- E. unfold inequality. cbn [iter_step i_x i_s i_z i_y]. rewrite !mv_vadd, !mv_vscale by (rewrite vscale_length; lia).
  assert (G1 : length (mv (pr_G pr) (i_x it)) = nineq) by (rewrite mv_length; exact LG).
  assert (G2 : length (mv (pr_G pr) dx) = nineq) by (rewrite mv_length; exact LG).
  assert (F1 : length (mv (pr_F pr) (i_z it)) = nineq) by (rewrite mv_length; exact LF).
  assert (F2 : length (mv (pr_F pr) dz) = nineq) by (rewrite mv_length; exact LF).
  clear E LG LF. revert G1 G2 F1 F2. generalize (mv (pr_G pr) (i_x it)), (mv (pr_G pr) dx), (mv (pr_F pr) (i_z it)), (mv (pr_F pr) dz).
  intros g g' f f' G1 G2 F1 F2. revert P2 Lh. generalize (i_s it), (pr_h pr). intros s0 h P2' Lh. clear P1 P3 P4 L1 L3. vec_eq. ring.
Qed.
Lemma equality_step pr it dx ds dz dy a : sized nz nineq neq pr -> point nz nineq neq it -> length dx = nz ->
  mv (pr_A pr) dx = vopp (equality pr it) ->
  equality pr (iter_step it (dx, ds, dz, dy) a) = vscale (1 - a) (equality pr it).
Proof.
  intros [[_ _ _ [LA _]] _ _ Lb] [P1 P2 P3 P4] L1 E.
  replace (vscale (1 - a) (equality pr it)) with (vadd (equality pr it) (vscale a (vopp (equality pr it)))).
  2:{ replace (1 - a) with (1 + - a) by ring. rewrite vscale_plus, vscale_1. f_equal. rewrite vopp_scale, vscale_mult. f_equal. ring. }
  rewrite <- E. unfold equality. cbn [iter_step i_x i_s i_z i_y]. rewrite !mv_vadd, !mv_vscale by (rewrite vscale_length; lia).
  assert (G1 : length (mv (pr_A pr) (i_x it)) = neq) by (rewrite mv_length; exact LA).
  assert (G2 : length (mv (pr_A pr) dx) = neq) by (rewrite mv_length; exact LA).
  clear E LA. revert G1 G2. generalize (mv (pr_A pr) (i_x it)), (mv (pr_A pr) dx).
  intros g g' G1 G2. vec_eq. ring.
Qed.

(** stationarity holds with some multiplier of the inequalities in place of z *)
Definition balanced (pr : prob R) (it : iter R) : Prop := exists zeta, length zeta = nineq /\
  vadd (vadd (mv (pr_Q pr) (i_x it)) (pr_p pr)) (vadd (vm nz zeta (pr_G pr)) (vm nz (i_y it) (pr_A pr))) = vzeros nz.

Lemma balanced_step pr it dx ds dz dy a : sized nz nineq neq pr -> point nz nineq neq it ->
  length dx = nz -> length dz = nineq -> length dy = neq ->
  vadd (vadd (mv (pr_Q pr) dx) (vm nz dz (pr_G pr))) (vm nz dy (pr_A pr)) = vopp (stationarity nz pr it) ->
  balanced pr it -> balanced pr (iter_step it (dx, ds, dz, dy) a).
Proof.
  intros Hsz Hpt L1 L3 L4 E (ze & Lze & Ez). pose proof Hpt as [P1 P2 P3 P4].
  exists (vadd ze (vscale a (vadd dz (vsub (i_z it) ze)))). split; [rewrite vadd_length, vscale_length, vadd_length, vsub_length; lia|].
  cbn [iter_step i_x i_s i_z i_y]. pose proof Hsz as [[[[LQ _] _] [LG _] _ [LA _]] Lp _ _].
  rewrite mv_vadd, !vm_vadd, mv_vscale, !vm_vscale by (rewrite ?vscale_length, ?vadd_length, ?vsub_length; lia).
  rewrite vm_vadd by (rewrite vsub_length; lia). rewrite vsub_vadd, vm_vadd, vm_vopp by (rewrite vopp_length; lia).
  unfold stationarity in E.
  assert (Q1 : length (mv (pr_Q pr) (i_x it)) = nz) by (rewrite mv_length; exact LQ).
  assert (Q2 : length (mv (pr_Q pr) dx) = nz) by (rewrite mv_length; exact LQ).
  pose proof (vm_length nz (i_z it) (pr_G pr)) as V1. pose proof (vm_length nz dz (pr_G pr)) as V2. pose proof (vm_length nz ze (pr_G pr)) as V3.
  pose proof (vm_length nz (i_y it) (pr_A pr)) as V4. pose proof (vm_length nz dy (pr_A pr)) as V5.
  revert E Ez Q1 Q2 V1 V2 V3 V4 V5.
  generalize (mv (pr_Q pr) (i_x it)), (mv (pr_Q pr) dx), (vm nz (i_z it) (pr_G pr)), (vm nz dz (pr_G pr)), (vm nz ze (pr_G pr)), (vm nz (i_y it) (pr_A pr)), (vm nz dy (pr_A pr)).
  intros q q' g g' gz y y' E Ez Q1 Q2 V1 V2 V3 V4 V5. revert E Ez Lp. generalize (pr_p pr). intros p E Ez Lp. clear - E Ez Q1 Q2 V1 V2 V3 V4 V5 Lp.
  apply vext; [vlen|]. intros i Hi. assert (Hi' : (i < nz)%nat) by vlen. clear Hi.
  pose proof (f_equal (fun v => vget v i) E) as E1. pose proof (f_equal (fun v => vget v i) Ez) as E2. cbv beta in E1, E2.
  repeat (rewrite vget_vadd in E1 by vlen). repeat (rewrite vget_vadd in E2 by vlen). repeat (rewrite vget_vadd by vlen). rewrite ?vget_vopp, ?vget_zeros, ?vget_vscale in *.
  repeat (rewrite vget_vadd in E1 by vlen). repeat (rewrite vget_vadd by vlen). rewrite ?vget_vopp. nra.
Qed.

Lemma alpha1_range cz cs it d : 1 <= cz -> 1 <= cs -> point nz nineq neq it -> interior it ->
  (let '(dx, ds, dz, dy) := d in length dx = nz /\ length ds = nineq /\ length dz = nineq /\ length dy = neq) ->
  let a := alpha1 (fun a => 999 / 1000 * a) cz cs it d in
  0 <= a <= 1 /\ interior (iter_step it d a).
Proof.
  destruct d as [[[dx ds] dz] dy]. intros Hz Hs [P1 P2 P3 P4] [I1 I2] (L1 & L2 & L3 & L4) a.
  assert (Ns : i_s it <> []) by (intros E; rewrite E in P2; cbn in P2; lia).
  assert (Nz : i_z it <> []) by (intros E; rewrite E in P3; cbn in P3; lia).
  unfold alpha1 in a. set (m := nmin (step1 cz (i_z it) dz) (step1 cs (i_s it) ds)) in *.
  assert (Hm : 0 <= m) by (apply nmin_ge; apply step1_nonneg; auto; congruence).
  assert (Ha : 0 <= a) by (apply nmin_ge; rnum; nra). assert (Ha1 : a <= 1) by apply nmin_r. assert (Ham : a <= 999 / 1000 * m) by apply nmin_l.
  pose proof (nmin_l (step1 cz (i_z it) dz) (step1 cs (i_s it) ds)) as M1. pose proof (nmin_r (step1 cz (i_z it) dz) (step1 cs (i_s it) ds)) as M2. fold m in M1, M2.
  split; [lra|]. split; cbn [iter_step i_s i_z].
  - apply (step1_move cs); auto; try congruence. nra.
  - apply (step1_move cz); auto; try congruence. nra.
Qed.

Lemma estep_ok cz cs cz2 cs2 e : 1 <= cz2 -> 1 <= cs2 -> factored e ->
  let e' := estep cz cs cz2 cs2 e in
  elt_ok e' /\ e_pr e' = e_pr e /\ exists a, 0 <= a <= 1 /\
  stationarity nz (e_pr e) (e_it e') = vscale (1 - a) (stationarity nz (e_pr e) (e_it e)) /\
  inequality (e_pr e) (e_it e') = vscale (1 - a) (inequality (e_pr e) (e_it e)) /\
  equality (e_pr e) (e_it e') = vscale (1 - a) (equality (e_pr e) (e_it e)) /\
  (balanced (e_pr e) (e_it e) -> balanced (e_pr e) (e_it e')).
Proof.
  intros H1 H2 H e'. pose proof H as [[Hsz Hst Hpt Hin] _]. destruct (total_dir_ok cz cs e H) as (rs & Lrs & K).
  unfold e', estep. cbv zeta. destruct (total_dir cz cs e) as [[[dx ds] dz] dy]. destruct K as [K1 K2 K3 K4 Kx Ks Kz Ky].
  destruct (alpha1_range cz2 cs2 (e_it e) (dx, ds, dz, dy) H1 H2 Hpt Hin) as [Ha HI]; [auto|].
  set (a := alpha1 _ cz2 cs2 (e_it e) (dx, ds, dz, dy)) in *. cbn [elt_with_it e_pr e_it]. split.
  - constructor; cbn [elt_with_it e_pr e_it e_QLU e_SLU e_R]; auto. now apply point_step.
  - split; [reflexivity|]. exists a. split; [exact Ha|]. split; [now apply stationarity_step|]. split; [now apply inequality_step|]. split; [now apply equality_step|].
    now apply balanced_step.
Qed.

(** *** factorisation of the batch *)
Lemma factor_batch_ok es es1 : Forall elt_ok es -> factor_batch la nineq neq es = Ok es1 ->
  Forall2 (fun e e1 => factored e1 /\ e_it e1 = e_it e /\ e_pr e1 = e_pr e) es es1.
Proof.
  unfold factor_batch. intros H E. apply mapM_Forall2 in E. induction E as [|e e1 es es1 E Es IH]; [constructor|].
  apply Forall_cons_iff in H. destruct H as [[Hsz Hst Hpt Hin] Hes]. constructor; [|now apply IH]. bind_inv E as SL ES. injection E as <-.
  destruct (state_factor la nz nineq neq _ _ _ _ _ _ _ _ _ HL (sz_mat _ _ _ _ Hsz) Hst (d_of_length e Hpt) ES) as [S1 S2].
  split; [|now split]. split; [|exact S2]. constructor; cbn [elt_with_S e_pr e_it e_QLU e_SLU e_R]; auto.
Qed.

(** *** the initial point *)
Lemma init_elt_ok pr Q_LU S_LU Rm e : sized nz nineq neq pr ->
  kkt_state la nz nineq neq (pr_Q pr) (pr_G pr) (pr_F pr) (pr_A pr) Q_LU S_LU Rm ->
  init_elt la nz nineq neq pr Q_LU S_LU Rm = Ok e ->
  elt_ok e /\ e_pr e = pr /\ mv (pr_A pr) (i_x (e_it e)) = pr_b pr /\ balanced pr (e_it e).
Proof.
  intros Hsz Hst H. pose proof Hsz as [Hsh Lp Lh Lb]. unfold init_elt in H. cbv zeta in H. bind_inv H as SL ES.
  destruct (state_factor la nz nineq neq _ _ _ _ _ _ _ _ _ HL Hsh Hst (vones_length nineq) ES) as [S1 S2]. pose proof Hst as (HQ & LA & HA & _).
  pose proof (solve_kkt_ok la HL nz nineq neq _ _ _ _ Hsh _ HQ LA HA SL (vones nineq) (pr_p pr) (vzeros nineq) (vopp (pr_h pr)) (vopp (pr_b pr)) S2 (vones_length nineq)) as K.
  destruct (solve_kkt _ _ _ _ _ _ _ _ _ _ _ _) as [[[x s0] z0] y]. injection H as <-.
  assert (K' : kkt_solution nz nineq neq (pr_Q pr) (pr_G pr) (pr_F pr) (pr_A pr) (vones nineq) (pr_p pr) (vzeros nineq) (vopp (pr_h pr)) (vopp (pr_b pr)) x s0 z0 y).
  { apply K; auto; rewrite ?vopp_length; auto; [|apply vzeros_length]. intros i Hi. rewrite vget_ones by auto. lra. }
  clear K. destruct K' as [K1 K2 K3 K4 Kx Ks Kz Ky]. split; [|split; [reflexivity|split]].
  - constructor; cbn [e_pr e_it e_QLU e_SLU e_R]; auto.
    + constructor; cbn [i_x i_s i_z i_y]; rewrite ?shift_pos_length; auto.
    + split; apply shift_pos_pos.
  - cbn [e_it i_x]. rewrite Ky. apply vopp_vopp.
  - exists z0. split; [exact K3|]. cbn [e_it i_x i_y]. rewrite (vadd_comm (mv _ _)), vadd_assoc, <- (vadd_assoc (mv _ _)), Kx.
    rewrite <- vsub_vadd, vsub_self. f_equal. exact Lp.
Qed.
End Loop.
