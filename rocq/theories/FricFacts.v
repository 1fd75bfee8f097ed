(** Contacts with friction: the linear systems of the solver have solutions if no contact wedges *)
From Coq Require Import List Arith ZArith Bool Reals Lra Lia Psatz.
From Verif Require Import Num Tensor Utils Bodies Forces Constraints Contacts World Lapack Pdipm Lcp Engines Spec GeoSpec JointSpec EngineSpec RegSpec FricSpec
     RBase ResFacts LinAlg LapackSpec KktSpec PdipmSpec WorldFacts HandlerFacts LayoutFacts HistFacts SysFacts RewindFacts JointFacts JeFacts
     CacheFacts BodyReach GeomFacts PdipmFacts PdipmLoop SolverFacts EngineFacts ContactSys EngineBalance ContactLaw EnergyFacts EngineTotal.
Import ListNotations.
Open Scope R_scope.

(** *** one contact, in numbers *)
Lemma schur_nonneg wn a wt k : 0 < k -> 0 <= wn -> (forall p q, 0 <= p * p * wn + 2 * (p * q) * a + q * q * wt) -> 0 <= wt - a * a / (wn + k).
Proof.
  intros Hk Hn P. set (e := a / (wn + k)). assert (E : a = e * (wn + k)) by (unfold e; field; lra). specialize (P (- e) 1).
  replace (a * a / (wn + k)) with (e * e * (wn + k)) by (unfold e; field; lra). rewrite E in P. pose proof (Rle_0_sqr e) as Q. unfold Rsqr in Q. nra.
Qed.
Lemma one_contact wn a wt mu kn k1 k2 kg l b1 b2 g : 0 < kn -> 0 < k1 -> 0 < k2 -> 0 < kg -> 0 <= mu -> mu * Rabs a <= wn ->
  (forall p q, 0 <= p * p * wn + 2 * (p * q) * a + q * q * wt) ->
  wn * l + a * (b1 - b2) + kn * l = 0 -> (a * l + wt * (b1 - b2)) + g + k1 * b1 = 0 -> - (a * l + wt * (b1 - b2)) + g + k2 * b2 = 0 ->
  mu * l - (b1 + b2) + kg * g = 0 -> l = 0 /\ b1 = 0 /\ b2 = 0 /\ g = 0.
Proof.
  intros Kn K1 K2 Kg Hmu Hw P E1 E2 E3 E4.
  assert (W : 0 <= wn) by (pose proof (Rabs_pos a); nra). pose proof (schur_nonneg wn a wt kn Kn W P) as S.
  set (t := b1 - b2) in *. set (s := b1 + b2) in *. set (e := a / (wn + kn)).
  assert (El : l = - e * t). { unfold e. assert (l * (wn + kn) = - a * t) by lra. apply (Rmult_eq_reg_r (wn + kn)); [|lra]. rewrite H. field. lra. }
  set (X := a * l + wt * t) in *.
  assert (EX : X = (wt - a * a / (wn + kn)) * t) by (unfold X; rewrite El; unfold e; field; lra).
  set (q := wt - a * a / (wn + kn)) in *.
  assert (Ht : 0 <= t * X) by (rewrite EX; pose proof (Rle_0_sqr t) as Q; unfold Rsqr in Q; nra).
  assert (Hl : mu * Rabs l <= Rabs t).
  { rewrite El. replace (- e * t) with (- (e * t)) by ring. rewrite Rabs_Ropp, Rabs_mult. unfold e, Rdiv. rewrite Rabs_mult, (Rabs_right (/ (wn + kn))) by (left; apply Rinv_0_lt_compat; lra).
    assert (I : mu * Rabs a * / (wn + kn) <= 1) by (apply (Rmult_le_reg_r (wn + kn)); [lra|]; rewrite Rmult_assoc, Rinv_l by lra; lra).
    pose proof (Rabs_pos t). nra. }
  (* b1 and b2 do not have opposite signs *)
  assert (Sg : 0 <= b1 * b2).
  { destruct (Rle_lt_dec 0 (b1 * b2)) as [|N]; [auto|exfalso]. destruct (Rlt_le_dec 0 b1) as [B1|B1].
    - assert (B2 : b2 < 0) by nra. assert (0 < t) by (unfold t; lra). assert (0 <= X) by (rewrite EX; nra). nra.
    - assert (B1' : b1 < 0) by (destruct B1 as [|Z]; [auto|rewrite Z in N; lra]). assert (B2 : 0 < b2) by nra. assert (t < 0) by (unfold t; lra). assert (X <= 0) by (rewrite EX; nra). nra. }
  assert (ST : Rabs t <= Rabs s).
  { apply Rsqr_le_abs_0. unfold Rsqr, s, t. assert ((b1 + b2) * (b1 + b2) - (b1 - b2) * (b1 - b2) = 4 * (b1 * b2)) by ring. lra. }
  assert (D : t * X + k1 * (b1 * b1) + k2 * (b2 * b2) + g * s = 0).
  { transitivity (b1 * (X + g + k1 * b1) + b2 * (- X + g + k2 * b2)); [unfold t, s; clearbody X; ring|]. rewrite E2, E3. ring. }
  assert (G : 0 <= g * s).
  { assert (Eg : g = (s - mu * l) * / kg) by (apply (Rmult_eq_reg_r kg); [|lra]; rewrite Rmult_assoc, Rinv_l by lra; lra).
    rewrite Eg. assert (Ik : 0 < / kg) by now apply Rinv_0_lt_compat.
    assert (Q : 0 <= (s - mu * l) * s).
    { assert (M : mu * l * s <= Rabs s * Rabs s).
      { apply Rle_trans with (mu * Rabs l * Rabs s).
        - rewrite <- (Rabs_right mu) at 1 by lra. pose proof (Rle_abs (Rabs mu * l * s)) as L. rewrite !Rabs_mult, Rabs_Rabsolu in L. rewrite (Rabs_right mu) in * by lra. lra.
        - pose proof (Rabs_pos s). nra. }
      assert (Rabs s * Rabs s = s * s) by (rewrite <- Rabs_mult; apply Rabs_right; pose proof (Rle_0_sqr s) as Qs; unfold Rsqr in Qs; lra). lra. }
    replace ((s - mu * l) * / kg * s) with ((s - mu * l) * s * / kg) by ring. apply Rmult_le_pos; lra. }
  pose proof (Rle_0_sqr b1) as Q1. pose proof (Rle_0_sqr b2) as Q2. unfold Rsqr in Q1, Q2.
  assert (R1 : 0 <= k1 * (b1 * b1)) by (apply Rmult_le_pos; lra). assert (R2 : 0 <= k2 * (b2 * b2)) by (apply Rmult_le_pos; lra).
  assert (Z1 : k1 * (b1 * b1) = 0) by lra. assert (Z2 : k2 * (b2 * b2) = 0) by lra.
  apply Rmult_integral in Z1, Z2. assert (B1 : b1 = 0) by (destruct Z1 as [|Z1]; [lra|]; apply Rmult_integral in Z1; tauto). assert (B2 : b2 = 0) by (destruct Z2 as [|Z2]; [lra|]; apply Rmult_integral in Z2; tauto).
  assert (T0 : t = 0) by (unfold t; lra). assert (L0 : l = 0) by (rewrite El, T0; ring). repeat split; auto. unfold X in E2. rewrite T0, L0, B1 in E2. lra.
Qed.
(** the condition is also necessary *)
Lemma wedge_singular wn a wt mu : 0 <= wn -> 0 <= mu -> wn < mu * Rabs a -> (forall p q, 0 <= p * p * wn + 2 * (p * q) * a + q * q * wt) ->
  exists kn k1 k2 kg l b1 b2 g, 0 < kn /\ 0 < k1 /\ 0 < k2 /\ 0 < kg /\
    wn * l + a * (b1 - b2) + kn * l = 0 /\ (a * l + wt * (b1 - b2)) + g + k1 * b1 = 0 /\ - (a * l + wt * (b1 - b2)) + g + k2 * b2 = 0 /\
    mu * l - (b1 + b2) + kg * g = 0 /\ b1 <> 0.
Proof.
  intros Hn Hmu Hw P. set (kn := (mu * Rabs a - wn) / 2). assert (Kn : 0 < kn) by (unfold kn; lra).
  pose proof (schur_nonneg wn a wt kn Kn Hn P) as S. set (q := wt - a * a / (wn + kn)) in *.
  assert (W : 0 < wn + kn) by lra. set (r := mu * Rabs a / (wn + kn)).
  assert (Er : r * (wn + kn) = mu * Rabs a) by (unfold r; field; lra). assert (Hr : 1 < r) by (unfold kn in *; nra).
  (* mirror the picture if a is positive *)
  assert (G : forall sg, (sg = 1 /\ a <= 0) \/ (sg = -1 /\ 0 <= a) ->
    exists k1 k2 kg l b1 b2 g, 0 < k1 /\ 0 < k2 /\ 0 < kg /\
    wn * l + a * (b1 - b2) + kn * l = 0 /\ (a * l + wt * (b1 - b2)) + g + k1 * b1 = 0 /\ - (a * l + wt * (b1 - b2)) + g + k2 * b2 = 0 /\
    mu * l - (b1 + b2) + kg * g = 0 /\ b1 <> 0).
  { intros sg Hs.
    (* t = sg, s between 1 and r *)
    set (s := (1 + r) / 2). set (l := - a * sg / (wn + kn)). set (X := q * sg).
    assert (EX : a * l + wt * sg = X) by (unfold X, q, l; field; lra).
    assert (El : mu * l = r).
    { unfold l, r. destruct Hs as [[-> Ha]|[-> Ha]]; [rewrite (Rabs_left1 a) by lra|rewrite (Rabs_right a) by lra]; field; lra. }
    set (b1 := (s + sg) / 2). set (b2 := (s - sg) / 2).
    assert (B1 : 0 < b1) by (unfold b1, s; destruct Hs as [[-> _]|[-> _]]; lra). assert (B2 : 0 < b2) by (unfold b2, s; destruct Hs as [[-> _]|[-> _]]; lra).
    (* the slack: below -|X| *)
    set (g := - (q + 1)). assert (Ht : b1 - b2 = sg) by (unfold b1, b2; field). assert (Hss : b1 + b2 = s) by (unfold b1, b2; field).
    exists ((- g - X) / b1), ((X - g) / b2), ((r - s) / (q + 1)), l, b1, b2, g. rewrite Ht, Hss, EX.
    assert (Hsg : -1 <= sg <= 1) by (destruct Hs as [[-> _]|[-> _]]; lra).
    split; [apply Rdiv_lt_0_compat; [unfold g, X; nra|auto]|]. split; [apply Rdiv_lt_0_compat; [unfold g, X; nra|auto]|].
    split; [apply Rdiv_lt_0_compat; unfold s; lra|]. split; [unfold l; field; lra|]. split; [field; lra|]. split; [field; lra|]. split; [|lra].
    rewrite El. unfold g. field. lra. }
  destruct (Rle_lt_dec a 0) as [Ha|Ha].
  - destruct (G 1) as (k1 & k2 & kg & l & b1 & b2 & g & H); [left; auto|]. exists kn, k1, k2, kg, l, b1, b2, g. tauto.
  - destruct (G (-1)) as (k1 & k2 & kg & l & b1 & b2 & g & H); [right; split; lra|]. exists kn, k1, k2, kg, l, b1, b2, g. tauto.
Qed.

(** *** contact power concentrated at one contact *)
Lemma power_single cs imps (x : vecR) i c im : nth_error cs i = Some c -> nth_error imps i = Some im ->
  (forall j d, nth_error cs j = Some d -> j <> i -> normal_velocity x d = 0 /\ slip_velocity x d = 0) ->
  contact_power cs imps x = fst im * normal_velocity x c + snd im * slip_velocity x c.
Proof.
  assert (Z : forall cs imps, (forall j d, nth_error cs j = Some d -> normal_velocity x d = 0 /\ slip_velocity x d = 0) -> contact_power cs imps x = 0).
  { clear. unfold contact_power. induction cs as [|d cs IH]; intros imps H; [reflexivity|]. destruct imps as [|im imps]; [reflexivity|]. cbn [map2 Rsum fold_right].
    destruct (H 0%nat d eq_refl) as [H1 H2]. unfold normal_velocity, slip_velocity in H1, H2. specialize (IH imps (fun j => H (S j))). unfold Rsum in IH. rewrite IH, H1, H2. ring. }
  revert imps i. induction cs as [|d cs IH]; intros imps i Hc Hi H; [destruct i; discriminate|]. destruct imps as [|e imps]; [destruct i; discriminate|].
  unfold contact_power. cbn [map2 Rsum fold_right]. fold (Rsum (map2 (fun c im => fst im * component (c_normal c) (relative_velocity x c) + snd im * component (tangent (c_normal c)) (relative_velocity x c)) cs imps)).
  fold (contact_power cs imps x). destruct i as [|i].
  - injection Hc as ->. injection Hi as ->. rewrite Z; [unfold normal_velocity, slip_velocity; ring|]. intros j d' Hd. apply (H (S j) d' Hd). discriminate.
  - cbn in Hc, Hi. rewrite (IH imps i Hc Hi) by (intros j d' Hd Hj; apply (H (S j) d' Hd); lia). destruct (H 0%nat d eq_refl ltac:(discriminate)) as [H1 H2].
    unfold normal_velocity, slip_velocity in H1, H2. rewrite H1, H2. ring.
Qed.

Section Engine.
Variables (bs : list (body R)) (js : list (joint R)) (J0 : list jent) (w : world R) (la : lapack R) (mi : nat).
Hypothesis HS : sound bs js J0 w.
Hypothesis HL : lapack_ok la.
Hypothesis Hm : Forall (fun b : body R => 0 < b_mass b /\ 0 < b_inertia b) bs.
Hypothesis HI : independent w.
Notation n := (3 * length (w_bodies w))%nat.
Notation neq := (w_num_constraints w).
Notation nc := (length (w_contacts w)).

(** every impulse at a contact moves the bodies in some way *)
Lemma push_exists c l t : In c (w_contacts w) -> exists x, pushed w c l t x.
Proof.
  intros Hc. pose proof (so_range _ _ _ _ HS) as Hr. rewrite Forall_forall in Hr. specialize (Hr c Hc).
  destruct (inv_total _ HL _ _ (wf_sys _ _ _ _ HS) (sys_nonsingular _ _ _ _ HS Hm HI)) as [inv Ei].
  set (row := fun d => row_put (row_put (vzeros n) (3 * c_i1 c) (jc_row (c_p1 c) d)) (3 * c_i2 c) (vopp (jc_row (c_p2 c) d)) : vecR).
  assert (HR : forall d x, length x = n -> length (row d) = n /\ dot (row d) x = component d (relative_velocity x c)) by (intros d x Lx; exact (contact_row (length (w_bodies w)) c d x Hr Lx)).
  assert (LR : forall d, length (row d) = n) by (intros d; apply (HR d (vzeros n)), vzeros_length).
  set (r := vadd (vscale l (row (c_normal c))) (vscale t (row (tangent (c_normal c))))).
  pose proof (LR (c_normal c)) as L1. pose proof (LR (tangent (c_normal c))) as L2. assert (Lr : length r = n) by (unfold r; vlen).
  destruct (sys_inv _ _ _ _ HS la HL inv (r ++ vzeros neq) Ei) as (x & y & _ & Lx & Ly & E); [rewrite app_length, vzeros_length; unfold vec in *; lia|].
  pose proof (wf_length _ _ _ (proj1 (so_symm _ _ _ _ HS))) as LM.
  assert (LV : length (vsub (mv (w_M w) x) (vm n y (Je w))) = n) by (rewrite vsub_length, mv_length, vm_length; lia).
  pose proof (f_equal (firstn n) E) as E1. pose proof (f_equal (skipn n) E) as E2.
  rewrite !firstn_app, LV, Lr, Nat.sub_diag, !firstn_O, !app_nil_r, !firstn_all2 in E1 by (unfold vec in *; lia).
  rewrite !skipn_app, LV, Lr, Nat.sub_diag, (skipn_all2 (vsub _ _)), (skipn_all2 r) in E2 by (unfold vec in *; lia). cbn [app skipn] in E2.
  exists x. split; [exact Lx|]. split; [rewrite <- (Je_cv _ _ _ _ HS) by exact Lx; exact E2|]. exists y. split; [exact Ly|]. intros u Lu.
  rewrite <- kinetic_dot by (auto; apply (so_M _ _ _ _ HS)).
  assert (EM : mv (w_M w) x = vadd r (vm n y (Je w))). { rewrite <- E1. assert (length (mv (w_M w) x) = n) by (rewrite mv_length; exact LM). vec_eq. ring. }
  rewrite EM, dot_vadd_r by (rewrite vm_length; exact Lr). rewrite (dot_comm u (vm _ _ _)), (dot_vm neq n) by (auto; apply (so_Je _ _ _ _ HS)). rewrite (Je_cv _ _ _ _ HS) by exact Lu.
  unfold r. rewrite dot_vadd_r, !dot_vscale_r by vlen. rewrite !(dot_comm u). rewrite (proj2 (HR _ u Lu)), (proj2 (HR _ u Lu)). reflexivity.
Qed.
Lemma pushed_power c l t x u : pushed w c l t x -> length u = n -> constraint_velocity w u = repeat 0 neq ->
  kinetic w u x = l * normal_velocity u c + t * slip_velocity u c.
Proof. intros (_ & _ & y & _ & H) Lu Cu. rewrite (H u Lu), Cu. change (repeat 0 neq) with (vzeros neq : vecR). rewrite dot_zeros_r. ring. Qed.
(** the matrix of a contact is symmetric and not negative *)
Lemma contact_block c xn xt : pushed w c 1 0 xn -> pushed w c 0 1 xt ->
  normal_velocity xt c = slip_velocity xn c /\
  forall p q, 0 <= p * p * normal_velocity xn c + 2 * (p * q) * slip_velocity xn c + q * q * slip_velocity xt c.
Proof.
  intros Hn Ht. destruct (Hn) as (Ln & Cn & _). destruct (Ht) as (Lt & Ct & _).
  pose proof (pushed_power c 1 0 xn xt Hn Lt Ct) as E1. pose proof (pushed_power c 0 1 xt xn Ht Ln Cn) as E2.
  pose proof (pushed_power c 1 0 xn xn Hn Ln Cn) as E3. pose proof (pushed_power c 0 1 xt xt Ht Lt Ct) as E4.
  rewrite (kinetic_symm w xt xn) in E1. split; [lra|]. intros p q.
  assert (Hm' : Forall (fun b : body R => 0 <= b_mass b /\ 0 <= b_inertia b) (w_bodies w)).
  { pose proof (so_attrs _ _ _ _ HS) as A. clear - A Hm. induction A as [|a b l l' H A IH]; [constructor|]. apply Forall_cons_iff in Hm. destruct Hm as [[M1 M2] Hm']. constructor; [|now apply IH].
    unfold same_attrs in H. destruct H as (_ & H). assert (b_mass b = b_mass a /\ b_inertia b = b_inertia a) by intuition congruence. lra. }
  pose proof (kinetic_pos w (vadd (vscale p xn) (vscale q xt)) Hm') as K. pose proof (so_M _ _ _ _ HS) as HM. pose proof (M_length w HM) as LM.
  assert (L1 : length (vscale p xn) = n) by (rewrite vscale_length; exact Ln). assert (L2 : length (vscale q xt) = n) by (rewrite vscale_length; exact Lt).
  rewrite <- kinetic_dot in K by (auto; rewrite vadd_length; unfold vec in *; lia). rewrite mv_vadd, !mv_vscale in K by (unfold vec in *; lia).
  rewrite dot_vadd_l, !dot_vadd_r in K by (rewrite ?vscale_length, ?mv_length; unfold vec in *; lia). rewrite !dot_vscale_l, !dot_vscale_r in K.
  rewrite !kinetic_dot in K by auto. rewrite (kinetic_symm w xt xn), E2, E3, E4 in K. lra.
Qed.
Lemma mv_lcp_G x : length x = n -> mv (lcp_G n nc (Jc w) (jf_all w)) x =
  map (fun c => normal_velocity x c) (w_contacts w) ++ flat_map (fun c => [slip_velocity x c; - slip_velocity x c]) (w_contacts w) ++ vzeros nc.
Proof.
  intros Lx. unfold lcp_G. rewrite !mv_app, mv_mzeros. rewrite mv_Jc, mv_jf by (auto; apply (so_range _ _ _ _ HS)). reflexivity.
Qed.
(** the rows of the homogeneous system *)
Lemma rows_at x l b g d i c : nth_error (w_contacts w) i = Some c -> length x = n -> length l = nc -> length b = (2 * nc)%nat -> length g = nc ->
  length d = (nc + 2 * nc + nc)%nat ->
  let e := vadd (vadd (mv (lcp_G n nc (Jc w) (jf_all w)) x) (mv (lcp_F 2 nc (E_mat 2 nc) (mdiag (mu_vec w))) (l ++ b ++ g))) (vdiv (l ++ b ++ g) d) in
  vget e i = normal_velocity x c + vget l i / vget d i /\
  vget e (nc + 2 * i) = slip_velocity x c + vget g i + vget b (2 * i) / vget d (nc + 2 * i) /\
  vget e (nc + (2 * i + 1)) = - slip_velocity x c + vget g i + vget b (2 * i + 1) / vget d (nc + (2 * i + 1)) /\
  vget e (3 * nc + i) = mixed w b_fric c * vget l i - (vget b (2 * i) + vget b (2 * i + 1)) + vget g i / vget d (3 * nc + i).
Proof.
  intros Hc Lx Ll Lb Lg Ld. cbv zeta. rewrite mv_lcp_G by exact Lx. rewrite mv_F by (auto; apply map_length).
  assert (Hi : (i < nc)%nat) by (apply nth_error_Some; congruence).
  assert (Lmu : length (mu_vec w) = nc) by apply map_length. pose proof (twice_length g) as Ltw. pose proof (pair_sums_length b nc Lb) as Lps.
  assert (Lfm : length (flat_map (fun c => [slip_velocity x c; - slip_velocity x c]) (w_contacts w)) = (2 * nc)%nat).
  { clear. induction (w_contacts w) as [|c cs IH]; [reflexivity|]. cbn [flat_map length app]. lia. }
  assert (LL1 : length (map (fun c => normal_velocity x c) (w_contacts w)) = nc) by apply map_length.
  assert (LF : length (vsub (vmul (mu_vec w) l) (pair_sums b)) = nc) by (rewrite vsub_length, vmul_length; unfold vec in *; lia).
  assert (EG : forall (x y z0 : vecR) k, length x = nc -> length y = (2 * nc)%nat -> (k < 2 * nc)%nat -> vget (x ++ y ++ z0) (nc + k) = vget y k).
  { intros x0 y z0 k Hx Hy Hk. rewrite <- Hx at 1. rewrite vget_app_r. apply vget_app_l. unfold vec in *. lia. }
  assert (EH : forall (x y z0 : vecR) k, length x = nc -> length y = (2 * nc)%nat -> vget (x ++ y ++ z0) (3 * nc + k) = vget z0 k).
  { intros x0 y z0 k Hx Hy. replace (3 * nc + k)%nat with (length x0 + (length y + k))%nat by lia. now rewrite !vget_app_r. }
  assert (EF : forall (x y z0 : vecR), length x = nc -> vget (x ++ y ++ z0) i = vget x i).
  { intros x0 y z0 Hx. apply vget_app_l. unfold vec in *. lia. }
  destruct (vget_pairs (fun c => slip_velocity x c) (fun c => - slip_velocity x c) _ _ _ Hc) as [V1 V2]. destruct (vget_twice g i ltac:(lia)) as [W1 W2].
  assert (Emu : vget (mu_vec w) i = mixed w b_fric c).
  { unfold mu_vec. rewrite (vget_map_nth _ _ _ _ Hc). unfold mixed. rnum. field. }
  split; [|split; [|split]]; rewrite !vget_vadd, vget_vdiv by (rewrite ?vadd_length, ?vdiv_length, ?app_length, ?vzeros_length; unfold vec in *; lia).
  - rewrite !EF by (auto; apply vzeros_length). rewrite (vget_map_nth _ _ _ _ Hc), vget_zeros. ring.
  - rewrite !EG by (auto; try apply vzeros_length; unfold vec in *; lia). rewrite V1, W1. ring.
  - rewrite !EG by (auto; try apply vzeros_length; unfold vec in *; lia). rewrite V2, W2. ring.
  - rewrite !EH by (auto; try apply vzeros_length; unfold vec in *; lia). rewrite vget_vsub, vget_vmul, (vget_pair_sums nc), vget_zeros, Emu by (rewrite ?vmul_length; unfold vec in *; lia). ring.
Qed.
(** how the bodies move at a contact that is apart from the others *)
Lemma response_at x y l b g i c xn xt : apart w -> nth_error (w_contacts w) i = Some c -> pushed w c 1 0 xn -> pushed w c 0 1 xt ->
  length x = n -> length y = neq -> length l = nc -> length b = (2 * nc)%nat -> length g = nc ->
  mv (w_M w) x = vadd (vm n y (Je w)) (vm n (l ++ b ++ g) (lcp_G n nc (Jc w) (jf_all w))) -> mv (Je w) x = vzeros neq ->
  normal_velocity x c = normal_velocity xn c * vget l i + slip_velocity xn c * (vget b (2 * i) - vget b (2 * i + 1)) /\
  slip_velocity x c = slip_velocity xn c * vget l i + slip_velocity xt c * (vget b (2 * i) - vget b (2 * i + 1)).
Proof.
  intros HA Hc Hn Ht Lx Ly Ll Lb Lg EM EJ. pose proof (proj1 (contact_block c xn xt Hn Ht)) as Sy.
  assert (Hi : (i < nc)%nat) by (apply nth_error_Some; congruence).
  rewrite (Je_cv _ _ _ _ HS) in EJ by exact Lx. rewrite (vm_G _ _ _ _ HS) in EM by auto.
  assert (G : forall u, length u = n -> constraint_velocity w u = vzeros neq -> (forall j d, nth_error (w_contacts w) j = Some d -> j <> i -> normal_velocity u d = 0 /\ slip_velocity u d = 0) ->
    kinetic w u x = vget l i * normal_velocity u c + (vget b (2 * i) - vget b (2 * i + 1)) * slip_velocity u c).
  { intros u Lu Cu Hu. rewrite <- kinetic_dot by (auto; apply (so_M _ _ _ _ HS)). rewrite EM.
    rewrite !dot_vadd_r by (rewrite ?vadd_length, !vm_length; lia). rewrite !(dot_comm u (vm _ _ _)).
    rewrite (dot_vm neq n) by (auto; apply (so_Je _ _ _ _ HS)). rewrite (dot_vm nc n) by (auto; apply wf_Jc, (so_range _ _ _ _ HS)). rewrite (dot_vm (2 * nc) n) by (auto; apply wf_jf, (so_range _ _ _ _ HS)).
    rewrite (Je_cv _ _ _ _ HS) by exact Lu. rewrite Cu, dot_zeros_r. rewrite mv_Jc, mv_jf by (auto; apply (so_range _ _ _ _ HS)). rewrite contact_power_split by auto.
    pose proof (diffs_length b nc Lb) as Ld. rewrite (power_single (w_contacts w) (combine l (diffs b)) u i c (vget l i, vget (diffs b) i)); auto.
    - cbn [fst snd]. rewrite (vget_diffs nc) by auto. ring.
    - rewrite <- nth_combine_R by (unfold vec in *; lia). apply nth_error_nth'. rewrite combine_length. unfold vec in *. lia. }
  destruct (Hn) as (Ln & Cn & _). destruct (Ht) as (Lt & Ct & _).
  pose proof (G xn Ln Cn (fun j d Hd Hj => HA i j c d 1 0 xn Hc Hd (not_eq_sym Hj) Hn)) as G1. pose proof (G xt Lt Ct (fun j d Hd Hj => HA i j c d 0 1 xt Hc Hd (not_eq_sym Hj) Ht)) as G2.
  pose proof (pushed_power c 1 0 xn x Hn Lx EJ) as P1. pose proof (pushed_power c 0 1 xt x Ht Lx EJ) as P2.
  rewrite (kinetic_symm w x xn), G1 in P1. rewrite (kinetic_symm w x xt), G2, Sy in P2. split; lra.
Qed.
(** *** contacts that do not wedge: every Newton system can be solved *)
Lemma step_regular dt f : apart w -> (forall c, In c (w_contacts w) -> 0 <= mixed w b_fric c) -> (forall c, In c (w_contacts w) -> no_wedge w c) ->
  rposed n (nc + 2 * nc + nc) neq (step_prob w dt f).
Proof.
  intros HA Hmu HW. constructor; cbn [step_prob pr_Q pr_G pr_F pr_A]; [exact (M_pos _ _ _ _ HS Hm)|exact (A_rank _ _ _ _ HS HI)|].
  intros d x y z Ld Pd Lx Ly Lz E1 E2 E3. destruct (split3 z nc Lz) as (l & b & g & -> & Ll & Lb & Lg).
  assert (Z : forall i, (i < nc)%nat -> vget l i = 0 /\ vget b (2 * i) = 0 /\ vget b (2 * i + 1) = 0 /\ vget g i = 0).
  { intros i Hi. destruct (nth_error (w_contacts w) i) as [c|] eqn:Hc; [|apply nth_error_None in Hc; lia]. pose proof (nth_error_In _ _ Hc) as Hin.
    destruct (push_exists c 1 0 Hin) as [xn Hn]. destruct (push_exists c 0 1 Hin) as [xt Ht].
    destruct (response_at x y l b g i c xn xt HA Hc Hn Ht Lx Ly Ll Lb Lg E1 E2) as [N1 N2].
    destruct (rows_at x l b g d i c Hc Lx Ll Lb Lg Ld) as (R1 & R2 & R3 & R4). rewrite E3, vget_zeros in R1, R2, R3, R4. rewrite N1 in R1. rewrite N2 in R2, R3.
    pose proof (HW c Hin xn Hn) as NW. destruct (contact_block c xn xt Hn Ht) as [_ PS].
    assert (P1 : 0 < / vget d i) by (apply Rinv_0_lt_compat, Pd; lia). assert (P2 : 0 < / vget d (nc + 2 * i)) by (apply Rinv_0_lt_compat, Pd; lia).
    assert (P3 : 0 < / vget d (nc + (2 * i + 1))) by (apply Rinv_0_lt_compat, Pd; lia). assert (P4 : 0 < / vget d (3 * nc + i)) by (apply Rinv_0_lt_compat, Pd; lia).
    unfold Rdiv in R1, R2, R3, R4.
    apply (one_contact (normal_velocity xn c) (slip_velocity xn c) (slip_velocity xt c) (mixed w b_fric c) (/ vget d i) (/ vget d (nc + 2 * i)) (/ vget d (nc + (2 * i + 1))) (/ vget d (3 * nc + i))); auto; lra. }
  assert (V : forall (v : vecR) k, length v = k -> (forall i, (i < k)%nat -> vget v i = 0) -> v = vzeros k).
  { intros v k Lv H. apply vext; [now rewrite vzeros_length|]. intros i Hi. rewrite vget_zeros. apply H. lia. }
  rewrite (V l nc Ll) by (intros i Hi; now apply Z). rewrite (V g nc Lg) by (intros i Hi; now apply Z).
  rewrite (V b (2 * nc)%nat Lb). { unfold vzeros. rewrite <- !repeat_app. f_equal. lia. }
  intros k Hk. pose proof (Nat.div_mod k 2 ltac:(lia)) as DM. assert (Hq : (k / 2 < nc)%nat) by (apply Nat.div_lt_upper_bound; lia). destruct (Z (k / 2)%nat Hq) as (_ & Z1 & Z2 & _).
  pose proof (Nat.mod_upper_bound k 2 ltac:(lia)) as MB. destruct (k mod 2) as [|[|]] eqn:Em; [|rewrite DM; exact Z2|lia]. rewrite DM, Nat.add_0_r. exact Z1.
Qed.
(** *** and a single contact that wedges makes one of them singular *)
Lemma regular_no_wedge dt f c : w_contacts w = [c] -> 0 <= mixed w b_fric c -> rposed n (nc + 2 * nc + nc) neq (step_prob w dt f) -> no_wedge w c.
Proof.
  intros EC Hmu HR xn Hn. assert (Hin : In c (w_contacts w)) by (rewrite EC; now left). destruct (Rle_lt_dec (mixed w b_fric c * Rabs (slip_velocity xn c)) (normal_velocity xn c)) as [|N]; [auto|exfalso].
  destruct (push_exists c 0 1 Hin) as [xt Ht]. destruct (contact_block c xn xt Hn Ht) as [Sy PS].
  assert (Wn : 0 <= normal_velocity xn c) by (specialize (PS 1 0); lra).
  destruct (wedge_singular _ _ _ _ Wn Hmu N PS) as (kn & k1 & k2 & kg & l & b1 & b2 & g & Kn & K1 & K2 & Kg & E1 & E2 & E3 & E4 & Nz).
  destruct (push_exists c l (b1 - b2) Hin) as [x Hx]. destruct (Hx) as (Lx & Cx & y & Ly & Py).
  destruct (Hn) as (Ln & Cn & _). destruct (Ht) as (Lt & Ct & _).
  assert (V1 : normal_velocity x c = normal_velocity xn c * l + slip_velocity xn c * (b1 - b2)).
  { pose proof (pushed_power c 1 0 xn x Hn Lx Cx) as P1. pose proof (pushed_power c l (b1 - b2) x xn Hx Ln Cn) as P2. rewrite kinetic_symm in P2. lra. }
  assert (V2 : slip_velocity x c = slip_velocity xn c * l + slip_velocity xt c * (b1 - b2)).
  { pose proof (pushed_power c 0 1 xt x Ht Lx Cx) as P1. pose proof (pushed_power c l (b1 - b2) x xt Hx Lt Ct) as P2. rewrite kinetic_symm in P2. rewrite Sy in P2. lra. }
  assert (N1 : nc = 1%nat) by (rewrite EC; reflexivity).
  pose proof (rg_F _ _ _ _ _ _ _ HR [/ kn; / k1; / k2; / kg] x y [l; b1; b2; g]) as Z. cbn [step_prob pr_Q pr_G pr_F pr_A] in Z.
  assert (L4 : forall (p q r s : R), length [p; q; r; s] = (nc + 2 * nc + nc)%nat) by (intros; rewrite N1; reflexivity).
  assert (ZZ : [l; b1; b2; g] = vzeros (nc + 2 * nc + nc)).
  { apply Z; auto.
    - intros i Hi. rewrite N1 in Hi. unfold vget. destruct i as [|[|[|[|i]]]]; cbn; try (now apply Rinv_0_lt_compat). lia.
    - pose proof (wf_length _ _ _ (proj1 (so_symm _ _ _ _ HS))) as LM. pose proof (step_sized _ _ _ _ HS dt (vzeros n) (vzeros_length n)) as SZ.
      pose proof (sh_G _ _ _ _ _ _ _ (sz_mat _ _ _ _ SZ)) as WG. cbn [step_prob pr_G] in WG.
      apply (dot_unit n); [rewrite mv_length; exact LM|rewrite vadd_length, !vm_length; lia|]. intros u Lu. rewrite (dot_comm (mv _ _)), kinetic_dot by (auto; apply (so_M _ _ _ _ HS)).
      rewrite (Py u Lu), (dot_comm _ u), dot_vadd_r by (rewrite !vm_length; lia). rewrite !(dot_comm u). rewrite (dot_vm neq n) by (auto; apply (so_Je _ _ _ _ HS)). rewrite (dot_vm (nc + 2 * nc + nc) n) by auto.
      rewrite (Je_cv _ _ _ _ HS) by exact Lu. rewrite mv_lcp_G by exact Lu. rewrite EC. cbn [map flat_map app length vzeros repeat]. rewrite !dot_cons. rnum. unfold dot. cbn. rnum. ring.
    - rewrite (Je_cv _ _ _ _ HS) by exact Lx. exact Cx.
    - assert (Hc : nth_error (w_contacts w) 0 = Some c) by (rewrite EC; reflexivity).
      destruct (rows_at x [l] [b1; b2] [g] [/ kn; / k1; / k2; / kg] 0 c Hc Lx ltac:(now rewrite N1) ltac:(now rewrite N1) ltac:(now rewrite N1) (L4 _ _ _ _)) as (R1 & R2 & R3 & R4).
      rewrite V1 in R1. rewrite V2 in R2, R3. cbn [app] in *. unfold Rdiv in R1, R2, R3, R4.
      pose proof (step_sized _ _ _ _ HS dt (vzeros n) (vzeros_length n)) as SZ.
      pose proof (wf_length _ _ _ (sh_G _ _ _ _ _ _ _ (sz_mat _ _ _ _ SZ))) as LG. cbn [step_prob pr_G] in LG.
      pose proof (wf_length _ _ _ (sh_F _ _ _ _ _ _ _ (sz_mat _ _ _ _ SZ))) as LF. cbn [step_prob pr_F] in LF.
      match goal with |- ?e0 = _ => set (e := e0) in * end. assert (Le : length e = 4%nat) by (unfold e; rewrite !vadd_length, !mv_length, vdiv_length, LG, LF, N1; reflexivity).
      rewrite N1 in *. apply vext; [rewrite vzeros_length; exact Le|]. intros i Hi. rewrite vget_zeros. rewrite Le in Hi.
      unfold vget at 2 3 in R1. unfold vget at 2 3 4 in R2. unfold vget at 2 3 4 in R3. unfold vget at 2 3 4 5 6 in R4. cbn in R1, R2, R3, R4. rewrite !Rinv_inv in *.
      destruct i as [|[|[|[|i]]]]; [rewrite R1; lra|rewrite R2; lra|rewrite R3; lra|rewrite R4; lra|lia]. }
  rewrite N1 in ZZ. injection ZZ as _ ZZ _ _. contradiction.
Qed.
(** *** the engine answers *)
Lemma solve_regular dt f : (0 < mi)%nat -> world_apply_forces w (w_t w) = Ok f -> w_fric_dirs w = 2%nat -> rposed n (nc + 2 * nc + nc) neq (step_prob w dt f) ->
  exists v c, solve_dynamics la mi w dt = Ok (v, c).
Proof.
  intros Hmi Ef H2 HR. destruct (apply_forces_layout _ _ _ Ef) as [Lf _]. unfold solve_dynamics. cbv zeta. rewrite Ef. cbn [bind].
  destruct (w_contacts w) as [|c0 cs] eqn:EC.
  - fold (sys w). destruct (inv_total _ HL _ _ (wf_sys _ _ _ _ HS) (sys_nonsingular _ _ _ _ HS Hm HI)) as [inv Ei].
    destruct (w_cache w) as [i|]; [cbn [bind]; eauto|]. rewrite Ei. cbn [bind]. eauto.
  - rewrite <- EC in *. fold (step_rhs w dt f).
    assert (Hc : w_contacts w <> []) by congruence.
    assert (EP : contact_problem w (if Nat.ltb 0 neq then step_rhs w dt f ++ vzeros neq else step_rhs w dt f) = Ok (step_prob w dt f)).
    { assert (EJ : Jf w = Ok (jf_all w)) by (unfold Jf; rewrite EC, H2; rewrite <- EC; reflexivity).
      destruct (contact_problem w (if Nat.ltb 0 neq then step_rhs w dt f ++ vzeros neq else step_rhs w dt f)) as [pr|e] eqn:E.
      - destruct (contact_problem_inv _ _ _ _ HS dt f pr Hc Lf E) as [_ ->]. reflexivity.
      - unfold contact_problem in E. rewrite EJ in E. discriminate. }
    match goal with |- context[contact_problem w ?u] => replace (contact_problem w u) with (Ok (step_prob w dt f)) by (symmetry; exact EP) end. rewrite H2. cbn [bind].
    assert (Hn : (0 < nc + 2 * nc + nc)%nat) by (rewrite EC; cbn; lia).
    assert (Hsz : Forall (sized n (nc + 2 * nc + nc) neq) [step_prob w dt f]) by (constructor; [now apply (step_sized _ _ _ _ HS)|constructor]).
    destruct (lcp_forward_regular la HL n (nc + 2 * nc + nc) neq Hn (mkOpts (ncst C_1em12) 3 mi) [step_prob w dt f]) as (xs & sv & E); auto.
    rewrite E. cbn [bind].
    assert (H3 : (0 < lo_lim (mkOpts (ncst C_1em12 : R) 3 mi))%nat) by (cbn; lia).
    destruct (forward_best la HL _ _ _ _ _ _ _ Hsz H3 E) as (Ex & Lb & _). cbn [length] in Lb. destruct (sv_best sv) as [|it l]; [discriminate|]. rewrite Ex. cbn [map]. eauto.
Qed.
End Engine.
