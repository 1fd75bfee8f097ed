(** A ball hits another one: positions and their derivatives (for C86) *)
From Coq Require Import List Arith ZArith Bool Reals Lra Lia Psatz.
From Verif Require Import Num Tensor Utils Bodies Forces Constraints Contacts World Spec GeoSpec BodySpec JointSpec EngineSpec WellSpec SceneSpec BilliardSpec
     RBase ResFacts WorldFacts BilliardFacts.
Import ListNotations.
Open Scope R_scope.

Lemma along_at fuel gf o e d xa xb u : exact_along (S fuel) o (diff_handler gf o) e d xa xb u -> forall n, exact_at d o gf fuel e xa xb u n.
Proof. intros H n w E. exact (H n w E). Qed.
Lemma run_places fuel gf o e d xa xb u n k : sensible d -> broadphase_ok o -> 0 < u -> 0 <= gap d xa xb -> u * d_dt d <= d_eps d + d_tol d ->
  exact_along (S fuel) o (diff_handler gf o) e d xa xb u ->
  (forall j, (j < k)%nat -> d_eps d < gap d xa xb - INR j * (u * d_dt d)) -> (n <= k)%nat \/ gap d xa xb - INR k * (u * d_dt d) <= d_eps d ->
  (exists w, duel_after (S fuel) o (diff_handler gf o) e d n xa xb u = Ok w /\ w_t w = INR n * d_dt d) /\
  sim_at (S fuel) o (diff_handler gf o) e d n 0 xa xb u = xa + INR n * (u * d_dt d) - lost d * u * (INR (n - k) * d_dt d) /\
  sim_at (S fuel) o (diff_handler gf o) e d n 1 xa xb u = xb + gained d * u * (INR (n - k) * d_dt d).
Proof.
  intros Hd Ho Hu Hg Hf He Hfar Hk. destruct (run_stage d Hd o Ho gf fuel e xa xb u Hu Hg Hf n k (fun m _ => along_at _ _ _ _ _ _ _ _ He m) Hfar Hk) as (w & Ew & (cs & cache & clk & -> & _)).
  split; [eexists; split; [exact Ew|reflexivity]|]. unfold sim_at. rewrite Ew. split; reflexivity.
Qed.
(** the first step at which the balls are within eps, or [n] *)
Lemma noticed d xa xb u n : exists k, (k <= n)%nat /\ (forall j, (j < k)%nat -> d_eps d < gap d xa xb - INR j * (u * d_dt d)) /\ (k = n \/ gap d xa xb - INR k * (u * d_dt d) <= d_eps d).
Proof.
  induction n as [|n (k & L & F & E)]; [exists 0%nat; split; [lia|]; split; [intros; lia|auto]|].
  destruct (Rle_dec (gap d xa xb - INR k * (u * d_dt d)) (d_eps d)) as [Q|Q]; [exists k; repeat split; auto|].
  destruct E as [->|E]; [|lra]. exists (S n). split; [lia|]. split; [|auto]. intros j Hj. destruct (Nat.eq_dec j n) as [->|N]; [lra|apply F; lia].
Qed.
Lemma since_close d xa xb u n k : sensible d -> 0 < u -> 0 <= gap d xa xb -> (k <= n)%nat ->
  (forall j, (j < k)%nat -> d_eps d < gap d xa xb - INR j * (u * d_dt d)) -> k = n \/ gap d xa xb - INR k * (u * d_dt d) <= d_eps d ->
  Rabs (u * (INR (n - k) * d_dt d) - u * Rmax 0 (INR n * d_dt d - meet_time d xa xb u)) <= d_eps d + u * d_dt d.
Proof.
  intros [h1 h2 h3 h4 h5 h6 h7 h8] Hu Hg Hkn Hfar Hk. assert (Hud : 0 < u * d_dt d) by nra.
  rewrite minus_INR by exact Hkn. unfold meet_time. set (g := gap d xa xb) in *.
  assert (HM : u * Rmax 0 (INR n * d_dt d - g / u) = Rmax 0 (INR n * (u * d_dt d) - g)).
  { rewrite <- RmaxRmult by lra. rewrite Rmult_0_r. f_equal. field. lra. }
  rewrite HM. replace (u * ((INR n - INR k) * d_dt d)) with ((INR n - INR k) * (u * d_dt d)) by ring. set (q := u * d_dt d) in *.
  assert (Hlow : INR k * q <= g - d_eps d + q \/ k = 0%nat).
  { destruct k as [|k]; [auto|left]. pose proof (Hfar k ltac:(lia)) as F. rewrite S_INR. fold q in F. lra. }
  assert (Hk0 : k = 0%nat -> INR k = 0) by (intros ->; reflexivity). apply le_INR in Hkn. assert (0 <= (INR n - INR k) * q) by nra.
  apply Rabs_le. unfold Rmax. destruct (Rle_dec 0 (INR n * q - g)) as [P|P].
  - destruct Hk as [->|Hk]; [|split].
    + split; [|lra]. destruct Hlow as [Hl|Hl]; [lra|]. specialize (Hk0 Hl). rewrite Hk0 in *. lra.
    + destruct Hlow as [Hl|Hl]; [lra|]. specialize (Hk0 Hl). rewrite Hk0 in *. lra.
    + fold q in Hk. lra.
  - destruct Hk as [->|Hk]; [lra|]. fold q in Hk. split; lra.
Qed.
Theorem duel_close fuel gf o e d xa xb u n : sensible d -> broadphase_ok o -> 0 < u -> 0 <= gap d xa xb -> u * d_dt d <= d_eps d + d_tol d ->
  exact_along (S fuel) o (diff_handler gf o) e d xa xb u ->
  (exists w, duel_after (S fuel) o (diff_handler gf o) e d n xa xb u = Ok w /\ w_t w = INR n * d_dt d) /\
  Rabs (sim_at (S fuel) o (diff_handler gf o) e d n 0 xa xb u - true_at d 0 xa xb u (INR n * d_dt d)) <= lost d * (d_eps d + u * d_dt d) /\
  Rabs (sim_at (S fuel) o (diff_handler gf o) e d n 1 xa xb u - true_at d 1 xa xb u (INR n * d_dt d)) <= gained d * (d_eps d + u * d_dt d).
Proof.
  intros Hd Ho Hu Hg Hf He. destruct (noticed d xa xb u n) as (k & Lk & Hfar & Hk).
  destruct (run_places fuel gf o e d xa xb u n k Hd Ho Hu Hg Hf He Hfar) as (R & E0 & E1); [destruct Hk; [left; lia|auto]|].
  split; [exact R|]. rewrite E0, E1. unfold true_at. pose proof (since_close d xa xb u n k Hd Hu Hg Lk Hfar Hk) as C.
  set (s := INR (n - k) * d_dt d) in *. set (s' := Rmax 0 (INR n * d_dt d - meet_time d xa xb u)) in *.
  assert (Pl : 0 <= lost d) by (destruct Hd; unfold lost; apply Rmult_le_pos; [apply Rmult_le_pos; lra|apply Rlt_le, Rinv_0_lt_compat; lra]).
  assert (Pg : 0 <= gained d) by (destruct Hd; unfold gained; apply Rmult_le_pos; [apply Rmult_le_pos; lra|apply Rlt_le, Rinv_0_lt_compat; lra]).
  split.
  - match goal with |- Rabs ?x <= _ => replace x with (- (lost d * (u * s - u * s'))) by ring end. rewrite Rabs_Ropp, Rabs_mult, (Rabs_pos_eq (lost d)) by exact Pl. now apply Rmult_le_compat_l.
  - match goal with |- Rabs ?x <= _ => replace x with (gained d * (u * s - u * s')) by ring end. rewrite Rabs_mult, (Rabs_pos_eq (gained d)) by exact Pg. now apply Rmult_le_compat_l.
Qed.

(** *** derivatives *)
Lemma locally_affine (f : R -> R) x l del : 0 < del -> (forall y, Rabs (y - x) < del -> f y = f x + l * (y - x)) -> derivable_pt_lim f x l.
Proof.
  intros Hdel H eps He. exists (mkposreal del Hdel). intros h Hh Hb. cbn in Hb. rewrite H by (replace (x + h - x) with h by ring; exact Hb).
  replace ((f x + l * (x + h - x) - f x) / h - l) with 0 by (field; exact Hh). now rewrite Rabs_R0.
Qed.
Lemma noticed_last d xa xb u k : 0 < u * d_dt d -> gap d xa xb - INR k * (u * d_dt d) < d_eps d -> (k <> 0%nat -> d_eps d < gap d xa xb - (INR k - 1) * (u * d_dt d)) -> noticed_after d xa xb u k.
Proof.
  intros Hq H1 H2. split; [exact H1|]. intros j Hj. destruct k as [|k]; [lia|]. specialize (H2 ltac:(lia)). rewrite S_INR in H2. assert (INR j <= INR k) by (apply le_INR; lia). nra.
Qed.
Lemma noticed_near_x d xa xb u k : sensible d -> 0 < u -> 0 < gap d xa xb -> noticed_after d xa xb u k ->
  exists del, 0 < del /\ forall x, Rabs (x - xa) < del -> 0 <= gap d x xb /\ noticed_after d x xb u k.
Proof.
  intros Hd Hu Hg [H1 H2]. assert (Hq : 0 < u * d_dt d) by (destruct Hd; nra).
  set (m := match k with O => 1 | S j => gap d xa xb - INR j * (u * d_dt d) - d_eps d end).
  assert (Hm : 0 < m) by (unfold m; destruct k as [|j]; [lra|specialize (H2 j ltac:(lia)); lra]).
  exists (Rmin (gap d xa xb) (Rmin (d_eps d - (gap d xa xb - INR k * (u * d_dt d))) m)). split; [repeat apply Rmin_glb_lt; lra|].
  intros x Hx. assert (X1 : Rabs (x - xa) < gap d xa xb) by (eapply Rlt_le_trans; [exact Hx|apply Rmin_l]).
  assert (X2 : Rabs (x - xa) < d_eps d - (gap d xa xb - INR k * (u * d_dt d))) by (eapply Rlt_le_trans; [exact Hx|eapply Rle_trans; [apply Rmin_r|apply Rmin_l]]).
  assert (X3 : Rabs (x - xa) < m) by (eapply Rlt_le_trans; [exact Hx|eapply Rle_trans; [apply Rmin_r|apply Rmin_r]]).
  apply Rabs_def2 in X1, X2, X3. assert (EG : gap d x xb = gap d xa xb - (x - xa)) by (unfold gap; ring). split; [lra|]. apply noticed_last; [exact Hq|lra|].
  intros N. unfold m in X3. destruct k as [|j]; [lia|]. rewrite S_INR. lra.
Qed.
Lemma noticed_near_u d xa xb u k : sensible d -> 0 < u -> u * d_dt d < d_eps d + d_tol d -> noticed_after d xa xb u k ->
  exists del, 0 < del /\ forall v, Rabs (v - u) < del -> 0 < v /\ v * d_dt d <= d_eps d + d_tol d /\ noticed_after d xa xb v k.
Proof.
  intros Hd Hu Hf [H1 H2]. destruct Hd as [h1 h2 h3 h4 h5 h6 h7 h8].
  set (m := match k with O => 1 | S j => gap d xa xb - INR j * (u * d_dt d) - d_eps d end).
  assert (Hm : 0 < m) by (unfold m; destruct k as [|j]; [lra|specialize (H2 j ltac:(lia)); lra]).
  set (m2 := Rmin (d_eps d - (gap d xa xb - INR k * (u * d_dt d))) (Rmin m (d_eps d + d_tol d - u * d_dt d))).
  assert (Hm2 : 0 < m2) by (unfold m2; repeat apply Rmin_glb_lt; lra).
  assert (M1 : m2 <= d_eps d - (gap d xa xb - INR k * (u * d_dt d))) by apply Rmin_l.
  assert (M2 : m2 <= m) by (eapply Rle_trans; [apply Rmin_r|apply Rmin_l]). assert (M3 : m2 <= d_eps d + d_tol d - u * d_dt d) by (eapply Rle_trans; [apply Rmin_r|apply Rmin_r]).
  pose proof (pos_INR k) as Pk. set (K := (INR k + 1) * d_dt d). assert (HK : 0 < K) by (unfold K; apply Rmult_lt_0_compat; lra).
  exists (Rmin u (m2 / K)). split; [apply Rmin_glb_lt; [lra|apply Rmult_lt_0_compat; [lra|now apply Rinv_0_lt_compat]]|].
  intros v Hv. assert (V1 : Rabs (v - u) < u) by (eapply Rlt_le_trans; [exact Hv|apply Rmin_l]). assert (V2 : Rabs (v - u) < m2 / K) by (eapply Rlt_le_trans; [exact Hv|apply Rmin_r]).
  assert (V3 : Rabs (v - u) * K < m2) by (apply (Rmult_lt_compat_r K) in V2; [|exact HK]; replace (m2 / K * K) with m2 in V2 by (field; lra); exact V2).
  assert (V4 : forall c, 0 <= c <= INR k + 1 -> Rabs (c * ((v - u) * d_dt d)) < m2).
  { intros c Hc. rewrite !Rabs_mult, (Rabs_pos_eq c), (Rabs_pos_eq (d_dt d)) by lra. eapply Rle_lt_trans; [|exact V3]. unfold K. pose proof (Rabs_pos (v - u)).
    replace (c * (Rabs (v - u) * d_dt d)) with (Rabs (v - u) * (c * d_dt d)) by ring. apply Rmult_le_compat_l; [lra|]. apply Rmult_le_compat_r; lra. }
  apply Rabs_def2 in V1. split; [lra|].
  assert (W1 := V4 1 ltac:(lra)). apply Rabs_def2 in W1. split; [lra|]. apply noticed_last; [apply Rmult_lt_0_compat; lra| |].
  - assert (W := V4 (INR k) ltac:(lra)). apply Rabs_def2 in W. lra.
  - intros N. unfold m in M2. destruct k as [|j]; [lia|]. rewrite S_INR in *. pose proof (pos_INR j). assert (W := V4 (INR j) ltac:(lra)). apply Rabs_def2 in W. lra.
Qed.

(** the engine is exact whatever the start *)
Section Grad.
Variables (fuel gf : nat) (o : oracle R) (e : engine R) (d : duel) (xa xb u : R) (n k : nat).
Hypotheses (Hd : sensible d) (Ho : broadphase_ok o) (Hu : 0 < u) (Hg : 0 < gap d xa xb) (Hf : u * d_dt d < d_eps d + d_tol d) (Hk : noticed_after d xa xb u k).
Hypothesis He : forall x v, 0 <= gap d x xb -> 0 < v -> v * d_dt d <= d_eps d + d_tol d -> exact_along (S fuel) o (diff_handler gf o) e d x xb v.
Notation sim := (sim_at (S fuel) o (diff_handler gf o) e d n).
Notation T := (INR n * d_dt d). Notation s := (INR (n - k) * d_dt d).
Lemma sim_x : derivable_pt_lim (fun x => sim 0%nat x xb u) xa 1 /\ derivable_pt_lim (fun x => sim 1%nat x xb u) xa 0.
Proof.
  destruct (noticed_near_x d xa xb u k Hd Hu Hg Hk) as (del & Hdel & G).
  assert (P : forall x, Rabs (x - xa) < del -> sim 0%nat x xb u = x + INR n * (u * d_dt d) - lost d * u * s /\ sim 1%nat x xb u = xb + gained d * u * s).
  { intros x Hx. destruct (G x Hx) as [G1 [G2 G3]]. destruct (run_places fuel gf o e d x xb u n k) as (_ & E); auto; [lra|apply He; auto; lra|right; lra]. }
  assert (P0 : Rabs (xa - xa) < del) by (rewrite Rminus_diag_eq, Rabs_R0 by reflexivity; exact Hdel).
  split; apply (locally_affine _ _ _ del Hdel); intros y Hy; destruct (P y Hy) as [E1 E2], (P xa P0) as [F1 F2]; [rewrite E1, F1|rewrite E2, F2]; ring.
Qed.
Lemma sim_u : derivable_pt_lim (fun v => sim 0%nat xa xb v) u (T - lost d * s) /\ derivable_pt_lim (fun v => sim 1%nat xa xb v) u (gained d * s).
Proof.
  destruct (noticed_near_u d xa xb u k Hd Hu Hf Hk) as (del & Hdel & G).
  assert (P : forall v, Rabs (v - u) < del -> sim 0%nat xa xb v = xa + INR n * (v * d_dt d) - lost d * v * s /\ sim 1%nat xa xb v = xb + gained d * v * s).
  { intros v Hv. destruct (G v Hv) as (G1 & G2 & [G3 G4]). destruct (run_places fuel gf o e d xa xb v n k) as (_ & E); auto; [lra|apply He; auto; lra|right; lra]. }
  assert (P0 : Rabs (u - u) < del) by (rewrite Rminus_diag_eq, Rabs_R0 by reflexivity; exact Hdel).
  split; apply (locally_affine _ _ _ del Hdel); intros y Hy; destruct (P y Hy) as [E1 E2], (P u P0) as [F1 F2]; [rewrite E1, F1|rewrite E2, F2]; ring.
Qed.
End Grad.
(** reality *)
Lemma true_met d xa xb u t : 0 < u -> gap d xa xb <= u * t -> true_at d 0 xa xb u t = xa + u * t - lost d * (u * t - gap d xa xb) /\ true_at d 1 xa xb u t = xb + gained d * (u * t - gap d xa xb).
Proof.
  intros Hu Ht. unfold true_at, meet_time. assert (P : 0 <= t - gap d xa xb / u).
  { apply (Rmult_le_reg_l u); [exact Hu|]. replace (u * (t - gap d xa xb / u)) with (u * t - gap d xa xb) by (field; lra). lra. }
  rewrite Rmax_right by exact P. split; field; lra.
Qed.
Lemma true_free d xa xb u t : 0 < u -> u * t <= gap d xa xb -> true_at d 0 xa xb u t = xa + u * t /\ true_at d 1 xa xb u t = xb.
Proof.
  intros Hu Ht. unfold true_at, meet_time. assert (P : t - gap d xa xb / u <= 0).
  { apply (Rmult_le_reg_l u); [exact Hu|]. replace (u * (t - gap d xa xb / u)) with (u * t - gap d xa xb) by (field; lra). lra. }
  rewrite Rmax_left by exact P. split; ring.
Qed.
Lemma near_u u g t : 0 < u -> 0 <= t -> exists del, 0 < del /\ forall v, Rabs (v - u) < del -> 0 < v /\ (g < u * t -> g <= v * t) /\ (u * t < g -> v * t <= g).
Proof.
  intros Hu Ht. set (m := if Req_EM_T (u * t) g then 1 else Rabs (u * t - g)).
  assert (Hm : 0 < m) by (unfold m; destruct (Req_EM_T (u * t) g); [lra|apply Rabs_pos_lt; lra]).
  exists (Rmin u (m / (t + 1))). split; [apply Rmin_glb_lt; [lra|apply Rmult_lt_0_compat; [lra|apply Rinv_0_lt_compat; lra]]|].
  intros v Hv. assert (V1 : Rabs (v - u) < u) by (eapply Rlt_le_trans; [exact Hv|apply Rmin_l]). assert (V2 : Rabs (v - u) < m / (t + 1)) by (eapply Rlt_le_trans; [exact Hv|apply Rmin_r]).
  assert (V3 : Rabs (v - u) * (t + 1) < m) by (apply (Rmult_lt_compat_r (t + 1)) in V2; [|lra]; replace (m / (t + 1) * (t + 1)) with m in V2 by (field; lra); exact V2).
  pose proof (Rabs_pos (v - u)) as A0. assert (V4 : Rabs ((v - u) * t) < m) by (rewrite Rabs_mult, (Rabs_pos_eq t) by exact Ht; nra).
  apply Rabs_def2 in V1. apply Rabs_def2 in V4. unfold m in V4. destruct (Req_EM_T (u * t) g) as [E|E]; [split; [lra|split; lra]|].
  split; [lra|]. split; intros L; [rewrite Rabs_pos_eq in V4 by lra|rewrite Rabs_left in V4 by lra]; lra.
Qed.
Theorem true_x d xa xb u t : 0 < u ->
  (gap d xa xb < u * t -> derivable_pt_lim (fun x => true_at d 0 x xb u t) xa (1 - lost d) /\ derivable_pt_lim (fun x => true_at d 1 x xb u t) xa (gained d)) /\
  (u * t < gap d xa xb -> derivable_pt_lim (fun x => true_at d 0 x xb u t) xa 1 /\ derivable_pt_lim (fun x => true_at d 1 x xb u t) xa 0).
Proof.
  intros Hu. assert (EG : forall x, gap d x xb = gap d xa xb - (x - xa)) by (intros; unfold gap; ring). split; intros Ht.
  - assert (Hdel : 0 < u * t - gap d xa xb) by lra.
    split; apply (locally_affine _ _ _ _ Hdel); intros y Hy; apply Rabs_def2 in Hy; specialize (EG y);
      destruct (true_met d y xb u t Hu ltac:(lra)) as [E1 E2], (true_met d xa xb u t Hu ltac:(lra)) as [F1 F2]; [rewrite E1, F1|rewrite E2, F2]; rewrite EG; ring.
  - assert (Hdel : 0 < gap d xa xb - u * t) by lra.
    split; apply (locally_affine _ _ _ _ Hdel); intros y Hy; apply Rabs_def2 in Hy; specialize (EG y);
      destruct (true_free d y xb u t Hu ltac:(lra)) as [E1 E2], (true_free d xa xb u t Hu ltac:(lra)) as [F1 F2]; [rewrite E1, F1|rewrite E2, F2]; ring.
Qed.
Theorem true_u d xa xb u t : 0 < u -> 0 <= t ->
  (gap d xa xb < u * t -> derivable_pt_lim (fun v => true_at d 0 xa xb v t) u (t - lost d * t) /\ derivable_pt_lim (fun v => true_at d 1 xa xb v t) u (gained d * t)) /\
  (u * t < gap d xa xb -> derivable_pt_lim (fun v => true_at d 0 xa xb v t) u t /\ derivable_pt_lim (fun v => true_at d 1 xa xb v t) u 0).
Proof.
  intros Hu Ht. destruct (near_u u (gap d xa xb) t Hu Ht) as (del & Hdel & G).
  assert (P0 : Rabs (u - u) < del) by (rewrite Rminus_diag_eq, Rabs_R0 by reflexivity; exact Hdel). destruct (G u P0) as (_ & G2 & G3). split; intros L.
  - split; apply (locally_affine _ _ _ _ Hdel); intros y Hy; destruct (G y Hy) as (Y1 & Y2 & _);
      destruct (true_met d xa xb y t Y1 (Y2 L)) as [E1 E2], (true_met d xa xb u t Hu (G2 L)) as [F1 F2]; [rewrite E1, F1|rewrite E2, F2]; ring.
  - split; apply (locally_affine _ _ _ _ Hdel); intros y Hy; destruct (G y Hy) as (Y1 & _ & Y2);
      destruct (true_free d xa xb y t Y1 (Y2 L)) as [E1 E2], (true_free d xa xb u t Hu (G3 L)) as [F1 F2]; [rewrite E1, F1|rewrite E2, F2]; ring.
Qed.

(** *** derivatives with respect to the mass and the restitution of the first ball *)
Lemma lost_mass d m : 0 < m -> 0 < d_mb d -> derivable_pt_lim (fun x => lost (with_mass d x)) m (- ((1 + d_rest d) * d_mb d / ((m + d_mb d) * (m + d_mb d)))).
Proof.
  intros Hm Hb. assert (N : m + d_mb d <> 0) by lra.
  pose proof (derivable_pt_lim_div (fun _ => (1 + d_rest d) * d_mb d) (fun x => x + d_mb d) m 0 (1 + 0) (derivable_pt_lim_const _ _)
    (derivable_pt_lim_plus id (fun _ => d_mb d) m 1 0 (derivable_pt_lim_id m) (derivable_pt_lim_const _ _)) N) as D.
  replace (- ((1 + d_rest d) * d_mb d / ((m + d_mb d) * (m + d_mb d)))) with ((0 * (m + d_mb d) - (1 + 0) * ((1 + d_rest d) * d_mb d)) / Rsqr (m + d_mb d)) by (unfold Rsqr; field; lra).
  exact D.
Qed.
Lemma gained_mass d m : 0 < m -> 0 < d_mb d -> derivable_pt_lim (fun x => gained (with_mass d x)) m ((1 + d_rest d) * d_mb d / ((m + d_mb d) * (m + d_mb d))).
Proof.
  intros Hm Hb. assert (N : m + d_mb d <> 0) by lra.
  pose proof (derivable_pt_lim_div (fun x => (1 + d_rest d) * x) (fun x => x + d_mb d) m ((1 + d_rest d) * 1) (1 + 0) (derivable_pt_lim_scal id (1 + d_rest d) m 1 (derivable_pt_lim_id m))
    (derivable_pt_lim_plus id (fun _ => d_mb d) m 1 0 (derivable_pt_lim_id m) (derivable_pt_lim_const _ _)) N) as D.
  replace ((1 + d_rest d) * d_mb d / ((m + d_mb d) * (m + d_mb d))) with (((1 + d_rest d) * 1 * (m + d_mb d) - (1 + 0) * ((1 + d_rest d) * m)) / Rsqr (m + d_mb d)) by (unfold Rsqr; field; lra).
  exact D.
Qed.
Lemma lost_rest d r : sensible d -> derivable_pt_lim (fun x => lost (with_rest d x)) r (d_mb d / (2 * (d_ma d + d_mb d))).
Proof.
  intros []. apply (locally_affine _ _ _ 1); [lra|]. intros y _. unfold lost, d_rest. cbn. field. lra.
Qed.
Lemma gained_rest d r : sensible d -> derivable_pt_lim (fun x => gained (with_rest d x)) r (d_ma d / (2 * (d_ma d + d_mb d))).
Proof.
  intros []. apply (locally_affine _ _ _ 1); [lra|]. intros y _. unfold gained, d_rest. cbn. field. lra.
Qed.
Lemma shift_lim (f g : R -> R) x l del a c : 0 < del -> (forall y, Rabs (y - x) < del -> f y = a + c * g y) -> derivable_pt_lim g x l -> derivable_pt_lim f x (c * l).
Proof.
  intros Hdel Hf Dg. assert (D : derivable_pt_lim (fun y => a + c * g y) x (0 + c * l)).
  { apply (derivable_pt_lim_plus (fun _ => a) (fun y => c * g y)); [apply derivable_pt_lim_const|]. exact (derivable_pt_lim_scal g c x l Dg). }
  rewrite Rplus_0_l in D. intros eps He. destruct (D eps He) as [e1 H1]. assert (P : 0 < Rmin del e1) by (apply Rmin_glb_lt; [exact Hdel|apply cond_pos]).
  exists (mkposreal _ P). cbn. intros h Hh Hb. assert (B1 : Rabs h < del) by (eapply Rlt_le_trans; [exact Hb|apply Rmin_l]). assert (B2 : Rabs h < e1) by (eapply Rlt_le_trans; [exact Hb|apply Rmin_r]).
  rewrite (Hf (x + h)) by (replace (x + h - x) with h by ring; exact B1). rewrite (Hf x) by (rewrite Rminus_diag_eq, Rabs_R0 by reflexivity; exact Hdel). exact (H1 h Hh B2).
Qed.
(** along any family of balls that differ only in what they exchange *)
Lemma family_grad fuel gf o e (D : R -> duel) x del ll lg xa xb u n : 0 < del ->
  (forall y, Rabs (y - x) < del -> sensible (D y) /\ gap (D y) xa xb = gap (D x) xa xb /\ d_dt (D y) = d_dt (D x) /\ d_eps (D y) = d_eps (D x) /\ d_tol (D y) = d_tol (D x) /\
     exact_along (S fuel) o (diff_handler gf o) e (D y) xa xb u) ->
  derivable_pt_lim (fun y => lost (D y)) x ll -> derivable_pt_lim (fun y => gained (D y)) x lg ->
  broadphase_ok o -> 0 < u -> 0 <= gap (D x) xa xb -> u * d_dt (D x) <= d_eps (D x) + d_tol (D x) ->
  exists s0 s1 t0 t1,
    derivable_pt_lim (fun y => sim_at (S fuel) o (diff_handler gf o) e (D y) n 0 xa xb u) x s0 /\ derivable_pt_lim (fun y => true_at (D y) 0 xa xb u (INR n * d_dt (D x))) x t0 /\
    derivable_pt_lim (fun y => sim_at (S fuel) o (diff_handler gf o) e (D y) n 1 xa xb u) x s1 /\ derivable_pt_lim (fun y => true_at (D y) 1 xa xb u (INR n * d_dt (D x))) x t1 /\
    Rabs (s0 - t0) <= Rabs ll * (d_eps (D x) + u * d_dt (D x)) /\ Rabs (s1 - t1) <= Rabs lg * (d_eps (D x) + u * d_dt (D x)).
Proof.
  intros Hdel HD Dl Dg Ho Hu Hg Hf. destruct (noticed (D x) xa xb u n) as (k & Lk & Hfar & Hk).
  assert (Hx : sensible (D x)) by (apply (HD x); rewrite Rminus_diag_eq, Rabs_R0 by reflexivity; exact Hdel).
  assert (P : forall y, Rabs (y - x) < del ->
    sim_at (S fuel) o (diff_handler gf o) e (D y) n 0 xa xb u = xa + INR n * (u * d_dt (D x)) - lost (D y) * u * (INR (n - k) * d_dt (D x)) /\
    sim_at (S fuel) o (diff_handler gf o) e (D y) n 1 xa xb u = xb + gained (D y) * u * (INR (n - k) * d_dt (D x)) /\
    meet_time (D y) xa xb u = meet_time (D x) xa xb u).
  { intros y Hy. destruct (HD y Hy) as (Sy & Gy & Ty & Ey & Oy & Xy).
    destruct (run_places fuel gf o e (D y) xa xb u n k) as (_ & E0 & E1); auto.
    - rewrite Gy; exact Hg.
    - rewrite Ty, Ey, Oy; exact Hf.
    - intros j Hj. rewrite Gy, Ty, Ey. now apply Hfar.
    - rewrite Gy, Ty, Ey. destruct Hk; [left; lia|auto].
    - rewrite Ty in E0, E1. split; [exact E0|]. split; [exact E1|]. unfold meet_time. now rewrite Gy. }
  pose proof (since_close (D x) xa xb u n k Hx Hu Hg Lk Hfar Hk) as C. set (T := INR n * d_dt (D x)) in *. set (s := INR (n - k) * d_dt (D x)) in *. set (s' := Rmax 0 (T - meet_time (D x) xa xb u)) in *.
  exists (- (u * s) * ll), ((u * s) * lg), (- (u * s') * ll), ((u * s') * lg).
  split; [|split; [|split; [|split; [|split]]]].
  - apply (shift_lim _ (fun y => lost (D y)) x ll del (xa + INR n * (u * d_dt (D x))) _ Hdel); [|exact Dl]. intros y Hy. destruct (P y Hy) as (E & _ & _). rewrite E. ring.
  - apply (shift_lim _ (fun y => lost (D y)) x ll del (xa + u * T) _ Hdel); [|exact Dl]. intros y Hy. destruct (P y Hy) as (_ & _ & E). unfold true_at. rewrite E. fold s'. ring.
  - apply (shift_lim _ (fun y => gained (D y)) x lg del xb _ Hdel); [|exact Dg]. intros y Hy. destruct (P y Hy) as (_ & E & _). rewrite E. ring.
  - apply (shift_lim _ (fun y => gained (D y)) x lg del xb _ Hdel); [|exact Dg]. intros y Hy. destruct (P y Hy) as (_ & _ & E). unfold true_at. rewrite E. fold s'. ring.
  - replace (- (u * s) * ll - - (u * s') * ll) with (- (ll * (u * s - u * s'))) by ring. rewrite Rabs_Ropp, Rabs_mult. apply Rmult_le_compat_l; [apply Rabs_pos|exact C].
  - replace (u * s * lg - u * s' * lg) with (lg * (u * s - u * s')) by ring. rewrite Rabs_mult. apply Rmult_le_compat_l; [apply Rabs_pos|exact C].
Qed.
Theorem mass_grad fuel gf o e d xa xb u n : sensible d -> broadphase_ok o -> 0 < u -> 0 <= gap d xa xb -> u * d_dt d <= d_eps d + d_tol d ->
  (forall m, 0 < m -> exact_along (S fuel) o (diff_handler gf o) e (with_mass d m) xa xb u) ->
  let c := (1 + d_rest d) * d_mb d / ((d_ma d + d_mb d) * (d_ma d + d_mb d)) in
  exists s0 s1 t0 t1,
    derivable_pt_lim (fun m => sim_at (S fuel) o (diff_handler gf o) e (with_mass d m) n 0 xa xb u) (d_ma d) s0 /\
    derivable_pt_lim (fun m => true_at (with_mass d m) 0 xa xb u (INR n * d_dt d)) (d_ma d) t0 /\
    derivable_pt_lim (fun m => sim_at (S fuel) o (diff_handler gf o) e (with_mass d m) n 1 xa xb u) (d_ma d) s1 /\
    derivable_pt_lim (fun m => true_at (with_mass d m) 1 xa xb u (INR n * d_dt d)) (d_ma d) t1 /\
    Rabs (s0 - t0) <= c * (d_eps d + u * d_dt d) /\ Rabs (s1 - t1) <= c * (d_eps d + u * d_dt d).
Proof.
  intros Hd Ho Hu Hg Hf He c.
  assert (Pc : 0 <= c).
  { destruct Hd. unfold c. apply Rmult_le_pos; [apply Rmult_le_pos; lra|]. apply Rlt_le, Rinv_0_lt_compat. apply Rmult_lt_0_compat; lra. }
  assert (Hm : 0 < d_ma d) by (destruct Hd; lra). assert (Hb : 0 < d_mb d) by (destruct Hd; lra).
  destruct (family_grad fuel gf o e (with_mass d) (d_ma d) (d_ma d) (- c) c xa xb u n Hm) as (s0 & s1 & t0 & t1 & E); auto.
  - intros y Hy. apply Rabs_def2 in Hy. destruct Hd. split; [constructor; auto; cbn; lra|]. repeat (split; [reflexivity|]). apply He. lra.
  - exact (lost_mass d (d_ma d) Hm Hb).
  - exact (gained_mass d (d_ma d) Hm Hb).
  - rewrite Rabs_Ropp, (Rabs_pos_eq c Pc) in E. exists s0, s1, t0, t1. exact E.
Qed.
Theorem rest_grad fuel gf o e d xa xb u n : sensible d -> 0 < d_rest d -> broadphase_ok o -> 0 < u -> 0 <= gap d xa xb -> u * d_dt d <= d_eps d + d_tol d ->
  (forall r, 0 <= d_rest (with_rest d r) -> exact_along (S fuel) o (diff_handler gf o) e (with_rest d r) xa xb u) ->
  exists s0 s1 t0 t1,
    derivable_pt_lim (fun r => sim_at (S fuel) o (diff_handler gf o) e (with_rest d r) n 0 xa xb u) (d_ea d) s0 /\
    derivable_pt_lim (fun r => true_at (with_rest d r) 0 xa xb u (INR n * d_dt d)) (d_ea d) t0 /\
    derivable_pt_lim (fun r => sim_at (S fuel) o (diff_handler gf o) e (with_rest d r) n 1 xa xb u) (d_ea d) s1 /\
    derivable_pt_lim (fun r => true_at (with_rest d r) 1 xa xb u (INR n * d_dt d)) (d_ea d) t1 /\
    Rabs (s0 - t0) <= 1 / 2 * (d_eps d + u * d_dt d) /\ Rabs (s1 - t1) <= 1 / 2 * (d_eps d + u * d_dt d).
Proof.
  intros Hd Hr Ho Hu Hg Hf He. assert (Hdel : 0 < 2 * d_rest d) by lra.
  assert (H0 : 0 <= d_eps d + u * d_dt d) by (destruct Hd; assert (0 < u * d_dt d) by nra; lra).
  destruct (family_grad fuel gf o e (with_rest d) (d_ea d) (2 * d_rest d) (d_mb d / (2 * (d_ma d + d_mb d))) (d_ma d / (2 * (d_ma d + d_mb d))) xa xb u n Hdel) as (s0 & s1 & t0 & t1 & E1 & E2 & E3 & E4 & E5 & E6); auto.
  - intros y Hy. apply Rabs_def2 in Hy. assert (Q : 0 <= d_rest (with_rest d y)) by (unfold d_rest in *; cbn; lra). destruct Hd. split; [constructor; auto|]. repeat (split; [reflexivity|]). now apply He.
  - now apply lost_rest.
  - now apply gained_rest.
  - exists s0, s1, t0, t1. repeat (split; [assumption|]). destruct Hd as [h1 h2 h3 h4 h5 h6 h7 h8].
    assert (B : forall a b, 0 < a -> 0 < b -> Rabs (a / (2 * (a + b))) <= 1 / 2 /\ Rabs (a / (2 * (b + a))) <= 1 / 2).
    { intros a b Ha Hb. assert (G : 0 < a / (2 * (a + b)) <= 1 / 2).
      { split; [apply Rmult_lt_0_compat; [exact Ha|apply Rinv_0_lt_compat; lra]|]. apply (Rmult_le_reg_r (2 * (a + b))); [lra|]. replace (a / (2 * (a + b)) * (2 * (a + b))) with a by (field; lra). lra. }
      replace (b + a) with (a + b) by ring. rewrite Rabs_pos_eq by lra. lra. }
    cbn [with_rest d_eps d_dt] in E5, E6. split; (eapply Rle_trans; [eassumption|]); apply Rmult_le_compat_r; auto; apply B; auto.
Qed.
