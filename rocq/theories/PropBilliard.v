(** C86: gradients through a collision *)
From Coq Require Import List Arith ZArith Bool Reals Lra Lia.
From Verif Require Import Num Tensor Utils Bodies Forces Constraints Contacts World Spec BodySpec EngineSpec WellSpec SceneSpec BilliardSpec
     RBase BilliardFacts BilliardProps BilliardEx FloatEx ContactEx SceneEx.
Import ListNotations.
Open Scope R_scope.

(** C86.  A ball runs into a ball at rest, with exact contact responses.  Every run returns, and all positions are the ones
    of the real motion up to the distance at which contacts are noticed and the way made in a step: as eps and dt go to 0
    the positions converge. *)
Theorem C86_positions :
  forall fuel gf o e d xa xb u n,
    sensible d -> broadphase_ok o -> 0 < u -> 0 <= gap d xa xb -> u * d_dt d <= d_eps d + d_tol d ->
    exact_along (S fuel) o (diff_handler gf o) e d xa xb u ->
    (exists w, duel_after (S fuel) o (diff_handler gf o) e d n xa xb u = Ok w /\ w_t w = INR n * d_dt d) /\
    Rabs (sim_at (S fuel) o (diff_handler gf o) e d n 0 xa xb u - true_at d 0 xa xb u (INR n * d_dt d)) <= lost d * (d_eps d + u * d_dt d) /\
    Rabs (sim_at (S fuel) o (diff_handler gf o) e d n 1 xa xb u - true_at d 1 xa xb u (INR n * d_dt d)) <= gained d * (d_eps d + u * d_dt d).
Proof. exact duel_close. Qed.
Print Assumptions C86_positions.
(** But their derivatives do not: with respect to the initial position of the first ball they are 1 and 0 after the
    collision, as if it had not taken place, whatever dt, eps and tol are; the real ones are 1 - lost and gained. *)
Theorem C86_position_gradient_refuted :
  forall fuel gf o e d xa xb u n k,
    sensible d -> broadphase_ok o -> 0 < u -> 0 < gap d xa xb -> u * d_dt d < d_eps d + d_tol d -> noticed_after d xa xb u k ->
    (forall x v, 0 <= gap d x xb -> 0 < v -> v * d_dt d <= d_eps d + d_tol d -> exact_along (S fuel) o (diff_handler gf o) e d x xb v) ->
    gap d xa xb < u * (INR n * d_dt d) ->
    derivable_pt_lim (fun x => sim_at (S fuel) o (diff_handler gf o) e d n 0 x xb u) xa 1 /\
    derivable_pt_lim (fun x => sim_at (S fuel) o (diff_handler gf o) e d n 1 x xb u) xa 0 /\
    derivable_pt_lim (fun x => true_at d 0 x xb u (INR n * d_dt d)) xa (1 - lost d) /\
    derivable_pt_lim (fun x => true_at d 1 x xb u (INR n * d_dt d)) xa (gained d) /\
    lost d <> 0 /\ gained d <> 0.
Proof.
  intros fuel gf o e d xa xb u n k Hd Ho Hu Hg Hf Hk He Ht. destruct (sim_x fuel gf o e d xa xb u n k Hd Ho Hu Hg Hf Hk He) as [A B]. destruct (true_x d xa xb u (INR n * d_dt d) Hu) as [C _]. destruct (C Ht) as [C1 C2].
  split; [exact A|]. split; [exact B|]. split; [exact C1|]. split; [exact C2|]. destruct Hd.
  split; apply Rgt_not_eq; unfold lost, gained; apply Rmult_lt_0_compat; try (apply Rmult_lt_0_compat; lra); apply Rinv_0_lt_compat; lra.
Qed.
Print Assumptions C86_position_gradient_refuted.
(** With respect to the velocity, the derivatives count only the time after the contact was noticed where the real ones
    count the whole time. *)
Theorem C86_velocity_gradient_refuted :
  forall fuel gf o e d xa xb u n k,
    sensible d -> broadphase_ok o -> 0 < u -> 0 < gap d xa xb -> u * d_dt d < d_eps d + d_tol d -> noticed_after d xa xb u k ->
    (forall x v, 0 <= gap d x xb -> 0 < v -> v * d_dt d <= d_eps d + d_tol d -> exact_along (S fuel) o (diff_handler gf o) e d x xb v) ->
    gap d xa xb < u * (INR n * d_dt d) -> (k <= n)%nat ->
    let T := INR n * d_dt d in let before := INR k * d_dt d in
    derivable_pt_lim (fun v => sim_at (S fuel) o (diff_handler gf o) e d n 0 xa xb v) u (T - lost d * (T - before)) /\
    derivable_pt_lim (fun v => sim_at (S fuel) o (diff_handler gf o) e d n 1 xa xb v) u (gained d * (T - before)) /\
    derivable_pt_lim (fun v => true_at d 0 xa xb v T) u (T - lost d * T) /\
    derivable_pt_lim (fun v => true_at d 1 xa xb v T) u (gained d * T) /\
    gap d xa xb - d_eps d < u * before.
Proof.
  intros fuel gf o e d xa xb u n k Hd Ho Hu Hg Hf Hk He Ht L T before. destruct (sim_u fuel gf o e d xa xb u n k Hd Ho Hu Hg Hf Hk He) as [A B].
  assert (P : 0 <= INR n * d_dt d) by (destruct Hd; apply Rmult_le_pos; [apply pos_INR|lra]). destruct (true_u d xa xb u (INR n * d_dt d) Hu P) as [C _]. destruct (C Ht) as [C1 C2].
  assert (E : INR (n - k) * d_dt d = T - before) by (unfold T, before; rewrite minus_INR by exact L; ring). rewrite E in A, B. destruct Hk as [K _]. unfold before.
  split; [exact A|]. split; [exact B|]. split; [exact C1|]. split; [exact C2|]. lra.
Qed.
Print Assumptions C86_velocity_gradient_refuted.
(** What holds: the derivatives with respect to the mass of the first ball, and to its restitution, are the real ones up to
    eps and the way made in a step, after any number of steps, ... *)
Theorem C86_mass_gradient :
  forall fuel gf o e d xa xb u n,
    sensible d -> broadphase_ok o -> 0 < u -> 0 <= gap d xa xb -> u * d_dt d <= d_eps d + d_tol d ->
    (forall m, 0 < m -> exact_along (S fuel) o (diff_handler gf o) e (with_mass d m) xa xb u) ->
    let c := (1 + d_rest d) * d_mb d / ((d_ma d + d_mb d) * (d_ma d + d_mb d)) in
    exists s0 s1 t0 t1,
      derivable_pt_lim (fun m => sim_at (S fuel) o (diff_handler gf o) e (with_mass d m) n 0 xa xb u) (d_ma d) s0 /\
      derivable_pt_lim (fun m => true_at (with_mass d m) 0 xa xb u (INR n * d_dt d)) (d_ma d) t0 /\
      derivable_pt_lim (fun m => sim_at (S fuel) o (diff_handler gf o) e (with_mass d m) n 1 xa xb u) (d_ma d) s1 /\
      derivable_pt_lim (fun m => true_at (with_mass d m) 1 xa xb u (INR n * d_dt d)) (d_ma d) t1 /\
      Rabs (s0 - t0) <= c * (d_eps d + u * d_dt d) /\ Rabs (s1 - t1) <= c * (d_eps d + u * d_dt d).
Proof. exact mass_grad. Qed.
Print Assumptions C86_mass_gradient.
Theorem C86_restitution_gradient :
  forall fuel gf o e d xa xb u n,
    sensible d -> 0 < d_rest d -> broadphase_ok o -> 0 < u -> 0 <= gap d xa xb -> u * d_dt d <= d_eps d + d_tol d ->
    (forall r, 0 <= d_rest (with_rest d r) -> exact_along (S fuel) o (diff_handler gf o) e (with_rest d r) xa xb u) ->
    exists s0 s1 t0 t1,
      derivable_pt_lim (fun r => sim_at (S fuel) o (diff_handler gf o) e (with_rest d r) n 0 xa xb u) (d_ea d) s0 /\
      derivable_pt_lim (fun r => true_at (with_rest d r) 0 xa xb u (INR n * d_dt d)) (d_ea d) t0 /\
      derivable_pt_lim (fun r => sim_at (S fuel) o (diff_handler gf o) e (with_rest d r) n 1 xa xb u) (d_ea d) s1 /\
      derivable_pt_lim (fun r => true_at (with_rest d r) 1 xa xb u (INR n * d_dt d)) (d_ea d) t1 /\
      Rabs (s0 - t0) <= 1 / 2 * (d_eps d + u * d_dt d) /\ Rabs (s1 - t1) <= 1 / 2 * (d_eps d + u * d_dt d).
Proof. exact rest_grad. Qed.
Print Assumptions C86_restitution_gradient.
(** ... and before the contact is noticed, those with respect to position and velocity are, too. *)
Theorem C86_before :
  forall fuel gf o e d xa xb u n k,
    sensible d -> broadphase_ok o -> 0 < u -> 0 < gap d xa xb -> u * d_dt d < d_eps d + d_tol d -> noticed_after d xa xb u k ->
    (forall x v, 0 <= gap d x xb -> 0 < v -> v * d_dt d <= d_eps d + d_tol d -> exact_along (S fuel) o (diff_handler gf o) e d x xb v) ->
    (n <= k)%nat -> u * (INR n * d_dt d) < gap d xa xb ->
    exists ga gb va vb,
      derivable_pt_lim (fun x => sim_at (S fuel) o (diff_handler gf o) e d n 0 x xb u) xa ga /\ derivable_pt_lim (fun x => true_at d 0 x xb u (INR n * d_dt d)) xa ga /\
      derivable_pt_lim (fun x => sim_at (S fuel) o (diff_handler gf o) e d n 1 x xb u) xa gb /\ derivable_pt_lim (fun x => true_at d 1 x xb u (INR n * d_dt d)) xa gb /\
      derivable_pt_lim (fun v => sim_at (S fuel) o (diff_handler gf o) e d n 0 xa xb v) u va /\ derivable_pt_lim (fun v => true_at d 0 xa xb v (INR n * d_dt d)) u va /\
      derivable_pt_lim (fun v => sim_at (S fuel) o (diff_handler gf o) e d n 1 xa xb v) u vb /\ derivable_pt_lim (fun v => true_at d 1 xa xb v (INR n * d_dt d)) u vb.
Proof.
  intros fuel gf o e d xa xb u n k Hd Ho Hu Hg Hf Hk He L Ht. destruct (sim_x fuel gf o e d xa xb u n k Hd Ho Hu Hg Hf Hk He) as [A B]. destruct (sim_u fuel gf o e d xa xb u n k Hd Ho Hu Hg Hf Hk He) as [A' B'].
  assert (P : 0 <= INR n * d_dt d) by (destruct Hd; apply Rmult_le_pos; [apply pos_INR|lra]).
  destruct (true_x d xa xb u (INR n * d_dt d) Hu) as [_ C]. destruct (C Ht) as [C1 C2]. destruct (true_u d xa xb u (INR n * d_dt d) Hu P) as [_ D]. destruct (D Ht) as [D1 D2].
  replace (n - k)%nat with 0%nat in A', B' by lia. cbn [INR] in A', B'. replace (INR n * d_dt d - lost d * (0 * d_dt d)) with (INR n * d_dt d) in A' by ring. replace (gained d * (0 * d_dt d)) with 0 in B' by ring.
  exists 1, 0, (INR n * d_dt d), 0. auto 10.
Qed.
Print Assumptions C86_before.

(** *** the hypotheses can be met: elastic billiard balls of equal mass, 1/2 apart, 16 steps of 1/8 with velocity 1; the first
    ball really stops where the second one was touched and hands its motion on, so the real derivatives are 0 and 1 *)
Example C86_case :
  sensible billiard /\ broadphase_ok (pair_oracle (T := R)) /\ 0 < gap billiard 0 (5/2) /\ 1 * d_dt billiard < d_eps billiard + d_tol billiard /\
  noticed_after billiard 0 (5/2) 1 4 /\ gap billiard 0 (5/2) < 1 * (INR 16 * d_dt billiard) /\ 1 * (INR 3 * d_dt billiard) < gap billiard 0 (5/2) /\
  (forall x v, 0 <= gap billiard x (5/2) -> 0 < v -> v * d_dt billiard <= d_eps billiard + d_tol billiard ->
     exact_along 1 pair_oracle (diff_handler 10 pair_oracle) duel_engine billiard x (5/2) v) /\
  (forall m, 0 < m -> exact_along 1 pair_oracle (diff_handler 10 pair_oracle) duel_engine (with_mass billiard m) 0 (5/2) 1) /\
  (forall r, 0 <= d_rest (with_rest billiard r) -> exact_along 1 pair_oracle (diff_handler 10 pair_oracle) duel_engine (with_rest billiard r) 0 (5/2) 1) /\
  1 - lost billiard = 0 /\ gained billiard = 1.
Proof.
  split; [apply billiard_sensible|]. split; [apply pair_ok|]. split; [unfold gap; cbn; lra|]. split; [cbn; lra|]. split; [apply billiard_noticed|].
  split; [unfold gap; cbn; lra|]. split; [unfold gap; cbn; lra|].
  split; [intros; apply engine_exact; auto; [apply billiard_sensible|cbn; lra|cbn; lra|apply pair_ok]|].
  split; [intros m Hm; apply engine_exact; try (unfold gap; cbn; lra); [|apply pair_ok]; constructor; unfold d_rest; cbn; lra|].
  split; [intros r Hr; apply engine_exact; try (unfold gap; cbn; lra); [|apply pair_ok]; constructor; auto; cbn; lra|].
  unfold lost, gained, d_rest. cbn. split; field.
Qed.
