(** Learning the paddle's velocity: the gradient, the steps of the optimiser and the whole run *)
From Coq Require Import List Arith ZArith Bool Reals Lra Lia.
From Verif Require Import Num Tensor Utils Bodies Contacts World Lapack Engines Breakout Screen Game Learn Spec ScreenSpec GeoSpec GameSpec LapackSpec LearnSpec
     RBase ResFacts HandlerFacts GameFacts GameState GameFree BodyFacts LearnFacts.
Import ListNotations.
Open Scope R_scope.

(** *** a paddle that moves along its line *)
Lemma moved_miss u acts scene vx vy : moves_by u acts scene -> mean_miss scene acts vx vy = ((vx - u) ^ 2 + vy ^ 2) * weight acts.
Proof.
  intros HM. unfold mean_miss, weight, Rdiv. rewrite <- Rmult_assoc. f_equal. rewrite <- Rsum_map_scale. apply Rsum_map_ext. intros j Hj. apply in_seq in Hj.
  rewrite (HM j) by lia. unfold apart_sq, shifted. cbn [fst snd nth]. ring.
Qed.
Lemma weight_nonneg acts : 0 <= weight acts.
Proof.
  unfold weight. apply Rmult_le_pos; [apply Rsum_nonneg; intros; apply pow2_ge_0|]. apply Rlt_le, Rinv_0_lt_compat, lt_0_INR. lia.
Qed.
Lemma weight_pos a l : a <> 0 -> 0 < weight (a :: l).
Proof.
  intros Ha. unfold weight. apply Rmult_lt_0_compat; [|apply Rinv_0_lt_compat, lt_0_INR; lia]. cbn [length seq map]. rewrite Rsum_cons.
  assert (0 < so_far (a :: l) 1 ^ 2). { unfold so_far. cbn [firstn total fold_right]. rewrite Rplus_0_r. assert (0 < a * a) by nra. lra. }
  assert (0 <= Rsum (map (fun j => so_far (a :: l) j ^ 2) (seq 2 (length l)))) by (apply Rsum_nonneg; intros; apply pow2_ge_0). lra.
Qed.

(** *** keeping away is kept by small changes *)
Definition nearby (P : R -> R -> Prop) (vx vy : R) : Prop := exists d, 0 < d /\ forall x y, Rabs (x - vx) < d -> Rabs (y - vy) < d -> P x y.
Lemma nearby_and (P Q : R -> R -> Prop) vx vy : nearby P vx vy -> nearby Q vx vy -> nearby (fun x y => P x y /\ Q x y) vx vy.
Proof.
  intros (d & Hd & H1) (e & He & H2). exists (Rmin d e). split; [now apply Rmin_pos|]. intros x y Hx Hy. pose proof (Rmin_l d e). pose proof (Rmin_r d e). split; [apply H1|apply H2]; lra.
Qed.
Lemma nearby_impl (P Q : R -> R -> Prop) vx vy : (forall x y, P x y -> Q x y) -> nearby P vx vy -> nearby Q vx vy.
Proof. intros H (d & Hd & H1). exists d. split; [exact Hd|]. auto. Qed.
Lemma nearby_all (P : nat -> R -> R -> Prop) vx vy n : (forall j, (j < n)%nat -> nearby (P j) vx vy) -> nearby (fun x y => forall j, (j < n)%nat -> P j x y) vx vy.
Proof.
  induction n as [|n IH]; intros H; [exists 1; split; [lra|]; intros; lia|].
  apply (nearby_impl (fun x y => (forall j, (j < n)%nat -> P j x y) /\ P n x y)).
  - intros x y [H1 H2] j Hj. destruct (Nat.eq_dec j n) as [->|]; [exact H2|apply H1; lia].
  - apply nearby_and; [apply IH; intros; apply H; lia|apply H; lia].
Qed.
Lemma small s d t : 0 < d -> Rabs t < d / (Rabs s + 1) -> Rabs (t * s) < d.
Proof.
  intros Hd Ht. pose proof (Rabs_pos s). pose proof (Rabs_pos t). rewrite Rabs_mult. apply (Rmult_lt_compat_r (Rabs s + 1)) in Ht; [|lra]. unfold Rdiv in Ht. rewrite Rmult_assoc, Rinv_l, Rmult_1_r in Ht by lra. nra.
Qed.
Lemma near_x s vx vy m (P : R -> R -> Prop) : 0 < m -> (forall x y, - m < x * s - vx * s < m -> P x y) -> nearby P vx vy.
Proof.
  intros Hm H. exists (m / (Rabs s + 1)). pose proof (Rabs_pos s). split; [apply Rmult_lt_0_compat; [exact Hm|apply Rinv_0_lt_compat; lra]|]. intros x y Hx _. apply H. pose proof (small s m _ Hm Hx) as Q. apply Rabs_def2 in Q. lra.
Qed.
Lemma near_y s vx vy m (P : R -> R -> Prop) : 0 < m -> (forall x y, - m < y * s - vy * s < m -> P x y) -> nearby P vx vy.
Proof.
  intros Hm H. exists (m / (Rabs s + 1)). pose proof (Rabs_pos s). split; [apply Rmult_lt_0_compat; [exact Hm|apply Rinv_0_lt_compat; lra]|]. intros x y _ Hy. apply H. pose proof (small s m _ Hm Hy) as Q. apply Rabs_def2 in Q. lra.
Qed.
Lemma apart_open p t s vx vy : apart (1 / 10) (box_of (shifted (vx * s) (vy * s) p)) t -> nearby (fun x y => apart (1 / 10) (box_of (shifted (x * s) (y * s) p)) t) vx vy.
Proof.
  unfold box_of, shifted. cbn [fst snd nth]. destruct t as [|l r tp bt]; [intros []|]. cbn [apart].
  set (A := nth 0 (fst p) 0). set (B := nth 1 (fst p) 0). set (w := nth 0 (snd p) 0). set (h := nth 1 (snd p) 0).
  intros [H|[H|[H|H]]].
  - apply (near_x s vx vy (l - (A + vx * s + w / 2 + 1 / 10))); [lra|]. intros x y Q. left. lra.
  - apply (near_x s vx vy (A + vx * s - w / 2 - (r + 1 / 10))); [lra|]. intros x y Q. right. left. lra.
  - apply (near_y s vx vy (tp - (B + vy * s + h / 2 + 1 / 10))); [lra|]. intros x y Q. right. right. left. lra.
  - apply (near_y s vx vy (B + vy * s - h / 2 - (bt + 1 / 10))); [lra|]. intros x y Q. right. right. right. lra.
Qed.
Lemma far_open b p s vx vy : far (1 / 10) (disc_of b) (box_of (shifted (vx * s) (vy * s) p)) -> nearby (fun x y => far (1 / 10) (disc_of b) (box_of (shifted (x * s) (y * s) p))) vx vy.
Proof.
  unfold box_of, shifted, disc_of. cbn [fst snd nth far].
  set (A := nth 0 (fst p) 0). set (B := nth 1 (fst p) 0). set (w := nth 0 (snd p) 0). set (h := nth 1 (snd p) 0). set (X := nth 0 (fst b) 0). set (Y := nth 1 (fst b) 0). set (r := snd b).
  intros [H|[H|[H|H]]].
  - apply (near_x s vx vy (A + vx * s - w / 2 - (X + r + 1 / 10))); [lra|]. intros x y Q. left. lra.
  - apply (near_x s vx vy (X - r - (A + vx * s + w / 2 + 1 / 10))); [lra|]. intros x y Q. right. left. lra.
  - apply (near_y s vx vy (B + vy * s - h / 2 - (Y + r + 1 / 10))); [lra|]. intros x y Q. right. right. left. lra.
  - apply (near_y s vx vy (Y - r - (B + vy * s + h / 2 + 1 / 10))); [lra|]. intros x y Q. right. right. right. lra.
Qed.
Lemma nearby_const (P : Prop) vx vy : P -> nearby (fun _ _ => P) vx vy.
Proof. intros H. exists 1. split; [lra|auto]. Qed.
Lemma uncrowded_open p blocks ball s vx vy : uncrowded (shifted (vx * s) (vy * s) p) blocks ball -> nearby (fun x y => uncrowded (shifted (x * s) (y * s) p) blocks ball) vx vy.
Proof.
  intros [H1 H2]. set (n := (7 + length blocks)%nat).
  assert (L : forall q, length (board q blocks ball) = n) by (intros; unfold board, n; rewrite app_length, map_length; reflexivity).
  apply (nearby_impl (fun x y => (forall j, (j < n)%nat -> forall t, may_touch 1 j -> nth_error (board (shifted (x * s) (y * s) p) blocks ball) j = Some t -> apart (1 / 10) (box_of (shifted (x * s) (y * s) p)) t) /\
    (forall j, (j < n)%nat -> forall t, may_touch 0 j -> nth_error (board (shifted (x * s) (y * s) p) blocks ball) j = Some t -> far (1 / 10) (disc_of ball) t))).
  - intros x y [Q1 Q2]. split; intros j t Ht Hj; [apply (Q1 j)|apply (Q2 j)]; auto; rewrite <- (L (shifted (x * s) (y * s) p)); apply nth_error_Some; congruence.
  - apply nearby_and.
    + apply (nearby_all (fun j x y => forall t, may_touch 1 j -> nth_error (board (shifted (x * s) (y * s) p) blocks ball) j = Some t -> apart (1 / 10) (box_of (shifted (x * s) (y * s) p)) t)). intros j Hj.
      destruct (nth_error (board (shifted (vx * s) (vy * s) p) blocks ball) j) as [t|] eqn:E; [|apply nth_error_None in E; rewrite L in E; lia].
      destruct (le_lt_dec 5 j) as [J|J].
      2:{ apply nearby_impl with (P := fun _ _ => True); [|now apply nearby_const]. intros x y _ t' [[? _]|[_ ?]]; lia. }
      apply (nearby_impl (fun x y => apart (1 / 10) (box_of (shifted (x * s) (y * s) p)) t)).
      * intros x y Q t' Hm Ht. rewrite (board_tail _ (shifted (vx * s) (vy * s) p) _ _ ball) in Ht by lia. rewrite E in Ht. injection Ht as <-. exact Q.
      * apply apart_open. apply (H1 j); [|exact E]. right. split; [reflexivity|exact J].
    + apply (nearby_all (fun j x y => forall t, may_touch 0 j -> nth_error (board (shifted (x * s) (y * s) p) blocks ball) j = Some t -> far (1 / 10) (disc_of ball) t)). intros j Hj.
      destruct (le_lt_dec 2 j) as [J|J].
      * apply nearby_impl with (P := fun _ _ => True); [|now apply nearby_const]. intros x y _ t Hm Ht. rewrite (board_tail _ (shifted (vx * s) (vy * s) p) _ _ ball) in Ht by lia. exact (H2 j t Hm Ht).
      * destruct j as [|[|j]]; [| |lia].
        -- apply nearby_impl with (P := fun _ _ => True); [|now apply nearby_const]. intros x y _ t [[_ ?]|[? _]]; lia.
        -- apply (nearby_impl (fun x y => far (1 / 10) (disc_of ball) (box_of (shifted (x * s) (y * s) p)))).
           ++ intros x y Q t _ Ht. cbn in Ht. injection Ht as <-. exact Q.
           ++ apply far_open. apply (H2 1%nat); [|reflexivity]. left. split; [reflexivity|lia].
Qed.
Lemma keeps_away_open sc acts vx vy : keeps_away sc acts vx vy -> nearby (keeps_away sc acts) vx vy.
Proof.
  intros H. apply (nearby_impl (fun x y => forall j, (j < S (length acts))%nat -> uncrowded (shifted (x * so_far acts j) (y * so_far acts j) (paddle_of sc)) (blocks_of sc) (ball_shown sc))).
  - intros x y Q j Hj. apply Q. lia.
  - apply (nearby_all (fun j x y => uncrowded (shifted (x * so_far acts j) (y * so_far acts j) (paddle_of sc)) (blocks_of sc) (ball_shown sc))). intros j Hj. apply uncrowded_open, H. lia.
Qed.

(** *** the gradient *)
Lemma square_slope c k w x : derivable_pt_lim (fun v => ((v - c) ^ 2 + k) * w) x (2 * w * (x - c)).
Proof.
  intros eps He. pose proof (Rabs_pos w) as Hw. assert (Hd : 0 < eps / (Rabs w + 1)) by (apply Rmult_lt_0_compat; [exact He|apply Rinv_0_lt_compat; lra]).
  exists (mkposreal _ Hd). cbn [pos]. intros h Hh Hl. replace ((((x + h - c) ^ 2 + k) * w - ((x - c) ^ 2 + k) * w) / h - 2 * w * (x - c)) with (h * w) by (field; exact Hh).
  exact (small w eps h He Hl).
Qed.
Lemma slope_local f g x a d : 0 < d -> (forall y, Rabs (y - x) < d -> f y = g y) -> derivable_pt_lim f x a -> derivable_pt_lim g x a.
Proof.
  intros Hd E H eps He. destruct (H eps He) as [[e Hpe] Q]. cbn [pos] in Q. exists (mkposreal (Rmin d e) (Rmin_pos _ _ Hd Hpe)). cbn [pos]. intros h Hh Hl.
  pose proof (Rmin_l d e). pose proof (Rmin_r d e). rewrite <- (E (x + h)), <- (E x); [apply Q; [exact Hh|lra]|rewrite Rminus_eq_0, Rabs_R0; exact Hd|replace (x + h - x) with h by ring; lra].
Qed.
Lemma gradient_unique f vx vy gx gy hx hy : gradient_at f vx vy gx gy -> gradient_at f vx vy hx hy -> gx = hx /\ gy = hy.
Proof.
  intros (F & (d & Hd & EF) & F1 & F2) (G & (e & He & EG) & G1 & G2).
  assert (Q : forall x y, Rabs (x - vx) < Rmin d e -> Rabs (y - vy) < Rmin d e -> F x y = G x y).
  { intros x y Hx Hy. pose proof (Rmin_l d e). pose proof (Rmin_r d e). assert (Ok (F x y) = Ok (G x y)) as X by (rewrite <- EF, <- EG by lra; reflexivity). now injection X. }
  pose proof (Rmin_pos _ _ Hd He) as Hm. assert (Z : forall v : R, Rabs (v - v) < Rmin d e) by (intros v; rewrite Rminus_eq_0, Rabs_R0; exact Hm). split.
  - apply (uniqueness_limite (fun x => G x vy) vx); [|exact G1]. apply (slope_local (fun x => F x vy) _ _ _ (Rmin d e) Hm); [|exact F1]. intros y Hy. apply Q; [exact Hy|apply Z].
  - apply (uniqueness_limite (fun y => G vx y) vy); [|exact G2]. apply (slope_local (fun y => F vx y) _ _ _ (Rmin d e) Hm); [|exact F2]. intros y Hy. apply Q; [apply Z|exact Hy].
Qed.

(** *** the optimiser *)
Lemma rms_moves p sq g p' sq' : 0 <= sq -> rms_step p sq g = (p', sq') -> 0 <= sq' /\ exists r, 0 < r /\ p' = p - r * g /\ Rabs (r * g) <= 3 / 10.
Proof.
  intros Hs H. unfold rms_step, learning_rate in H. rnum. injection H as <- <-.
  set (q := sq * (99 / 100) + (1 - 99 / 100) * g * g). assert (Hq : (Rabs g / 10) ^ 2 <= q). { unfold q. pose proof (Rabs_pos g). replace ((Rabs g / 10) ^ 2) with (Rabs g * Rabs g / 100) by field. rewrite <- Rabs_mult, Rabs_pos_eq by nra. lra. }
  assert (H0 : 0 <= q) by (eapply Rle_trans; [apply pow2_ge_0|exact Hq]). split; [exact H0|].
  assert (Hd : Rabs g / 10 <= sqrt q). { rewrite <- (sqrt_pow2 (Rabs g / 10)) by (pose proof (Rabs_pos g); lra). now apply sqrt_le_1_alt. }
  set (D := sqrt q + 1 / 100000000). pose proof (sqrt_pos q) as Hp. assert (HD : 0 < D) by (unfold D; lra).
  exists (3 / 100 / D). split; [apply Rmult_lt_0_compat; [lra|now apply Rinv_0_lt_compat]|]. split; [unfold Rdiv; ring|].
  rewrite Rabs_mult, (Rabs_pos_eq (3 / 100 / D)) by (apply Rlt_le, Rmult_lt_0_compat; [lra|now apply Rinv_0_lt_compat]).
  apply (Rmult_le_reg_r D); [exact HD|]. replace (3 / 100 / D * Rabs g * D) with (3 / 100 * Rabs g) by (field; lra). unfold D. nra.
Qed.
Lemma rms_nears p sq c t p' sq' : 0 <= sq -> 0 <= c -> rms_step p sq (c * (p - t)) = (p', sq') ->
  0 <= sq' /\ Rabs (p' - t) <= Rmax (Rabs (p - t)) (3 / 10) /\ (0 < c -> 3 / 20 < Rabs (p - t) -> Rabs (p' - t) < Rabs (p - t)).
Proof.
  intros Hs Hc H. destruct (rms_moves _ _ _ _ _ Hs H) as (Q & r & Hr & -> & Hb). split; [exact Q|].
  set (e := p - t) in *. replace (p - r * (c * e) - t) with (e - r * c * e) by (unfold e; ring). replace (r * (c * e)) with (r * c * e) in Hb by ring.
  assert (Hk : 0 <= r * c) by nra. assert (Hk' : 0 < c -> 0 < r * c) by (intros; nra). set (k := r * c) in *. clearbody k e. clear - Hb Hk Hk'.
  split.
  - destruct (Rle_dec 0 e) as [He|He].
    + rewrite (Rabs_pos_eq (k * e)) in Hb by nra. rewrite (Rabs_pos_eq e) by exact He. assert (0 <= k * e) by nra. apply Rabs_le. pose proof (Rmax_l e (3 / 10)). pose proof (Rmax_r e (3 / 10)). split; lra.
    + assert (k * e <= 0) by nra. rewrite (Rabs_left1 (k * e)) in Hb by lra. rewrite (Rabs_left e) by lra. apply Rabs_le. pose proof (Rmax_l (- e) (3 / 10)). pose proof (Rmax_r (- e) (3 / 10)). split; lra.
  - intros Hc He0. specialize (Hk' Hc). destruct (Rle_dec 0 e) as [He|He].
    + rewrite (Rabs_pos_eq e) in * by exact He. rewrite (Rabs_pos_eq (k * e)) in Hb by nra. assert (0 < k * e) by nra. apply Rabs_def1; lra.
    + rewrite (Rabs_left e) in * by lra. assert (k * e < 0) by nra. rewrite (Rabs_left1 (k * e)) in Hb by lra. apply Rabs_def1; lra.
Qed.

Lemma control_direction z : control z = direction z.
Proof. unfold control, direction. rnum. destruct (Rltb_spec 0 z), (Rlt_dec 0 z); try lra. destruct (Rltb_spec z 0), (Rlt_dec z 0); lra. Qed.
Lemma controls_eq draws : map (fun j => control (draws j)) (seq 0 num_steps) = controls draws.
Proof. unfold controls. apply map_ext. intros j. apply control_direction. Qed.

Section Run.
Variables (la : lapack R) (mi gf : nat) (o : oracle R).
Hypothesis HL : lapack_ok la.
Hypothesis Hmi : (0 < mi)%nat.
Hypothesis Ho : broadphase_sane o.
Hypothesis Hg : (18 <= gf)%nat.
Notation hd := (diff_handler gf o).
Notation eng := (pdipm_engine la mi).

Lemma episode_gradient env acts scene sfuel f u vx vy : filmed env acts scene sfuel -> opening (scene 0%nat) -> moves_by u acts scene -> keeps_away (scene 0%nat) acts vx vy ->
  gradient_at (episode (S (S f)) sfuel o hd eng env acts) vx vy (2 * weight acts * (vx - u)) (2 * weight acts * vy).
Proof.
  intros HF HO HM HK. exists (fun x y => ((x - u) ^ 2 + y ^ 2) * weight acts). split; [|split].
  - destruct (keeps_away_open _ _ _ _ HK) as (d & Hd & Q). exists d. split; [exact Hd|]. intros x y Hx Hy. rewrite (free_episode la mi gf o HL Hmi Ho Hg env acts scene) by auto. now rewrite (moved_miss u).
  - apply square_slope.
  - pose proof (square_slope 0 ((vx - u) ^ 2) (weight acts) vy) as Q. rewrite Rminus_0_r in Q. revert Q. apply (slope_local _ _ _ _ 1 Rlt_0_1). intros y _. rewrite Rminus_0_r. ring.
Qed.

Lemma run_near env draws backward scene sfuel f u start : let Ex := Rmax (Rabs (fst start - u)) (3 / 10) in let Ey := Rmax (Rabs (snd start)) (3 / 10) in
  (forall i, (i < max_iter)%nat -> filmed (env i) (controls (draws i)) (scene i) sfuel /\ opening (scene i 0%nat) /\ moves_by u (controls (draws i)) (scene i)) ->
  (forall i p, (i < max_iter)%nat -> Rabs (fst p - u) <= Ex -> Rabs (snd p) <= Ey -> keeps_away (scene i 0%nat) (controls (draws i)) (fst p) (snd p)) ->
  (forall i p, (i < max_iter)%nat -> Rabs (fst p - u) <= Ex -> Rabs (snd p) <= Ey ->
     gradient_at (episode (S (S f)) sfuel o hd eng (env i) (controls (draws i))) (fst p) (snd p) (fst (backward i p)) (snd (backward i p))) ->
  exists p, infer_params (S (S f)) sfuel o hd eng env draws backward start = Ok p /\ Rabs (fst p - u) <= Ex /\ Rabs (snd p) <= Ey.
Proof.
  intros Ex Ey HF HK HB. unfold infer_params.
  assert (L : forall n i last p sq, (i + n <= max_iter)%nat -> Rabs (fst p - u) <= Ex -> Rabs (snd p) <= Ey -> 0 <= fst sq -> 0 <= snd sq ->
    exists p', iterations (S (S f)) sfuel o hd eng env draws backward n i last p sq = Ok p' /\ Rabs (fst p' - u) <= Ex /\ Rabs (snd p') <= Ey).
  { induction n as [|n IH]; intros i last p sq Hi Px Py Sx Sy; [exists p; auto|].
    assert (Hlt : (i < max_iter)%nat) by lia. destruct (HF i Hlt) as (F1 & F2 & F3). pose proof (HK i p Hlt Px Py) as K.
    cbn [iterations]. cbv zeta. rewrite (controls_eq (draws i)). rewrite (free_episode la mi gf o HL Hmi Ho Hg _ _ (scene i) sfuel f _ _ F1 F2 K). cbn [bind].
    destruct (gradient_unique _ _ _ _ _ _ _ (HB i p Hlt Px Py) (episode_gradient _ _ _ _ f u _ _ F1 F2 F3 K)) as [Gx Gy]. rewrite Gx, Gy.
    pose proof (weight_nonneg (controls (draws i))) as W.
    destruct (rms_step (fst p) (fst sq) _) as [px sx] eqn:Rx. destruct (rms_nears _ _ (2 * weight (controls (draws i))) u _ _ Sx ltac:(lra) Rx) as (S1 & D1 & _).
    replace (2 * weight (controls (draws i)) * snd p) with (2 * weight (controls (draws i)) * (snd p - 0)) by ring.
    destruct (rms_step (snd p) (snd sq) _) as [py sy] eqn:Ry. destruct (rms_nears _ _ (2 * weight (controls (draws i))) 0 _ _ Sy ltac:(lra) Ry) as (S2 & D2 & _). rewrite !Rminus_0_r in D2.
    assert (D1' : Rabs (px - u) <= Ex) by (eapply Rle_trans; [exact D1|]; apply Rmax_lub; [exact Px|apply Rmax_r]).
    assert (D2' : Rabs py <= Ey) by (eapply Rle_trans; [exact D2|]; apply Rmax_lub; [exact Py|apply Rmax_r]).
    destruct (nltb _ _); [exists (px, py); auto|]. apply IH; auto. lia. }
  apply L; [lia|apply Rmax_l|apply Rmax_l|cbn; rnum; lra|cbn; rnum; lra].
Qed.
Lemma run_settled env draws backward scene sfuel f u :
  (forall i, (i < 2)%nat -> filmed (env i) (controls (draws i)) (scene i) sfuel /\ opening (scene i 0%nat) /\ moves_by u (controls (draws i)) (scene i) /\ keeps_away (scene i 0%nat) (controls (draws i)) u 0 /\
     gradient_at (episode (S (S f)) sfuel o hd eng (env i) (controls (draws i))) u 0 (fst (backward i (u, 0))) (snd (backward i (u, 0)))) ->
  infer_params (S (S f)) sfuel o hd eng env draws backward (u, 0) = Ok (u, 0).
Proof.
  intros H. unfold infer_params.
  assert (E : forall i, (i < 2)%nat -> episode (S (S f)) sfuel o hd eng (env i) (controls (draws i)) u 0 = Ok 0 /\ backward i (u, 0) = (0, 0)).
  { intros i Hi. destruct (H i Hi) as (F1 & F2 & F3 & K & G). split.
    - rewrite (free_episode la mi gf o HL Hmi Ho Hg _ _ (scene i) sfuel f _ _ F1 F2 K), (moved_miss u) by exact F3. f_equal. ring.
    - destruct (gradient_unique _ _ _ _ _ _ _ G (episode_gradient _ _ _ _ f u _ _ F1 F2 F3 K)) as [Gx Gy]. destruct (backward i (u, 0)) as [gx gy]. cbn [fst snd] in Gx, Gy. rewrite Gx, Gy. f_equal; ring. }
  assert (Z : forall p sq : R, exists sq', rms_step p sq 0 = (p, sq')) by (intros p sq; eexists; unfold rms_step; rnum; apply f_equal2; [unfold Rdiv; ring|reflexivity]).
  destruct (E 0%nat ltac:(lia)) as [E0 B0]. destruct (E 1%nat ltac:(lia)) as [E1 B1].
  assert (M : exists n, max_iter = S (S n)) by (exists 998%nat; reflexivity). destruct M as [n ->]. cbn [iterations]. cbv zeta. rewrite (controls_eq (draws 0%nat)), (controls_eq (draws 1%nat)). rewrite B0. cbn [fst snd]. rewrite E0. cbn [bind].
  match goal with |- context [rms_step u ?s 0] => destruct (Z u s) as [sx ->] end. match goal with |- context [rms_step 0 ?s 0] => destruct (Z 0 s) as [sy ->] end. cbn [fst snd]. rewrite E1, B1. cbn [bind fst snd].
  match goal with |- context [rms_step u ?s 0] => destruct (Z u s) as [sx' ->] end. match goal with |- context [rms_step 0 ?s 0] => destruct (Z 0 s) as [sy' ->] end.
  rnum. rewrite (proj2 (Rltb_false _ _)) by (rewrite Rminus_0_r, Rabs_pos_eq; lra). rewrite (proj2 (Rltb_true _ _)) by (rewrite Rminus_0_r, Rabs_R0; lra). reflexivity.
Qed.
End Run.
