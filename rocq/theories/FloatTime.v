(** Rounding in the few operations that act on the clock *)
From Coq Require Import ZArith Reals Lra Lia Bool Floats.
From Flocq Require Import Core Sterbenz Relative Mult_error IEEE754.BinarySingleNaN IEEE754.PrimFloat.
From Verif Require Import Num FloatSpec.
Open Scope R_scope.

Notation fexp64 := (SpecFloat.fexp FloatOps.prec FloatOps.emax).
Notation rnd := (round radix2 fexp64 ZnearestE).
Notation fmt := (generic_format radix2 fexp64).
#[local] Instance prec_pos : Prec_gt_0 FloatOps.prec := eq_refl.
#[local] Instance prec_lt : Prec_lt_emax FloatOps.prec FloatOps.emax := eq_refl.
#[local] Instance valid64 : Valid_exp fexp64 := fexp_correct FloatOps.prec FloatOps.emax prec_pos.
#[local] Instance mono64 : Monotone_exp fexp64 := fexp_monotone FloatOps.prec FloatOps.emax.

Lemma fin_b x : finite x <-> is_finite (Prim2B x) = true.
Proof. unfold finite. rewrite is_finite_equiv. reflexivity. Qed.
Lemma value_fmt x : fmt (value x).
Proof. apply generic_format_B2R. Qed.
Lemma value_lt x : Rabs (value x) < bpow radix2 FloatOps.emax.
Proof. apply abs_B2R_lt_emax. Qed.
Lemma ltb_val x y : finite x -> finite y -> (PrimFloat.ltb x y = true <-> value x < value y).
Proof.
  intros Fx Fy. apply fin_b in Fx, Fy. rewrite ltb_equiv, Bltb_correct by auto. unfold value. split; [intros H; destruct (Rlt_bool_spec (B2R (Prim2B x)) (B2R (Prim2B y))); [auto|discriminate]|]. intros H. now apply Rlt_bool_true.
Qed.
Lemma leb_val x y : finite x -> finite y -> (PrimFloat.leb x y = true <-> value x <= value y).
Proof.
  intros Fx Fy. apply fin_b in Fx, Fy. rewrite leb_equiv, Bleb_correct by auto. unfold value. split; [intros H; destruct (Rle_bool_spec (B2R (Prim2B x)) (B2R (Prim2B y))); [auto|discriminate]|]. intros H. now apply Rle_bool_true.
Qed.
(** sums and differences between doubles are rounded, and finite if between finite doubles *)
Lemma add_round x y : finite x -> finite y -> Rabs (rnd (value x + value y)) < bpow radix2 FloatOps.emax -> value (x + y) = rnd (value x + value y) /\ finite (x + y).
Proof.
  intros Fx Fy H. rewrite fin_b in *. unfold value. rewrite add_equiv. pose proof (Bplus_correct FloatOps.prec FloatOps.emax _ _ mode_NE (Prim2B x) (Prim2B y) Fx Fy) as B. rewrite Rlt_bool_true in B by exact H. tauto.
Qed.
Lemma sub_round x y : finite x -> finite y -> Rabs (rnd (value x - value y)) < bpow radix2 FloatOps.emax -> value (x - y) = rnd (value x - value y) /\ finite (x - y).
Proof.
  intros Fx Fy H. rewrite fin_b in *. unfold value. rewrite sub_equiv. pose proof (Bminus_correct FloatOps.prec FloatOps.emax _ _ mode_NE (Prim2B x) (Prim2B y) Fx Fy) as B. rewrite Rlt_bool_true in B by exact H. tauto.
Qed.
Lemma add_finite x y : finite x -> finite y -> finite (x + y) -> value (x + y) = rnd (value x + value y).
Proof.
  intros Fx Fy Fs. rewrite fin_b in *. unfold value. rewrite add_equiv in *. pose proof (Bplus_correct FloatOps.prec FloatOps.emax _ _ mode_NE (Prim2B x) (Prim2B y) Fx Fy) as B.
  destruct (Rlt_bool _ _); [tauto|]. destruct B as [B _].
  assert (Q : is_finite_SF (binary_overflow FloatOps.prec FloatOps.emax mode_NE (Bsign (Prim2B x))) = true) by (rewrite <- B, is_finite_SF_B2SF; exact Fs). destruct (Bsign _); discriminate Q.
Qed.

Lemma rnd_between a x b : fmt a -> fmt b -> a <= x <= b -> a <= rnd x <= b.
Proof.
  intros Fa Fb [H1 H2]. split.
  - rewrite <- (round_generic radix2 fexp64 ZnearestE a Fa). apply round_le; auto; try apply valid64; apply valid_rnd_N.
  - rewrite <- (round_generic radix2 fexp64 ZnearestE b Fb). apply round_le; auto; try apply valid64; apply valid_rnd_N.
Qed.
Lemma bounded a x b : Rabs a < bpow radix2 FloatOps.emax -> Rabs b < bpow radix2 FloatOps.emax -> a <= x <= b -> Rabs x < bpow radix2 FloatOps.emax.
Proof. intros H1 H2 [H3 H4]. apply Rabs_lt. apply Rabs_lt_inv in H1, H2. lra. Qed.
Lemma add_between a b x y : finite x -> finite y -> value a <= value x + value y <= value b -> finite (x + y) /\ value a <= value (x + y) <= value b.
Proof.
  intros Fx Fy H. pose proof (rnd_between _ _ _ (value_fmt a) (value_fmt b) H) as R. pose proof (bounded _ _ _ (value_lt a) (value_lt b) R) as L. destruct (add_round x y Fx Fy L) as [-> F]. auto.
Qed.
(** Sterbenz: the difference is exact *)
Lemma sub_exact x y : finite x -> finite y -> value y / 2 <= value x <= 2 * value y -> finite (x - y) /\ value (x - y) = value x - value y.
Proof.
  intros Fx Fy H. assert (G : fmt (value x - value y)) by (apply sterbenz; auto using value_fmt; try apply valid64; try apply mono64).
  assert (E : rnd (value x - value y) = value x - value y) by (apply round_generic; [apply valid_rnd_N|exact G]).
  assert (L : Rabs (rnd (value x - value y)) < bpow radix2 FloatOps.emax).
  { rewrite E. pose proof (value_lt x) as L1. pose proof (value_lt y) as L2. apply Rabs_lt. apply Rabs_lt_inv in L1, L2. lra. }
  destruct (sub_round x y Fx Fy L) as [-> F]. auto.
Qed.

Lemma value_sf x : value x = SF2R radix2 (FloatOps.Prim2SF x).
Proof. unfold value. rewrite <- B2SF_Prim2B. symmetry. apply SF2R_B2SF. Qed.
Lemma two_val : value 2 = 2.
Proof.
  rewrite value_sf. change (FloatOps.Prim2SF 2) with (S754_finite false 4503599627370496 (-51)). unfold SF2R, F2R. cbn [cond_Zopp Fnum Fexp].
  change (bpow radix2 (-51)) with (/ IZR (2 ^ 51)). change (2 ^ 51)%Z with 2251799813685248%Z. field.
Qed.
Lemma four_val : value 4 = 4.
Proof.
  rewrite value_sf. change (FloatOps.Prim2SF 4) with (S754_finite false 4503599627370496 (-50)). unfold SF2R, F2R. cbn [cond_Zopp Fnum Fexp].
  change (bpow radix2 (-50)) with (/ IZR (2 ^ 50)). change (2 ^ 50)%Z with 1125899906842624%Z. field.
Qed.
Lemma zero_val : value 0 = 0.
Proof. rewrite value_sf. reflexivity. Qed.
Lemma fmt0 : fmt 0.
Proof. apply generic_format_0. Qed.
Lemma div_round x y : finite x -> value y <> 0 -> Rabs (rnd (value x / value y)) < bpow radix2 FloatOps.emax -> value (x / y) = rnd (value x / value y) /\ finite (x / y).
Proof.
  intros Fx Hy H. rewrite fin_b in *. unfold value in *. rewrite div_equiv. pose proof (Bdiv_correct FloatOps.prec FloatOps.emax _ _ mode_NE (Prim2B x) (Prim2B y) Hy) as B. rewrite Rlt_bool_true in B by exact H. destruct B as (B1 & B2 & _). split; [exact B1|]. rewrite <- Fx. exact B2.
Qed.
(** halves of a non-negative double lie below it *)
Lemma half_between x : finite x -> 0 <= value x -> finite (x / 2) /\ 0 <= value (x / 2) <= value x.
Proof.
  intros Fx H. assert (R : 0 <= rnd (value x / 2) <= value x) by (apply rnd_between; auto using fmt0, value_fmt; lra).
  assert (L : Rabs (rnd (value x / 2)) < bpow radix2 FloatOps.emax) by (refine (bounded _ _ _ _ (value_lt x) R); rewrite Rabs_R0; apply bpow_gt_0).
  destruct (div_round x 2 Fx) as [E F]; [rewrite two_val; lra|rewrite two_val; exact L|]. rewrite two_val in E. rewrite E. auto.
Qed.
(** and are exact away from the subnormal numbers *)
Lemma scaled_fmt x k : fmt x -> (k <= 0)%Z -> bpow radix2 (-1021) <= Rabs (x * bpow radix2 k) -> fmt (x * bpow radix2 k).
Proof.
  intros F Hk H. destruct (Req_dec x 0) as [->|Hx]; [rewrite Rmult_0_l; apply fmt0|].
  refine (mult_bpow_exact_FLT radix2 (-1074) 53 x k F _).
  assert (M : (-1020 <= mag radix2 (x * bpow radix2 k))%Z) by (apply (mag_ge_bpow radix2 (x * bpow radix2 k) (-1020)); exact H).
  rewrite mag_mult_bpow in M by auto. lia.
Qed.
Lemma quot_exact x y k : finite x -> value y = bpow radix2 (Z.of_nat k) -> bpow radix2 (-1021) <= Rabs (value x * bpow radix2 (- Z.of_nat k)) -> finite (x / y) /\ value (x / y) = value x * bpow radix2 (- Z.of_nat k).
Proof.
  intros Fx Y H. assert (Q : value x / value y = value x * bpow radix2 (- Z.of_nat k)) by (rewrite Y, bpow_opp; reflexivity).
  assert (E : rnd (value x / value y) = value x * bpow radix2 (- Z.of_nat k)).
  { rewrite Q. apply round_generic; [apply valid_rnd_N|]. apply scaled_fmt; auto using value_fmt. lia. }
  destruct (div_round x y Fx) as [V F].
  - rewrite Y. apply Rgt_not_eq, bpow_gt_0.
  - rewrite E. apply Rle_lt_trans with (2 := value_lt x). rewrite Rabs_mult, (Rabs_pos_eq (bpow _ _)) by apply bpow_ge_0.
    rewrite <- (Rmult_1_r (Rabs (value x))) at 2. apply Rmult_le_compat_l; [apply Rabs_pos|]. change 1 with (bpow radix2 0). apply bpow_le. lia.
  - rewrite V, E. auto.
Qed.
(** a sum of non-negative doubles advances by at least half the increment unless the increment is tiny *)
Lemma add_progress t d : finite t -> finite d -> finite (t + d) -> 0 <= value t -> bpow radix2 (-1022) <= value d -> value t + value d <= bpow radix2 52 * value d ->
  value t + value d / 2 <= value (t + d).
Proof.
  intros Ft Fd F Ht Hn Hs. pose proof (bpow_gt_0 radix2 (-1022)) as B0. assert (Hd : 0 < value d) by lra. clear B0.
  rewrite (add_finite t d Ft Fd F).
  pose proof (relative_error_N_FLT radix2 (-1074) 53 eq_refl (fun z => negb (Z.even z)) (value t + value d)) as E. rewrite (Rabs_pos_eq (value t + value d)) in E by lra.
  assert (E' : Rabs (rnd (value t + value d) - (value t + value d)) <= / 2 * bpow radix2 (- (53) + 1) * (value t + value d)) by (apply E; apply Rle_trans with (1 := Hn); lra). clear E. apply Rabs_le_inv in E'.
  replace (- (53) + 1)%Z with (- (52))%Z in E' by lia. rewrite bpow_opp in E'. pose proof (bpow_gt_0 radix2 52) as B. set (u := bpow radix2 52) in *.
  assert (/ u * (value t + value d) <= value d). { apply Rmult_le_reg_l with u; auto. rewrite <- Rmult_assoc, Rinv_r by lra. lra. }
  lra.
Qed.
(** equal values of non-zero doubles are equal doubles *)
Lemma value_inj x y : finite x -> finite y -> value x <> 0 -> value x = value y -> x = y.
Proof.
  intros Fx Fy N E. apply Prim2B_inj. rewrite fin_b in *. unfold value in *. apply B2R_inj; auto.
  - destruct (Prim2B x); solve [discriminate | reflexivity | now contradict N].
  - rewrite E in N. destruct (Prim2B y); solve [discriminate | reflexivity | now contradict N].
Qed.
Lemma fmt_double x : fmt x -> fmt (2 * x).
Proof. intros F. rewrite Rmult_comm. change 2 with (bpow radix2 1). refine (mult_bpow_pos_exact_FLT radix2 (-1074) 53 x 1 F _). lia. Qed.
Lemma add_finite_l x y : finite (x + y) -> finite x.
Proof.
  rewrite !fin_b, add_equiv. destruct (Prim2B x) as [s|s| |s m e B]; auto; destruct (Prim2B y) as [s'|s'| |s' m' e' B']; cbn; auto. destruct (Bool.eqb s s'); auto.
Qed.
(** the next double *)
Lemma next_val x : finite x -> finite (next x) -> value (next x) = succ radix2 fexp64 (value x).
Proof.
  intros Fx Fn. rewrite fin_b in *. unfold value, next in *. rewrite next_up_equiv in *.
  pose proof (Bsucc_correct FloatOps.prec FloatOps.emax _ _ (Prim2B x) Fx) as B. destruct (Rlt_bool _ _); [tauto|].
  assert (Q : is_finite_SF (B2SF (Bsucc (Prim2B x))) = true) by (rewrite is_finite_SF_B2SF; exact Fn). rewrite B in Q. discriminate Q.
Qed.
Lemma ulp_mono x y : 0 <= x <= y -> ulp radix2 fexp64 x <= ulp radix2 fexp64 y.
Proof. intros [H1 H2]. apply ulp_le; try apply valid64; try apply mono64. rewrite !Rabs_pos_eq; lra. Qed.
Lemma rnd_err x : Rabs (rnd x - x) <= / 2 * ulp radix2 fexp64 x.
Proof. apply error_le_half_ulp. apply valid64. Qed.
(** the remaining time, rounded, leads at most to the double after the end *)
Lemma reach_next t e d : finite t -> finite e -> finite d -> finite (next e) -> 0 <= value t <= value e -> 0 <= value d <= rnd (value e - value t) -> finite (t + d) /\ value t <= value (t + d) <= value (next e).
Proof.
  intros Ft Fe Fd Fn Ht Hd. apply add_between; auto. split; [lra|]. rewrite next_val by auto. unfold succ. rewrite Rle_bool_true by lra.
  pose proof (rnd_err (value e - value t)) as E. apply Rabs_le_inv in E. pose proof (ulp_mono (value e - value t) (value e)) as U. pose proof (ulp_ge_0 radix2 fexp64 (value e)). lra.
Qed.
Lemma at_or_next x e : finite x -> finite e -> finite (next e) -> 0 < value e -> value e <= value x <= value (next e) -> x = e \/ x = next e.
Proof.
  intros Fx Fe Fn P [H1 H2]. destruct H1 as [H1|H1]; [right|left; symmetry; apply value_inj; auto; lra].
  apply value_inj; auto; [lra|]. apply Rle_antisym; auto. rewrite next_val by auto. apply succ_le_lt; auto using value_fmt. apply valid64.
Qed.
