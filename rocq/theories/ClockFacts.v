(** The clock in double precision *)
From Flocq Require Import Core.
From Coq Require Import List Arith ZArith Reals Lra Lia Bool Floats.
From Verif Require Import Num Tensor Utils Bodies Forces Constraints Contacts World ResFacts Spec WorldFacts FloatSpec FloatTime.
Import ListNotations.

Section Halves.
Context {T : Type} {N : Num T}.
Lemma tries_halves o hd sp sr w dt k w' dt' : tries o hd sp sr w dt k w' dt' -> dt' = Nat.iter k (fun d => ndiv d (nofZ 2)) dt.
Proof. induction 1; [reflexivity|]. subst. clear. induction k; simpl in *; congruence. Qed.
Lemma step_dt_halves fuel o hd e w dt w' : step_dt fuel o hd e w dt = Ok w' -> exists k, w_t w' = nadd (w_t w) (Nat.iter k (fun d => ndiv d (nofZ 2)) dt).
Proof.
  intros H. apply step_dt_inv in H. destruct H as (nv & c & w1 & k & w2 & dt' & w3 & _ & _ & _ & Ht & _ & _ & _ & ->). apply tries_halves in Ht. subst. exists k. reflexivity.
Qed.
End Halves.

Lemma iter_ext {A} (f g : A -> A) k x : (forall y, f y = g y) -> Nat.iter k f x = Nat.iter k g x.
Proof. intros E. induction k as [|k IH]; [reflexivity|]. unfold Nat.iter in *. cbn. rewrite IH. apply E. Qed.

Section Ends.
Context {T : Type} {N : Num T}.
Lemma ends_ok {A} (a : A) : ends (Ok a). Proof. discriminate. Qed.
Lemma ends_bind {A B} (m : res A) (f : A -> res B) : ends m -> (forall a, m = Ok a -> ends (f a)) -> ends (bind m f).
Proof. intros H K. destruct m as [a|x]; simpl; auto. intros E. apply H. congruence. Qed.
Lemma ends_mapM {A B} (f : A -> res B) l : (forall a, ends (f a)) -> ends (mapM f l).
Proof. intros H. induction l; simpl; [apply ends_ok|]. apply ends_bind; auto. intros b _. apply ends_bind; auto. intros; apply ends_ok. Qed.
Lemma ends_body (bs : list (body T)) i : ends (get_body bs i).
Proof. unfold get_body. destruct (nth_error bs i); discriminate. Qed.
Lemma ends_bodies (bs : list (body T)) i j : ends (joint_bodies bs i j).
Proof. unfold joint_bodies. apply ends_bind; [apply ends_body|]. intros b _. destruct j; [|apply ends_ok]. apply ends_bind; [apply ends_body|]. intros; apply ends_ok. Qed.
Lemma ends_move w (dt : T) : ends (move_all w dt).
Proof. unfold move_all. apply ends_bind; [|intros; apply ends_ok]. apply ends_mapM. intros [[j i] k]. apply ends_bind; [apply ends_bodies|intros; apply ends_ok]. Qed.
Lemma ends_rewind w (sp : vec T) sr : ends (rewind w sp sr).
Proof. unfold rewind. apply ends_bind; [|intros; apply ends_ok]. apply ends_mapM. intros [[[j i] k] c]. apply ends_bind; [apply ends_bodies|intros; apply ends_ok]. Qed.
Lemma ends_set_v w (v : vec T) : ends (set_v w v).
Proof. unfold set_v. destruct (_ =? _)%nat; discriminate. Qed.
Lemma ends_find o hd w : (forall (eps : T) clk bs i j, ends (hd eps clk bs i j)) -> ends (find_contacts o hd w).
Proof.
  intros H. unfold find_contacts. apply ends_bind; [|intros [[a b] c] _; apply ends_ok].
  generalize (o_collide o (w_clk w) (map b_geom (w_bodies w))). intros l. set (z := Ok _). assert (Z : ends z) by apply ends_ok. clearbody z. revert z Z.
  induction l as [|[i j] l IH]; intros z Z; simpl; auto. apply IH. apply ends_bind; auto. intros [[cs bs] clk] _. apply ends_bind; auto. intros [[a b] c] _. apply ends_ok.
Qed.
(** a step ends if its trial moves do *)
Lemma ends_step_dt fuel o hd e w dt : callbacks_end hd e -> (forall w1 sp sr, cfg w1 = cfg w -> ends (step_loop fuel o hd w1 sp sr dt)) -> ends (step_dt fuel o hd e w dt).
Proof.
  intros (H1 & H2 & H3) L. unfold step_dt. apply ends_bind; [apply H2|]. intros [v c] _. apply ends_bind; [apply ends_set_v|]. intros w1 E1.
  apply ends_bind. { apply L. rewrite (set_v_cfg _ _ _ E1). reflexivity. }
  intros [w2 d] _. apply ends_bind; [|intros; apply ends_ok]. destruct (w_post_stab w2); [|apply ends_ok].
  apply ends_bind; [apply H3|]. intros dp _. apply ends_bind; [apply ends_set_v|]. intros wa _. apply ends_bind; [apply ends_move|]. intros wb _. apply ends_bind; [apply ends_set_v|]. intros wc _. apply ends_find, H1.
Qed.
End Ends.

Section Clock.
Context {N : Num float} (HN : doubles N).
Implicit Types (w : world float) (o : oracle float) (hd : handler float) (e : engine float).
Local Open Scope R_scope.

Lemma arith : (forall x y, nadd x y = (x + y)%float) /\ (forall x y, nsub x y = (x - y)%float) /\ (forall x y, nltb x y = (x <? y)%float) /\ (forall x, ndiv x (nofZ 2) = (x / 2)%float) /\ (forall x, ndiv x (nofZ 4) = (x / 4)%float).
Proof. destruct HN as (a & b & c & ->). repeat split. Qed.

Lemma halves_between k d : finite d -> 0 <= value d -> finite (Nat.iter k (fun d => (d / 2)%float) d) /\ 0 <= value (Nat.iter k (fun d => (d / 2)%float) d) <= value d.
Proof.
  intros F H. induction k as [|k IH]; [simpl; split; auto; lra|]. destruct IH as [F1 H1]. cbn [Nat.iter nat_rect]. change (nat_rect _ _ _ k) with (Nat.iter k (fun d => (d / 2)%float) d). destruct (half_between _ F1) as [F2 H2]; [lra|]. split; [auto|lra].
Qed.
Lemma step_dt_clock fuel o hd e w d w' : step_dt fuel o hd e w d = Ok w' -> finite d -> 0 <= value d ->
  exists d', w_t w' = (w_t w + d')%float /\ finite d' /\ 0 <= value d' <= value d.
Proof.
  intros H F P. destruct arith as (A1 & _ & _ & A4 & _). apply step_dt_halves in H. destruct H as [k H]. exists (Nat.iter k (fun d => (d / 2)%float) d). rewrite H, A1. split; [|apply halves_between; auto].
  f_equal. apply iter_ext. exact A4.
Qed.

(** ** step(fixed_dt=True) *)
(** from the moment the clock is past half the end time, the differences are exact *)
Lemma fixed_lands fuel lfuel o hd e end_t w w' : fixed_loop fuel lfuel o hd e end_t w = Ok w' -> finite (w_t w) -> finite end_t -> 0 < value (w_t w) -> value (w_t w) <= value end_t <= 2 * value (w_t w) -> w_t w' = end_t.
Proof.
  intros H F Fe P B. destruct arith as (A1 & A2 & A3 & _).
  apply (fixed_loop_inv _ _ _ _ _ _ _ _ (fun a => finite (w_t a) /\ 0 < value (w_t a) /\ value (w_t a) <= value end_t <= 2 * value (w_t a))) in H; [|clear - HN A1 A2 A3 Fe|auto].
  - destruct H as ((F' & P' & B') & L). rewrite A3 in L. symmetry. apply value_inj; auto; [lra|].
    destruct (Rle_lt_or_eq_dec _ _ (proj1 B')) as [K|K]; [|auto]. apply ltb_val in K; auto. congruence.
  - intros a a' (F' & P' & B') L S. rewrite A2 in S. destruct (sub_exact end_t (w_t a) Fe F') as [Fs Vs]; [lra|].
    destruct (step_dt_clock _ _ _ _ _ _ _ S Fs) as (d & E & Fd & Hd); [lra|].
    destruct (add_between (w_t a) end_t (w_t a) d F' Fd) as [Fa Ha]; [lra|]. rewrite E. split; auto. lra.
Qed.
(** at any time, the end is overshot by one unit in the last place at most *)
Lemma fixed_near fuel lfuel o hd e end_t w w' : fixed_loop fuel lfuel o hd e end_t w = Ok w' -> finite (w_t w) -> finite end_t -> finite (next end_t) -> 0 < value end_t -> 0 <= value (w_t w) <= value end_t -> w_t w' = end_t \/ w_t w' = next end_t.
Proof.
  intros H F Fe Fn P B. destruct arith as (A1 & A2 & A3 & _).
  assert (Q : value end_t <= value (next end_t)) by (rewrite next_val by auto; apply succ_ge_id).
  apply (fixed_loop_inv _ _ _ _ _ _ _ _ (fun a => finite (w_t a) /\ 0 <= value (w_t a) <= value (next end_t))) in H; [|clear - HN A1 A2 A3 Fe Fn|split; auto; lra].
  - destruct H as ((F' & B') & L). rewrite A3 in L. apply at_or_next; auto. split; [|lra].
    destruct (Rle_or_lt (value end_t) (value (w_t w'))) as [K|K]; [auto|]. apply ltb_val in K; auto. congruence.
  - intros a a' (F' & B') L S. rewrite A2 in S. rewrite A3 in L. apply ltb_val in L; auto.
    assert (R : 0 <= rnd (value end_t - value (w_t a)) <= value end_t) by (apply rnd_between; auto using fmt0, value_fmt; lra).
    destruct (sub_round end_t (w_t a) Fe F') as [Vs Fs]. { refine (bounded _ _ _ _ (value_lt end_t) R). rewrite Rabs_R0. apply bpow_gt_0. }
    destruct (step_dt_clock _ _ _ _ _ _ _ S Fs) as (d & E & Fd & Hd); [lra|].
    destruct (reach_next (w_t a) end_t d) as [Fa Ha]; auto; [lra|lra|]. rewrite E. split; auto. lra.
Qed.
Lemma fixed_call fuel o hd e w w' : step fuel o hd e true w = Ok w' -> finite (w_t w) -> finite (w_dt w) -> 0 < value (w_dt w) <= value (w_t w) -> finite (w_t w + w_dt w)%float ->
  w_t w' = (w_t w + w_dt w)%float /\ value (w_t w) <= value (w_t w').
Proof.
  intros H Ft Fd P Fe. destruct arith as (A1 & _). unfold step in H. rewrite A1 in H. pose proof (add_finite _ _ Ft Fd Fe) as V.
  assert (R : value (w_t w) <= rnd (value (w_t w) + value (w_dt w)) <= 2 * value (w_t w)) by (apply rnd_between; [apply value_fmt|apply fmt_double, value_fmt|lra]).
  rewrite <- V in R. rewrite (fixed_lands _ _ _ _ _ _ _ _ H) by (auto; lra). split; [auto|lra].
Qed.
Lemma fixed_either fuel o hd e w w' : step fuel o hd e true w = Ok w' -> finite (w_t w) -> finite (w_dt w) -> 0 <= value (w_t w) -> 0 < value (w_dt w) -> finite (w_t w + w_dt w)%float -> finite (next (w_t w + w_dt w)%float) ->
  w_t w' = (w_t w + w_dt w)%float \/ w_t w' = next (w_t w + w_dt w)%float.
Proof.
  intros H Ft Fd P Q Fe Fn. destruct arith as (A1 & _). unfold step in H. rewrite A1 in H.
  pose proof (add_finite _ _ Ft Fd Fe) as V.
  assert (R1 : value (w_t w) <= value (w_t w + w_dt w)%float) by (rewrite V; apply round_ge_generic; auto using value_fmt; try apply valid64; try apply valid_rnd_N; lra).
  assert (R2 : value (w_dt w) <= value (w_t w + w_dt w)%float) by (rewrite V; apply round_ge_generic; auto using value_fmt; try apply valid64; try apply valid_rnd_N; lra).
  apply (fixed_near _ _ _ _ _ _ _ _ H); auto; lra.
Qed.
Lemma fixed_ticks fuel o hd e n w w' : exec fuel o hd e (repeat (OStep true) n) w = Ok w' -> finite (w_t w) -> finite (w_dt w) -> 0 < value (w_dt w) <= value (w_t w) -> finite (ticks n (w_dt w) (w_t w)) ->
  w_t w' = ticks n (w_dt w) (w_t w).
Proof.
  revert w; induction n as [|n IH]; intros w H Ft Fd P Fe; cbn [repeat exec] in H; [inversion H; reflexivity|].
  bind_inv H as w1 E1. assert (S : ticks (S n) (w_dt w) (w_t w) = ticks n (w_dt w) (w_t w + w_dt w)%float).
  { clear. unfold ticks. induction n as [|n IH]; [reflexivity|]. unfold Nat.iter in *. cbn in *. now rewrite IH. }
  rewrite S in *. assert (F1 : finite (w_t w + w_dt w)%float). { clear - Fe. revert Fe. generalize (w_t w + w_dt w)%float. induction n as [|n IH]; intros x; [auto|]. unfold ticks, Nat.iter in *. cbn. intros F. apply add_finite_l in F. auto. }
  destruct (fixed_call _ _ _ _ _ _ E1) as [E V]; auto. pose proof (step_cfg _ _ _ _ _ _ _ E1) as C. cfg_fields C. rewrite <- E in *. specialize (IH w1 H F1). rewrite Hdt in IH. apply IH; auto. lra.
Qed.

(** ** run_world *)
Section Run.
Variables (dt : float) (Hn : bpow radix2 (-1000) <= value dt) (Hf : finite dt).
Let half j := Nat.iter j (fun d => (d / 2)%float) dt.
Lemma half_val j : (j <= 4)%nat -> finite (half j) /\ value (half j) = value dt * bpow radix2 (- Z.of_nat j).
Proof.
  induction j as [|j IH]; intros L; [split; [exact Hf|]; simpl; ring|]. destruct IH as [F V]; [lia|].
  change (half (S j)) with (half j / 2)%float. assert (Q : value (half j) * bpow radix2 (- Z.of_nat 1) = value dt * bpow radix2 (- Z.of_nat (S j))) by (rewrite V, Rmult_assoc, <- bpow_plus; do 2 f_equal; lia).
  rewrite <- Q. apply quot_exact; auto; [rewrite two_val; reflexivity|]. rewrite Q.
  assert (B : bpow radix2 (-1021) <= value dt * bpow radix2 (- Z.of_nat (S j))). { apply Rle_trans with (bpow radix2 (-1000) * bpow radix2 (- Z.of_nat (S j))); [rewrite <- bpow_plus; apply bpow_le; lia|]. apply Rmult_le_compat_r; [apply bpow_ge_0|exact Hn]. }
  rewrite Rabs_pos_eq; auto. apply Rle_trans with (2 := B). apply bpow_ge_0.
Qed.
Lemma quarter_val : finite (dt / 4)%float /\ value (dt / 4)%float = value dt * bpow radix2 (-2).
Proof.
  apply (quot_exact dt 4 2); auto; [rewrite four_val; reflexivity|].
  assert (B : bpow radix2 (-1021) <= value dt * bpow radix2 (- Z.of_nat 2)). { apply Rle_trans with (bpow radix2 (-1000) * bpow radix2 (- Z.of_nat 2)); [rewrite <- bpow_plus; apply bpow_le; lia|]. apply Rmult_le_compat_r; [apply bpow_ge_0|exact Hn]. }
  rewrite Rabs_pos_eq; auto. apply Rle_trans with (2 := B). apply bpow_ge_0.
Qed.
Lemma dt_pos : 0 < value dt.
Proof. apply Rlt_le_trans with (2 := Hn). apply bpow_gt_0. Qed.
Lemma short : (half 3 <? dt / 4)%float = true.
Proof.
  destruct (half_val 3) as [F V]; [lia|]. destruct quarter_val as [F' V']. apply ltb_val; auto. rewrite V, V'. apply Rmult_lt_compat_l; [apply dt_pos|]. apply bpow_lt. lia.
Qed.
Lemma few_tries o hd sp sr j w d k w' d' : tries o hd sp sr w d k w' d' -> w_dt w = dt -> w_strict w = false -> (j <= 3)%nat -> d = half j -> (j + k <= 3)%nat.
Proof.
  destruct arith as (A1 & A2 & A3 & A4 & A5).
  intros H. revert j. induction H as [w d w1 w2 E1 E2 E3|w d w1 w2 w3 k w' d' E1 E2 E3 E4 E5 H IH]; intros j D S L E; [lia|].
  pose proof (move_all_cfg _ _ _ E1) as C1. pose proof (find_contacts_cfg _ _ _ _ E2) as C2. assert (C : cfg w2 = cfg w) by congruence. pose proof (rewind_cfg _ _ _ _ E5) as C3. cfg_fields C.
  assert (C' : cfg w3 = cfg w) by congruence. clear C1 C2 C3.
  assert (L' : (j < 3)%nat). { destruct (Nat.eq_dec j 3) as [->|]; [|lia]. subst d. rewrite A3, A5, Hdt, D, short in E4. destruct E4; congruence. }
  assert (K : (Datatypes.S j + k <= 3)%nat); [|lia]. revert C'. intros C'. cfg_fields C'. apply IH; [congruence|congruence|lia|]. subst d. rewrite A4. reflexivity.
Qed.
Lemma loop_ends o hd : (forall (eps : float) clk bs i k, ends (hd eps clk bs i k)) -> forall fuel j w sp sr, (j <= 3)%nat -> (4 <= fuel + j)%nat -> w_dt w = dt -> w_strict w = false -> ends (step_loop fuel o hd w sp sr (half j)).
Proof.
  destruct arith as (A1 & A2 & A3 & A4 & A5).
  intros Hh. induction fuel as [|fuel IH]; intros j w sp sr L M D S; [lia|]. simpl. apply ends_bind; [apply ends_move|]. intros w1 E1. apply ends_bind; [apply ends_find; auto|]. intros w2 E2.
  pose proof (move_all_cfg _ _ _ E1) as C1. pose proof (find_contacts_cfg _ _ _ _ E2) as C2. assert (C : cfg w2 = cfg w) by congruence. clear C1. cfg_fields C.
  destruct (no_penetration w2); [apply ends_ok|]. rewrite Hstrict, S, A3, A5, Hdt, D. destruct (half j <? dt / 4)%float eqn:Q; [apply ends_ok|]. simpl. apply ends_bind; [apply ends_rewind|]. intros w3 E3.
  assert (L' : (j < 3)%nat). { destruct (Nat.eq_dec j 3) as [->|]; [|lia]. rewrite short in Q. discriminate. }
  assert (C' : cfg w3 = cfg w) by (rewrite (rewind_cfg _ _ _ _ E3); exact C). cfg_fields C'. rewrite A4. apply (IH (Datatypes.S j)); try lia; congruence.
Qed.
Lemma step_clock fuel o hd e w w' : step fuel o hd e false w = Ok w' -> w_dt w = dt -> w_strict w = false -> exists j, (j <= 3)%nat /\ w_t w' = (w_t w + half j)%float.
Proof.
  destruct arith as (A1 & A2 & A3 & A4 & A5). unfold step. intros H D S. apply step_dt_inv in H. destruct H as (nv & c & w1 & k & w2 & dt' & w3 & _ & E1 & _ & Ht & _ & _ & _ & ->).
  pose proof (set_v_cfg _ _ _ E1) as C. cfg_fields C. exists k. split.
  - apply (few_tries _ _ _ _ 0 _ _ _ _ _ Ht); try (rewrite Hdt; exact D); try (rewrite Hstrict; exact S); try lia; exact D.
  - apply tries_halves in Ht. simpl. rewrite A1, Ht, D. f_equal. apply iter_ext. exact A4.
Qed.
Lemma run_clock o hd e run_time lfuel : callbacks_end hd e -> (4 <= lfuel)%nat -> finite run_time -> finite (run_time + dt)%float -> value run_time <= bpow radix2 48 * value dt ->
  forall n w, w_dt w = dt -> w_strict w = false -> finite (w_t w) -> 0 <= value (w_t w) -> value run_time <= value (w_t w) + INR n * (value dt / 16) ->
  ends (run_world (S n) lfuel o hd e run_time w) /\
  (forall w', run_world (S n) lfuel o hd e run_time w = Ok w' -> value (w_t w) <= value (run_time + dt)%float -> finite (w_t w') /\ value run_time <= value (w_t w') <= value (run_time + dt)%float).
Proof.
  destruct arith as (A1 & A2 & A3 & A4 & A5). intros Hc Hl Fr Fb Hr. pose proof dt_pos as P.
  assert (B0 : forall t, value t < value run_time -> value t + value dt <= value run_time + value dt) by (intros; lra).
  induction n as [|n IH]; intros w D S F T0 H; cbn [run_world]; rewrite A3; destruct (w_t w <? run_time)%float eqn:Q.
  - apply ltb_val in Q; auto. simpl in H. lra.
  - split; [apply ends_ok|]. intros w' E. inversion E; subst. intros U. split; auto. split; auto. destruct (Rle_or_lt (value run_time) (value (w_t w'))) as [K|K]; [auto|]. apply ltb_val in K; auto. congruence.
  - apply ltb_val in Q; auto.
    assert (N1 : forall w', step lfuel o hd e false w = Ok w' -> w_dt w' = dt /\ w_strict w' = false /\ finite (w_t w') /\ value (w_t w) + value dt / 16 <= value (w_t w') <= value (run_time + dt)%float).
    { intros w1 E1. pose proof (step_cfg _ _ _ _ _ _ _ E1) as C. cfg_fields C. split; [congruence|]. split; [congruence|].
      destruct (step_clock _ _ _ _ _ _ E1 D S) as (j & Hj & ->). destruct (half_val j) as [Fj Vj]; [lia|].
      assert (V1 : value dt / 8 <= value (half j) <= value dt).
      { rewrite Vj. split.
        - apply Rmult_le_compat_l; [lra|]. replace (/ 8) with (bpow radix2 (-3)) by (simpl; lra). apply bpow_le. lia.
        - rewrite <- (Rmult_1_r (value dt)) at 2. apply Rmult_le_compat_l; [lra|]. change 1 with (bpow radix2 0). apply bpow_le. lia. }
      pose proof (add_finite _ _ Fr Hf Fb) as Vb.
      assert (R : 0 <= rnd (value (w_t w) + value (half j)) <= value (run_time + dt)%float).
      { split; [apply round_ge_generic; auto using fmt0; try apply valid64; try apply valid_rnd_N; lra|]. rewrite Vb. apply round_le; try apply valid64; try apply valid_rnd_N. lra. }
      destruct (add_round (w_t w) (half j) F Fj) as [Va Fa]. { refine (bounded _ _ _ _ (value_lt (run_time + dt)) R). rewrite Rabs_R0. apply bpow_gt_0. }
      split; auto. split; [|lra].
      pose proof (add_progress (w_t w) (half j) F Fj Fa T0) as G.
      assert (G1 : bpow radix2 (-1022) <= value (half j)). { apply Rle_trans with (value dt / 8); [|lra]. replace (value dt / 8) with (value dt * bpow radix2 (-3)) by (simpl; lra). apply Rle_trans with (bpow radix2 (-1000) * bpow radix2 (-3)); [rewrite <- bpow_plus; apply bpow_le; lia|]. apply Rmult_le_compat_r; [apply bpow_ge_0|exact Hn]. }
      assert (G2 : value (w_t w) + value (half j) <= bpow radix2 52 * value (half j)). { change (bpow radix2 52) with (bpow radix2 (48 + 4)). rewrite bpow_plus. change (bpow radix2 4) with 16. change (bpow radix2 48) with 281474976710656 in *. lra. }
      specialize (G G1 G2). lra. }
    split.
    + apply ends_bind. { unfold step. apply ends_step_dt; auto. intros w1 sp sr C. rewrite D. cfg_fields C. apply (loop_ends o hd (proj1 Hc) lfuel 0); try lia; congruence. }
      intros w1 E1. destruct (N1 w1 E1) as (D1 & S1 & F1 & U1 & _). apply (IH w1); auto; [lra|]. rewrite S_INR in H. lra.
    + intros w' E U. bind_inv E as w1 E1. destruct (N1 w1 E1) as (D1 & S1 & F1 & U1 & U2). apply (proj2 (IH w1 D1 S1 F1 ltac:(lra) ltac:(rewrite S_INR in H; lra))); auto.
  - split; [apply ends_ok|]. intros w' E. inversion E; subst. intros U. split; auto. split; auto. destruct (Rle_or_lt (value run_time) (value (w_t w'))) as [K|K]; [auto|]. apply ltb_val in K; auto. congruence.
Qed.
End Run.
End Clock.
