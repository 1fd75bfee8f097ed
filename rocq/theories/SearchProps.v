(** The search for the mass (proofs for C93) *)
From Coq Require Import List Arith ZArith Lia Bool Reals Lra.
From Verif Require Import Num Tensor Utils Bodies Forces Constraints Contacts World Infer Search GeoSpec InferSpec SearchSpec RBase ResFacts LinAlg InferRun SearchFacts.
Import ListNotations.
Open Scope R_scope.

Lemma last_any : forall (l : list R) x d d', last (x :: l) d = last (x :: l) d'.
Proof. induction l as [|y l IH]; intros x d d'; [reflexivity|]. exact (IH y d d'). Qed.

Section Search.
Variables (fuel lfuel : nat) (o : oracle R) (hd : handler R) (e : engine R) (fs : list (R -> v3 R)) (n : nat) (run_time : R) (jac : nat -> R -> list R).
Notation film := (filmed fuel lfuel o hd e fs n run_time).
Notation obs := (observe fuel lfuel o hd e fs n run_time).

Lemma observed m p : obs m = Ok p <-> film m p.
Proof.
  unfold observe, filmed. split.
  - intros H. bind_inv H as w Ew. bind_inv H as r Er. destruct r as [l w']. injection H as <-. exists w, w'. auto.
  - intros (w & w' & -> & E). cbn [bind]. rewrite E. reflexivity.
Qed.
Lemma film_unique m p p' : film m p -> film m p' -> p = p'.
Proof. intros A B. apply observed in A, B. rewrite A in B. now injection B. Qed.
Lemma run_film w : forall f rt l w', positions_run_world f lfuel o hd e rt w = Ok (l, w') -> run_world f lfuel o hd e rt w = Ok w'.
Proof.
  intros f rt. revert w. induction f as [|f IH]; intros w l w' H; [discriminate|]. cbn [positions_run_world run_world] in *. destruct (nltb (w_t w) rt).
  - bind_inv H as w1 E1. bind_inv H as r Er. destruct r as [l1 w2]. cbn [fst snd] in H. injection H as _ <-. rewrite E1. cbn [bind]. exact (IH w1 l1 w2 Er).
  - injection H as _ <-. reflexivity.
Qed.

(** what the iterations return *)
Lemma iterations_report g : forall k i last0 m0 sq m ls ms, 0 <= sq -> iterations fuel lfuel o hd e fs n run_time jac g k i last0 m0 sq = Ok (m, ls, ms) ->
  length ms = length ls /\ (length ls <= k)%nat /\
  (forall j a l, nth_error (m0 :: ms) j = Some a -> nth_error ls j = Some l -> exists p, film a p /\ l = mean_sq p g) /\
  (forall j l l', nth_error (last0 :: ls) j = Some l -> nth_error (last0 :: ls) (S j) = Some l' -> 1 / 1000 <= Rabs (l - l')) /\
  (forall j a b, nth_error (m0 :: ms ++ [m]) j = Some a -> nth_error (m0 :: ms ++ [m]) (S j) = Some b -> (j < length ms \/ length ls < k)%nat ->
     exists p r, film a p /\ 0 < r /\ b = a - r * slope (jac (i + j)%nat a) p g /\ Rabs (b - a) <= 5) /\
  (length ls = k /\ last (m0 :: ms) m0 = m \/ (length ls < k)%nat /\ exists p, film (last (m0 :: ms) m0) p /\ Rabs (last (last0 :: ls) last0 - mean_sq p g) < 1 / 1000).
Proof.
  induction k as [|k IH]; intros i last0 m0 sq m ls ms Hs H.
  - cbn in H. injection H as <- <- <-. split; [reflexivity|]. split; [cbn; lia|]. split; [intros j a l _ Hl; destruct j; discriminate Hl|].
    split; [intros j l l' _ Hl; destruct j as [|[|j]]; discriminate Hl|]. split; [intros j a b _ _ [L|L]; cbn in L; lia|]. left. split; reflexivity.
  - cbn [iterations] in H. bind_inv H as w Ew. bind_inv H as w' Ew'. bind_inv H as p Ep. apply observed in Ep. rewrite backward_slope in H.
    destruct (optim_step m0 sq _) as [m1 sq1] eqn:O1. destruct (optim_moves _ _ _ _ _ Hs O1) as (Hs1 & r & Hr & E1 & B1). rewrite loss_mean in H.
    change (nltb (nabs (nsub last0 (mean_sq p g))) STOP_DIFF) with (Rltb (Rabs (last0 - mean_sq p g)) (1 / 1000)) in H. destruct (Rltb_spec (Rabs (last0 - mean_sq p g)) (1 / 1000)) as [Q|Q].
    + injection H as <- <- <-. split; [reflexivity|]. split; [cbn; lia|]. split; [intros j a l _ Hl; destruct j; discriminate Hl|].
      split; [intros j l l' _ Hl; destruct j as [|[|j]]; discriminate Hl|]. split.
      * intros j a b Ha Hb _. destruct j as [|j]; [|destruct j; discriminate Hb]. cbn in Ha, Hb. injection Ha as <-. injection Hb as <-. exists p, r. rewrite Nat.add_0_r. auto.
      * right. split; [cbn; lia|]. exists p. cbn [last]. auto.
    + bind_inv H as rr Er. destruct rr as [[m2 ls'] ms']. injection H as <- <- <-. destruct (IH _ _ _ _ _ _ _ Hs1 Er) as (A1 & A2 & A3 & A4 & A5 & A6).
      split; [cbn; lia|]. split; [cbn; lia|]. split; [|split; [|split]].
      * intros j a l Ha Hl. destruct j as [|j]; cbn [nth_error] in Ha, Hl; [injection Ha as <-; injection Hl as <-; eauto|]. exact (A3 j a l Ha Hl).
      * intros j l l' Hl Hl'. destruct j as [|j]; cbn [nth_error] in Hl, Hl'; [injection Hl as <-; injection Hl' as <-; exact Q|]. exact (A4 j l l' Hl Hl').
      * intros j a b Ha Hb L. destruct j as [|j].
        -- cbn in Ha, Hb. injection Ha as <-. injection Hb as <-. exists p, r. rewrite Nat.add_0_r. auto.
        -- cbn [nth_error app] in Ha, Hb. replace (i + S j)%nat with (S i + j)%nat by lia. apply (A5 j a b Ha Hb). cbn [length] in L. lia.
      * destruct A6 as [[L <-]|[L (p' & F & Q')]]; [left; split; [cbn; lia|]|right; split; [cbn; lia|]; exists p'].
        -- cbn [last]. apply last_any.
        -- change (last (m0 :: m1 :: ms') m0) with (last (m1 :: ms') m0). change (last (last0 :: mean_sq p g :: ls') last0) with (last (mean_sq p g :: ls') last0).
           rewrite (last_any ms' m1 m0 m1), (last_any ls' _ last0 (mean_sq p g)). auto.
Qed.

Theorem report truth start m L ls ms : infer_mass fuel lfuel o hd e fs n run_time jac truth start = Ok (m, L, ls, ms) ->
  exists g p, film truth g /\ film m p /\ L = mean_sq p g /\
  length ms = S (length ls) /\ (length ls <= 100)%nat /\ nth_error ms 0 = Some start /\
  (forall k a l, nth_error ms k = Some a -> nth_error ls k = Some l -> exists q, film a q /\ l = mean_sq q g) /\
  (forall k l l', nth_error ls k = Some l -> nth_error ls (S k) = Some l' -> 1 / 1000 <= Rabs (l - l')) /\
  (length ls = 100%nat /\ last ms 0 = m \/
   (length ls < 100)%nat /\ exists q, film (last ms 0) q /\ Rabs (last ls 10000000000 - mean_sq q g) < 1 / 1000).
Proof.
  intros H. unfold infer_mass in H. bind_inv H as g Eg. bind_inv H as r Er. destruct r as [[m' ls'] ms']. bind_inv H as p Ep. rewrite loss_mean in H. injection H as -> <- -> <-. apply observed in Eg, Ep. 
  destruct (iterations_report g _ _ _ _ _ _ _ _ (Rle_refl 0) Er) as (A1 & A2 & A3 & A4 & _ & A6). exists g, p. split; [exact Eg|]. split; [exact Ep|]. split; [reflexivity|]. split; [cbn; lia|]. split; [exact A2|]. split; [reflexivity|]. split; [exact A3|]. split.
  - intros k l l' Hl Hl'. exact (A4 (S k) l l' Hl Hl').
  - rewrite (last_any ms' start 0 start). destruct A6 as [A6|[L6 (q & F & Q)]]; [left; exact A6|right]. split; [exact L6|]. exists q. split; [exact F|]. revert Q. destruct ls as [|l0 ls]; [exact (fun Q => Q)|].
    change (last (nofZ 10000000000 :: l0 :: ls) (nofZ 10000000000)) with (last (l0 :: ls) (nofZ 10000000000)). exact (fun Q => Q).
Qed.
(** a first guess that cannot be told from the truth is returned *)
Theorem stuck truth start p g : film start p -> film truth g -> clipped p g = clipped g p ->
  infer_mass fuel lfuel o hd e fs n run_time jac truth start = Ok (start, 0, [0], [start; start]).
Proof.
  intros Hp Hg E. unfold infer_mass. pose proof (proj2 (observed _ _) Hp) as Op. rewrite (proj2 (observed _ _) Hg). cbn [bind]. assert (exists x, max_iter = S (S x)) as (x & ->) by (eexists; reflexivity). cbn [iterations].
  destruct Hp as (w & w' & Ew & Er). rewrite Ew. cbn [bind]. rewrite (run_film _ _ _ _ _ Er). cbn [bind]. rewrite Op. cbn [bind]. rewrite !backward_slope, loss_mean.
  destruct (slope_agree (jac 0%nat start) p g E) as [-> M]. rewrite M. destruct (optim_none start 0) as [s1 E1]. match goal with |- context [optim_step start ?z 0%R] => change (optim_step start z 0%R) with (optim_step start 0%R 0%R) end. rewrite E1.
  change (nltb (nabs (nsub (nofZ 10000000000) 0)) STOP_DIFF) with (Rltb (Rabs (10000000000 - 0)) (1 / 1000)). rewrite (proj2 (Rltb_false _ _)) by (rewrite Rabs_pos_eq; lra).
  rewrite Ew. cbn [bind]. rewrite (run_film _ _ _ _ _ Er). cbn [bind]. rewrite Op. cbn [bind]. rewrite !backward_slope, loss_mean, M. destruct (slope_agree (jac 1%nat start) p g E) as [-> _]. destruct (optim_none start s1) as [s2 E2]. rewrite E2.
  change (nltb (nabs (nsub 0 0)) STOP_DIFF) with (Rltb (Rabs (0 - 0)) (1 / 1000)). rewrite (proj2 (Rltb_true _ _)) by (rewrite Rminus_0_r, Rabs_R0; lra). cbn [bind]. rewrite Op. cbn [bind]. rewrite loss_mean, M. reflexivity.
Qed.
End Search.
