(** The course of the mass (proofs for C93) *)
From Coq Require Import List Arith ZArith Lia Bool Reals Lra.
From Verif Require Import Num Tensor Utils Bodies Forces Constraints Contacts World Infer Search GeoSpec InferSpec SearchSpec RmsSpec RBase ResFacts LinAlg InferRun SearchFacts SearchProps RmsFacts.
Import ListNotations.
Open Scope R_scope.

Section Trail.
Variables (fuel lfuel : nat) (o : oracle R) (hd : handler R) (e : engine R) (fs : list (R -> v3 R)) (n : nat) (run_time : R) (jac : nat -> R -> list R).
Notation film := (filmed fuel lfuel o hd e fs n run_time).
Definition after {A} (a : A) (f : nat -> A) (j : nat) : A := match j with O => a | S j' => f j' end.

Lemma optim_eq p sq g p' sq' : optim_step p sq g = (p', sq') -> p' = p - 1 / 2 * g / (sqrt sq' + 1 / 100000000) /\ sq' = sq * (99 / 100) + (1 - 99 / 100) * g * g.
Proof. intros H. unfold optim_step, learning_rate in H. rnum. injection H as <- <-. split; reflexivity. Qed.
Lemma iterations_course g : forall k i last0 m0 sq m ls ms, iterations fuel lfuel o hd e fs n run_time jac g k i last0 m0 sq = Ok (m, ls, ms) ->
  exists G s : nat -> R, s 0%nat = sq /\ forall j a b, nth_error (m0 :: ms ++ [m]) j = Some a -> nth_error (m0 :: ms ++ [m]) (S j) = Some b -> (j < length ms \/ length ls < k)%nat ->
     exists p, film a p /\ G j = slope (jac (i + j)%nat a) p g /\ s (S j) = s j * (99 / 100) + (1 - 99 / 100) * G j * G j /\ b = a - 1 / 2 * G j / (sqrt (s (S j)) + 1 / 100000000).
Proof.
  induction k as [|k IH]; intros i last0 m0 sq m ls ms H.
  - cbn in H. injection H as <- <- <-. exists (fun _ => 0), (fun _ => sq). split; [reflexivity|]. intros j a b _ _ [L|L]; cbn in L; lia.
  - cbn [iterations] in H. bind_inv H as w Ew. bind_inv H as w' Ew'. bind_inv H as p Ep. apply observed in Ep. rewrite backward_slope in H.
    destruct (optim_step m0 sq _) as [m1 sq1] eqn:O1. destruct (optim_eq _ _ _ _ _ O1) as [E1 E2]. destruct (nltb _ STOP_DIFF).
    + injection H as <- <- <-. exists (fun _ => slope (jac i m0) p g), (after sq (fun _ => sq1)). split; [reflexivity|].
      intros j a b Ha Hb _. destruct j as [|j]; [|destruct j; discriminate Hb]. cbn in Ha, Hb. injection Ha as <-. injection Hb as <-. exists p. rewrite Nat.add_0_r. cbn [after]. auto.
    + bind_inv H as rr Er. destruct rr as [[m2 ls'] ms']. injection H as <- <- <-. destruct (IH _ _ _ _ _ _ _ Er) as (G & s & S0 & A). exists (after (slope (jac i m0) p g) G), (after sq s). split; [reflexivity|].
      intros j a b Ha Hb L. destruct j as [|j]; cbn [after].
      * cbn in Ha, Hb. injection Ha as <-. injection Hb as <-. exists p. rewrite Nat.add_0_r, S0. auto.
      * cbn [nth_error app] in Ha, Hb. replace (i + S j)%nat with (S i + j)%nat by lia. apply (A j a b Ha Hb). cbn [length] in L. lia.
Qed.
Theorem search_course truth start m L ls ms g : infer_mass fuel lfuel o hd e fs n run_time jac truth start = Ok (m, L, ls, ms) -> film truth g ->
  exists G : nat -> R, forall k a b,
  nth_error (if Nat.eqb (length ls) 100 then ms else ms ++ [m]) k = Some a -> nth_error (if Nat.eqb (length ls) 100 then ms else ms ++ [m]) (S k) = Some b ->
  exists p, film a p /\ G k = slope (jac k a) p g /\ b = stepped (1 / 2) G k a.
Proof.
  intros H Hg. unfold infer_mass in H. bind_inv H as g' Eg. apply observed in Eg. rewrite (film_unique _ _ _ _ _ _ _ _ _ _ _ Eg Hg) in H. clear g' Eg. bind_inv H as r Er. destruct r as [[m' ls'] ms']. bind_inv H as p Ep. injection H as -> _ -> <-.
  destruct (iterations_report fuel lfuel o hd e fs n run_time jac g _ _ _ _ _ _ _ _ (Rle_refl 0) Er) as (A1 & A2 & _). destruct (iterations_course g _ _ _ _ _ _ _ _ Er) as (G & s & S0 & A). change max_iter with 100%nat in *.
  exists G. set (tried := if Nat.eqb (length ls) 100 then _ else _).
  assert (Q : forall k a, nth_error tried k = Some a -> nth_error (start :: ms' ++ [m]) k = Some a).
  { intros k a. unfold tried. destruct (Nat.eqb_spec (length ls) 100) as [E|E]; [|auto]. intros Hk. change (start :: ms' ++ [m]) with ((start :: ms') ++ [m]). rewrite nth_error_app1; [exact Hk|]. apply nth_error_Some. congruence. }
  assert (Ql : forall k b, nth_error tried (S k) = Some b -> (k < length ms' \/ length ls < 100)%nat).
  { intros k b. unfold tried. destruct (Nat.eqb_spec (length ls) 100) as [E|E]; [|intros; lia]. intros Hk. left. assert (S k < length (start :: ms'))%nat as X by (apply nth_error_Some; congruence). cbn in X. lia. }
  assert (Ls : forall k b j, nth_error tried (S k) = Some b -> (j < S k)%nat -> s (S j) = s j * (99 / 100) + (1 - 99 / 100) * G j * G j).
  { intros k b j Hb Hj. assert (Lt : (S k < length tried)%nat) by (apply nth_error_Some; congruence).
    destruct (nth_error tried j) as [c|] eqn:Ec; [|apply nth_error_None in Ec; lia]. destruct (nth_error tried (S j)) as [d|] eqn:Ed; [|apply nth_error_None in Ed; lia].
    destruct (A j c d (Q _ _ Ec) (Q _ _ Ed) (Ql _ _ Ed)) as (q & _ & _ & E & _). exact E. }
  intros k a b Ha Hb. destruct (A k a b (Q _ _ Ha) (Q _ _ Hb) (Ql _ _ Hb)) as (q & F & EG & _ & Eb). exists q. split; [exact F|]. split; [exact EG|].
  rewrite (kept_average s G (S k) S0 (fun j Hj => Ls k b j Hb Hj) k ltac:(lia)) in Eb. exact Eb.
Qed.
End Trail.
