(** The course of the learned velocity (proofs for C92) *)
From Coq Require Import List Arith ZArith Lia Bool Reals Lra.
From Verif Require Import Num Tensor Utils Bodies Contacts World Breakout Screen Game Learn GeoSpec LearnSpec RmsSpec RBase ResFacts LearnProps RmsFacts.
Import ListNotations.
Open Scope R_scope.

Section Trail.
Variables (fuel sfuel : nat) (o : oracle R) (hd : handler R) (e : engine R) (env : nat -> list nat -> frame) (draws : nat -> nat -> R) (backward : nat -> R * R -> R * R).
Notation loss_at := (fun i v => episode fuel sfuel o hd e (env i) (controls (draws i)) (fst v) (snd v)).
Definition cons_nat {A} (a : A) (f : nat -> A) (j : nat) : A := match j with O => a | S j' => f j' end.

Lemma iterations_trail : forall n i last p sq p', iterations fuel sfuel o hd e env draws backward n i last p sq = Ok p' ->
  exists k (v s : nat -> R * R) (L : nat -> R), (k <= n)%nat /\ (n <> 0 -> 0 < k)%nat /\ v 0%nat = p /\ s 0%nat = sq /\ L 0%nat = last /\ v k = p' /\
    (forall j, (j < k)%nat -> loss_at (i + j)%nat (v j) = Ok (L (S j)) /\
       rms_step (fst (v j)) (fst (s j)) (fst (backward (i + j)%nat (v j))) = (fst (v (S j)), fst (s (S j))) /\
       rms_step (snd (v j)) (snd (s j)) (snd (backward (i + j)%nat (v j))) = (snd (v (S j)), snd (s (S j)))) /\
    (forall j, (S j < k)%nat -> 1 / 1000000000000000 <= Rabs (L j - L (S j))) /\
    ((k < n)%nat -> Rabs (L (k - 1)%nat - L k) < 1 / 1000000000000000).
Proof.
  induction n as [|n IH]; intros i last p sq p' H.
  - injection H as <-. exists 0%nat, (fun _ => p), (fun _ => sq), (fun _ => last). repeat split; intros; try lia.
  - cbn [iterations] in H. cbv zeta in H. rewrite (controls_eq (draws i)) in H. bind_inv H as l El.
    destruct (rms_step (fst p) (fst sq) _) as [px sx] eqn:Rx. destruct (rms_step (snd p) (snd sq) _) as [py sy] eqn:Ry. rnum. destruct (Rltb_spec (Rabs (last - l)) (1 / 1000000000000000)) as [Q|Q].
    + injection H as <-. exists 1%nat, (cons_nat p (fun _ => (px, py))), (cons_nat sq (fun _ => (sx, sy))), (cons_nat last (fun _ => l)). split; [lia|]. split; [lia|]. do 4 (split; [reflexivity|]). split; [|split; [intros; lia|intros _; exact Q]].
      intros j Hj. destruct j as [|j]; [|lia]. cbn [cons_nat fst snd]. rewrite Nat.add_0_r. auto.
    + destruct (IH _ _ _ _ _ H) as (k & v & s & L & Hk & Hp & V0 & S0 & L0 & Vk & A & B & C). exists (S k), (cons_nat p v), (cons_nat sq s), (cons_nat last L). split; [lia|]. split; [lia|]. do 3 (split; [reflexivity|]). split; [exact Vk|]. split; [|split].
      * intros j Hj. destruct j as [|j]; cbn [cons_nat].
        -- rewrite V0, S0, L0, Nat.add_0_r. cbn [fst snd]. auto.
        -- replace (i + S j)%nat with (S i + j)%nat by lia. apply A. lia.
      * intros j Hj. destruct j as [|j]; cbn [cons_nat]; [rewrite L0; exact Q|]. apply B. lia.
      * intros Hk'. cbn [cons_nat]. rewrite Nat.sub_succ, Nat.sub_0_r. destruct k as [|k]; [lia|]. cbn [cons_nat]. replace (S k - 1)%nat with k in C by lia. apply C. lia.
Qed.
Theorem course start p : infer_params fuel sfuel o hd e env draws backward start = Ok p ->
  exists k (v : nat -> R * R) (L : nat -> R), (1 <= k <= 1000)%nat /\ v 0%nat = start /\ v k = p /\ L 0%nat = 10000000000 /\
    (forall j, (j < k)%nat -> loss_at j (v j) = Ok (L (S j)) /\
       v (S j) = (stepped (3 / 100) (fun i => fst (backward i (v i))) j (fst (v j)), stepped (3 / 100) (fun i => snd (backward i (v i))) j (snd (v j)))) /\
    (forall j, (S j < k)%nat -> 1 / 1000000000000000 <= Rabs (L j - L (S j))) /\
    ((k < 1000)%nat -> Rabs (L (k - 1)%nat - L k) < 1 / 1000000000000000).
Proof.
  intros H. unfold infer_params in H. apply iterations_trail in H. destruct H as (k & v & s & L & Hk & Hp & V0 & S0 & L0 & Vk & A & B & C). change max_iter with 1000%nat in *.
  exists k, v, L. split; [lia|]. split; [exact V0|]. split; [exact Vk|]. split; [exact L0|]. split; [|split; [exact B|exact C]].
  assert (R1 : forall a q g b r, rms_step (T := R) a q g = (b, r) -> b = a - 3 / 100 * g / (sqrt r + 1 / 100000000) /\ r = q * (99 / 100) + (1 - 99 / 100) * g * g).
  { intros a q g b r E. unfold rms_step, learning_rate in E. rnum. injection E as <- <-. split; reflexivity. }
  assert (F1 : forall j, (j < k)%nat -> fst (s (S j)) = faded (fun i => fst (backward i (v i))) j).
  { apply (kept_average (fun j => fst (s j)) (fun i => fst (backward i (v i))) k); [rewrite S0; reflexivity|]. intros j Hj. destruct (A j Hj) as (_ & E & _). exact (proj2 (R1 _ _ _ _ _ E)). }
  assert (F2 : forall j, (j < k)%nat -> snd (s (S j)) = faded (fun i => snd (backward i (v i))) j).
  { apply (kept_average (fun j => snd (s j)) (fun i => snd (backward i (v i))) k); [rewrite S0; reflexivity|]. intros j Hj. destruct (A j Hj) as (_ & _ & E). exact (proj2 (R1 _ _ _ _ _ E)). }
  intros j Hj. destruct (A j Hj) as (E & E1 & E2). split; [exact E|]. apply R1 in E1, E2. destruct E1 as [E1 _], E2 as [E2 _]. rewrite (F1 j Hj) in E1. rewrite (F2 j Hj) in E2. rewrite (surjective_pairing (v (S j))), E1, E2. reflexivity.
Qed.
End Trail.
