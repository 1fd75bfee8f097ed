(** A problem with its unknowns turned by a right angle and its inequalities swapped *)
From Coq Require Import List Arith ZArith Bool Reals Lia Lra Psatz Permutation.
From Verif Require Import Num Tensor RBase ResFacts LinAlg Lapack LapackRef LapackSpec LuFacts Pdipm Lcp KktSpec PdipmSpec SolverFacts GradFacts SymSpec LcpSym.
Import ListNotations.
Open Scope R_scope.

Definition ex_two : prob R := mkProb [[1; 0]; [0; 2]] [-2; -3] [[1; 0]; [0; 1]] [1; 1] [[1; -1]] [1/2] [[0; 0]; [0; 1]].
Definition ex_turned : prob R := mkProb [[2; 0]; [0; 1]] [3; -2] [[-1; 0]; [0; 1]] [1; 1] [[-1; -1]] [-(1/2)] [[1; 0]; [0; 0]].
Definition quarter (x : vec R) : vec R := match x with [a; b] => [- b; a] | _ => x end.
Ltac wf_tac := split; [reflexivity|repeat (apply Forall_cons; [reflexivity|]); apply Forall_nil].
Lemma len2 (x : vecR) : length x = 2%nat -> exists a b, x = [a; b].
Proof. destruct x as [|a [|b [|? ?]]]; try discriminate. intros _. now exists a, b. Qed.
Lemma len1 (x : vecR) : length x = 1%nat -> exists a, x = [a].
Proof. destruct x as [|a [|? ?]]; try discriminate. intros _. now exists a. Qed.
Ltac v2eq := cbn; unfold vget; cbn; rnum; repeat (f_equal; try lra).
Lemma quarter_iso : isometry 2 quarter.
Proof.
  constructor.
  - intros x L. destruct (len2 x L) as (a & b & ->). reflexivity.
  - intros x y L L'. destruct (len2 x L) as (a & b & ->), (len2 y L') as (c & d & ->). v2eq.
  - intros k x L. destruct (len2 x L) as (a & b & ->). v2eq.
  - intros x y L L'. destruct (len2 x L) as (a & b & ->), (len2 y L') as (c & d & ->). unfold dot. cbn. rnum. ring.
  - intros y L. destruct (len2 y L) as (a & b & ->). exists [b; - a]. split; [reflexivity|]. v2eq.
Qed.
Lemma opp_iso n : isometry n (vopp : vec R -> vec R).
Proof.
  constructor.
  - intros x L. now rewrite vopp_length.
  - intros x y _ _. apply vopp_vadd.
  - intros k x _. rewrite !vopp_scale, !vscale_mult. f_equal. ring.
  - intros x y _ _. rewrite dot_vopp_l, dot_vopp_r. ring.
  - intros y L. exists (vopp y). split; [now rewrite vopp_length|apply vopp_vopp].
Qed.
Lemma swap_ordering : ordering 2 [1; 0]%nat.
Proof. apply perm_swap. Qed.
Lemma ex_two_sized : sized 2 2 1 ex_two.
Proof. constructor; [constructor; [split; [wf_tac|reflexivity]|wf_tac|wf_tac|wf_tac]|reflexivity..]. Qed.
Lemma ex_turned_sized : sized 2 2 1 ex_turned.
Proof. constructor; [constructor; [split; [wf_tac|reflexivity]|wf_tac|wf_tac|wf_tac]|reflexivity..]. Qed.
Lemma ex_turned_ok : transformed 2 2 1 quarter [1; 0]%nat vopp ex_two ex_turned.
Proof.
  constructor.
  - intros x L. destruct (len2 x L) as (a & b & ->). v2eq.
  - intros x L. destruct (len2 x L) as (a & b & ->). v2eq.
  - intros x L. destruct (len2 x L) as (a & b & ->). v2eq.
  - intros x L. destruct (len2 x L) as (a & b & ->). v2eq.
  - v2eq.
  - v2eq.
  - v2eq.
Qed.
Lemma ex_two_posed : posed 2 2 1 ex_two.
Proof.
  unfold posed. constructor.
  - intros x L N. destruct (len2 x L) as (a & b & ->). unfold dot, mv, vmul, vsum. cbn. rnum. 
    assert (a <> 0 \/ b <> 0). { destruct (Req_dec a 0) as [->|]; [|auto]. destruct (Req_dec b 0) as [->|]; [|auto]. exfalso. apply N. reflexivity. }
    pose proof (Rle_0_sqr a). pose proof (Rle_0_sqr b). unfold Rsqr in *. destruct H as [H|H]; apply Rsqr_pos_lt in H; unfold Rsqr in H; nra.
  - intros y L E. destruct (len1 y L) as (a & ->). unfold vm, mv, dot in E. cbn in E. injection E as E _. unfold vget in E. cbn in E. rnum. cbn. f_equal. rnum. lra.
  - intros z L. destruct (len2 z L) as (a & b & ->). unfold dot. cbn. rnum. pose proof (Rle_0_sqr b). unfold Rsqr in *. nra.
Qed.
Lemma ex_two_runs : exists xs sv gs, lcp_forward ref_lapack default_opts 2 2 1 [ex_two] = Ok (Some (xs, sv)) /\ lcp_backward ref_lapack sv [[1; 0]] = Ok gs.
Proof.
  pose proof ref_lapack_ok as HL. assert (Hsz : Forall (sized 2 2 1) [ex_two]) by (constructor; [exact ex_two_sized|constructor]). assert (Hw : Forall (posed 2 2 1) [ex_two]) by (constructor; [exact ex_two_posed|constructor]).
  destruct (lcp_forward_total ref_lapack HL 2 2 1 Nat.lt_0_2 default_opts [ex_two] (Nat.lt_0_succ 9) Hsz Hw) as (xs & sv & HF).
  destruct (backward_total ref_lapack HL 2 2 1 Nat.lt_0_2 default_opts [ex_two] xs sv Hsz (Nat.lt_0_succ 2) HF [[1; 0]] Hw eq_refl) as (gs & HB & _). exists xs, sv, gs. auto.
Qed.
