(** The contract assumed of LAPACK (torch.btrifact, btrisolve, inverse) in exact arithmetic.

    It is a hypothesis of the theorems about the solver, never an axiom; [ref_lapack_ok] in
    LuFacts.v shows that Gaussian elimination with partial pivoting meets it. *)
From Coq Require Import List Arith ZArith Bool Reals.
From Verif Require Import Num Tensor Lapack LinAlg.
Import ListNotations.
Open Scope R_scope.

(** the row interchanges LAPACK's pivots stand for: for k = 0, 1, ...: swap entries k and piv[k]-1 *)
Definition apply_piv {A} (d : A) (piv : list nat) (l : list A) : list A :=
  fold_left (fun l kj => swap d l (fst kj) (snd kj - 1)) (combine (seq 0 (length piv)) piv) l.

(** the triangular matrices packed into one square array *)
Definition lower (D : mat R) (i j : nat) : R := if Nat.ltb j i then mget D i j else if Nat.eqb i j then 1 else 0.
Definition upper (D : mat R) (i j : nat) : R := if Nat.leb i j then mget D i j else 0.
Definition square (n : nat) (f : nat -> nat -> R) : mat R := map (fun i => map (f i) (seq 0 n)) (seq 0 n).

(** packed data and 1-based pivots of size n, with an invertible upper triangle *)
Definition packed (n : nat) (f : lu R) : Prop :=
  wf n n (fst f) /\ length (snd f) = n /\ Forall (fun p => (1 <= p <= n)%nat) (snd f) /\
  forall i, (i < n)%nat -> mget (fst f) i i <> 0.
(** L (U y) *)
Definition lu_mul (n : nat) (f : lu R) (y : vec R) : vec R :=
  mv (square n (lower (fst f))) (mv (square n (upper (fst f))) y).
(** interchanging the rows of A gives L U *)
Definition factors (n : nat) (A : mat R) (f : lu R) : Prop :=
  packed n f /\ forall x, length x = n -> apply_piv 0 (snd f) (mv A x) = lu_mul n f x.
Definition nonsingular (n : nat) (A : mat R) : Prop :=
  forall x, length x = n -> mv A x = vzeros n -> x = vzeros n.

Record lapack_ok (la : lapack R) : Prop := {
  getrf_ok : forall n A f, wf n n A -> la_getrf la A = Ok f -> factors n A f;
  getrf_total : forall n A, wf n n A -> nonsingular n A -> exists f, la_getrf la A = Ok f;
  getrs_ok : forall n f b, packed n f -> length b = n ->
    length (la_getrs la f b) = n /\ lu_mul n f (la_getrs la f b) = apply_piv 0 (snd f) b;
  inv_ok : forall n A B, wf n n A -> la_inv la A = Ok B ->
    wf n n B /\ forall x, length x = n -> mv A (mv B x) = x /\ mv B (mv A x) = x;
  inv_total : forall n A, wf n n A -> nonsingular n A -> exists B, la_inv la A = Ok B }.
