(** Problems whose Newton systems can be solved, without a condition on the sign of F (specification for C84) *)
From Coq Require Import List Arith Reals.
From Verif Require Import Num Tensor LinAlg.
Import ListNotations.
Open Scope R_scope.

(** Q positive definite, independent equality constraints, and for every positive d the only z with
    Q x = A^T y + G^T z, A x = 0 and G x + F z + z/d = 0 is 0 *)
Record regular (nz nineq neq : nat) (Q G F A : mat R) : Prop := {
  rg_Q : forall x, length x = nz -> x <> vzeros nz -> 0 < dot x (mv Q x);
  rg_A : forall y, length y = neq -> vm nz y A = vzeros nz -> y = vzeros neq;
  rg_F : forall d x y z, length d = nineq -> (forall i, (i < nineq)%nat -> 0 < vget d i) ->
    length x = nz -> length y = neq -> length z = nineq ->
    mv Q x = vadd (vm nz y A) (vm nz z G) -> mv A x = vzeros neq ->
    vadd (vadd (mv G x) (mv F z)) (vdiv z d) = vzeros nineq -> z = vzeros nineq }.
