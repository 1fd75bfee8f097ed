(** What the linear algebra of the LCP solver is meant to compute (specification for C38-C40, C55) *)
From Coq Require Import List Arith ZArith Bool Reals Permutation.
From Verif Require Import Num Tensor Lapack Pdipm LinAlg LapackSpec.
Import ListNotations.
Open Scope R_scope.

(** shapes of one problem of the batch; Q symmetric *)
Record shaped (nz nineq neq : nat) (Q G F A : mat R) : Prop := {
  sh_Q : symm nz Q; sh_G : wf nineq nz G; sh_F : wf nineq nineq F; sh_A : wf neq nz A }.

(** [f] is an LU factorisation of the Schur matrix

      S = [ A Q^{-1} A^T        A Q^{-1} G^T                    ]
          [ G Q^{-1} A^T        G Q^{-1} G^T + F + diag(1/d)    ]

    (comment in pdipm.py:328-329, with F):  for x = Q^{-1} (A^T y + G^T z), interchanging the
    entries of S (y, z) = (A x, G x + F z + z/d) gives L U (y, z). *)
Definition factors_schur (nz nineq neq : nat) (Q G F A : mat R) (d : vec R) (f : lu R) : Prop :=
  packed (neq + nineq) f /\
  forall x y z, length x = nz -> length y = neq -> length z = nineq ->
    mv Q x = vadd (vm nz y A) (vm nz z G) ->
    apply_piv 0 (snd f) (mv A x ++ vadd (vadd (mv G x) (mv F z)) (vdiv z d)) =
    lu_mul (neq + nineq) f (y ++ z).

(** the Newton system of the interior-point method *)
Record kkt_solution (nz nineq neq : nat) (Q G F A : mat R) (d rx rs rz ry dx ds dz dy : vec R) : Prop := {
  ks_lx : length dx = nz; ks_ls : length ds = nineq; ks_lz : length dz = nineq; ks_ly : length dy = neq;
  ks_x : vadd (vadd (mv Q dx) (vm nz dz G)) (vm nz dy A) = vopp rx;
  ks_s : vadd (vmul d ds) dz = vopp rs;
  ks_z : vsub (vadd (mv G dx) ds) (mv F dz) = vopp rz;
  ks_y : mv A dx = vopp ry }.

(** well-posed problems: Q positive definite, independent equality constraints, F monotone *)
Record well_posed (nz nineq neq : nat) (Q G F A : mat R) : Prop := {
  wp_Q : forall x, length x = nz -> x <> vzeros nz -> 0 < dot x (mv Q x);
  wp_A : forall y, length y = neq -> vm nz y A = vzeros nz -> y = vzeros neq;
  wp_F : forall z, length z = nineq -> 0 <= dot z (mv F z) }.

(** a sequence of factor_kkt calls (forward's iterations and backward) *)
Fixpoint refactor (la : lapack R) (nineq neq : nat) (S : lu R) (Rm : mat R) (ds : list (vec R)) : res (lu R) :=
  match ds with
  | [] => Ok S
  | d :: ds' => do S' <- factor_kkt la nineq neq S Rm d; refactor la nineq neq S' Rm ds'
  end.

(** matrices of the forms efficient_btriunpack returns *)
Definition permutation_matrix (n : nat) (P : mat R) : Prop :=
  wf n n P /\ exists l, Permutation l (seq 0 n) /\
    forall i j, (i < n)%nat -> (j < n)%nat -> mget P i j = if Nat.eqb (nth j l 0%nat) i then 1 else 0.
Definition unit_lower (n : nat) (L : mat R) : Prop :=
  wf n n L /\ forall i j, (i < n)%nat -> (j < n)%nat -> (i = j -> mget L i j = 1) /\ ((i < j)%nat -> mget L i j = 0).
Definition upper_triangular (n : nat) (U : mat R) : Prop :=
  wf n n U /\ forall i j, (i < n)%nat -> (j < n)%nat -> (j < i)%nat -> mget U i j = 0.
