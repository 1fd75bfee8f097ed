(** What the regularised KKT solvers are meant to compute (specification for C62) *)
From Coq Require Import List Arith ZArith Bool Reals.
From Verif Require Import Num Tensor Pdipm LinAlg.
Import ListNotations.
Open Scope R_scope.

(** a KKT system with a matrix D in place of the diagonal; F may be absent *)
Record shapes (nz nineq neq : nat) (Q D G A : mat R) (F : option (mat R)) : Prop := {
  shp_Q : wf nz nz Q; shp_D : wf nineq nineq D; shp_G : wf nineq nz G; shp_A : wf neq nz A;
  shp_F : match F with Some F => wf nineq nineq F | None => True end }.
Definition F_times (nineq : nat) (F : option (mat R)) (z : vec R) : vec R :=
  match F with Some F => mv F z | None => vzeros nineq end.
(** Q and D positive semidefinite (perhaps singular, not necessarily symmetric), F monotone *)
Record semidefinite (nz nineq : nat) (Q D : mat R) (F : option (mat R)) : Prop := {
  sd_Q : forall x, length x = nz -> 0 <= dot x (mv Q x);
  sd_D : forall s, length s = nineq -> 0 <= dot s (mv D s);
  sd_F : forall z, length z = nineq -> 0 <= dot z (F_times nineq F z) }.

(** lengths of the four parts of a direction or right-hand side *)
Definition parts (nz nineq neq : nat) (d : dirs R) : Prop :=
  let '(dx, ds, dz, dy) := d in
  length dx = nz /\ length ds = nineq /\ length dz = nineq /\ length dy = neq.

(** what the direction d leaves of the system with right-hand side r:
      Q dx + G^T dz + A^T dy + rx,   D ds + dz + rs,   G dx + ds - F dz - ez dz + rz,   A dx - ey dy + ry *)
Definition leftover (nz nineq neq : nat) (Q D G A : mat R) (F : option (mat R)) (ez ey : R) (d r : dirs R) : dirs R :=
  let '(dx, ds, dz, dy) := d in
  let '(rx, rs, rz, ry) := r in
  (vadd (vadd (mv Q dx) (vm nz dz G)) (vadd (vm nz dy A) rx),
   vadd (vadd (mv D ds) dz) rs,
   vadd (vsub (vsub (vadd (mv G dx) ds) (F_times nineq F dz)) (vscale ez dz)) rz,
   vadd (vsub (mv A dx) (vscale ey dy)) ry).
(** squared length of a direction *)
Definition size2 (d : dirs R) : R :=
  let '(dx, ds, dz, dy) := d in dot dx dx + dot ds ds + dot dz dz + dot dy dy.
Definition zero_dirs (nz nineq neq : nat) : dirs R := (vzeros nz, vzeros nineq, vzeros nineq, vzeros neq).
(** e I *)
Definition times_eye (n : nat) (e : R) : mat R := mdiag (repeat e n).
