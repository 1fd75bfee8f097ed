(** What the interior-point loop is meant to do (specification for C41-C43, C47, C55) *)
From Coq Require Import List Arith ZArith Bool Reals.
From Verif Require Import Num Tensor Lapack Pdipm LinAlg LapackSpec KktSpec.
Import ListNotations.
Open Scope R_scope.

Definition pos (v : vec R) : Prop := Forall (fun a => 0 < a) v.

(** sizes of one mixed LCP *)
Record sized (nz nineq neq : nat) (pr : prob R) : Prop := {
  sz_mat : shaped nz nineq neq (pr_Q pr) (pr_G pr) (pr_F pr) (pr_A pr);
  sz_p : length (pr_p pr) = nz; sz_h : length (pr_h pr) = nineq; sz_b : length (pr_b pr) = neq }.

(** the three linear residuals of a point (x, s, z, y) *)
Definition stationarity (nz : nat) (pr : prob R) (it : iter R) : vec R :=
  vadd (vadd (mv (pr_Q pr) (i_x it)) (pr_p pr)) (vadd (vm nz (i_z it) (pr_G pr)) (vm nz (i_y it) (pr_A pr))).
Definition inequality (pr : prob R) (it : iter R) : vec R :=
  vsub (vsub (vadd (mv (pr_G pr) (i_x it)) (i_s it)) (mv (pr_F pr) (i_z it))) (pr_h pr).
Definition equality (pr : prob R) (it : iter R) : vec R := vsub (mv (pr_A pr) (i_x it)) (pr_b pr).

Definition norm2 (v : vec R) : R := sqrt (dot v v).
(** the residual the solver minimises *)
Definition residual (nz : nat) (pr : prob R) (it : iter R) : R :=
  norm2 (equality pr it) + norm2 (inequality pr it) + norm2 (stationarity nz pr it) + dot (i_s it) (i_z it).

(** a point of the right sizes *)
Record point (nz nineq neq : nat) (it : iter R) : Prop := {
  pt_x : length (i_x it) = nz; pt_s : length (i_s it) = nineq; pt_z : length (i_z it) = nineq;
  pt_y : length (i_y it) = neq }.

(** strictly interior point *)
Definition interior (it : iter R) : Prop := pos (i_s it) /\ pos (i_z it).

(** an exact solution of the mixed LCP *)
Record solves_lcp (nz nineq neq : nat) (pr : prob R) (it : iter R) : Prop := {
  sl_pt : point nz nineq neq it;
  sl_x : stationarity nz pr it = vzeros nz;
  sl_z : inequality pr it = vzeros nineq;
  sl_y : mv (pr_A pr) (i_x it) = pr_b pr;
  sl_s0 : Forall (fun a => 0 <= a) (i_s it); sl_z0 : Forall (fun a => 0 <= a) (i_z it);
  sl_c : forall i, vget (i_s it) i * vget (i_z it) i = 0 }.

(** the batch after k iterations *)
Fixpoint visited (la : lapack R) (nz nineq neq : nat) (k : nat) (es : list (elt R)) : res (list (elt R)) :=
  match k with
  | O => Ok es
  | S k' => do es1 <- factor_batch la nineq neq es; visited la nz nineq neq k' (batch_step la nz nineq neq es1)
  end.

(** the starting batch: factorisation and initial point *)
Definition start (la : lapack R) (nz nineq neq : nat) (ps : list (prob R)) : res (list (elt R)) :=
  do fs <- mapM (fun pr => pre_factor_kkt la nz nineq neq (pr_Q pr) (pr_G pr) (pr_F pr) (pr_A pr)) ps;
  mapM (fun '(pr, (Q_LU, S_LU, Rm)) => init_elt la nz nineq neq pr Q_LU S_LU Rm) (combine ps fs).

(** [it] is the point of problem [i] after [j] iterations of the solver on the batch [ps] *)
Definition iterate (la : lapack R) (nz nineq neq : nat) (ps : list (prob R)) (j i : nat) (it : iter R) : Prop :=
  exists es0 es e, start la nz nineq neq ps = Ok es0 /\ visited la nz nineq neq j es0 = Ok es /\
    nth_error es i = Some e /\ e_it e = it.

(** no component of the directions of an iteration is exactly zero (a zero makes get_step divide
    by zero) *)
Definition moving (la : lapack R) (nz nineq neq : nat) (es : list (elt R)) : Prop :=
  forall e dx ds dz dy, In (e, (dx, ds, dz, dy)) (batch_affs la nz neq es ++ batch_dirs la nz nineq neq es) ->
    Forall (fun a => a <> 0) ds /\ Forall (fun a => a <> 0) dz.
Definition no_zero_direction (la : lapack R) (nz nineq neq : nat) (ps : list (prob R)) (j : nat) : Prop :=
  forall k es0 es es1, (k < j)%nat -> start la nz nineq neq ps = Ok es0 -> visited la nz nineq neq k es0 = Ok es ->
    factor_batch la nineq neq es = Ok es1 -> moving la nz nineq neq es1.
