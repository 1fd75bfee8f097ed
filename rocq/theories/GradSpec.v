(** What the gradients of the LCP layer are meant to be (specification for C45) *)
From Coq Require Import List Arith ZArith Bool Reals.
From Verif Require Import Num Tensor Lapack Pdipm Lcp LinAlg LapackSpec KktSpec PdipmSpec.
Import ListNotations.
Open Scope R_scope.

(** derivatives at t = 0 of curves of vectors and of matrices, entry by entry *)
Definition vrate (f : R -> vec R) (l : vec R) : Prop :=
  forall i, derivable_pt_lim (fun t => vget (f t) i) 0 (vget l i).
Definition mrate (f : R -> mat R) (l : mat R) : Prop :=
  forall i j, derivable_pt_lim (fun t => mget (f t) i j) 0 (mget l i j).

(** a curve of problems [pr] and of points [it] around t = 0: at every t the point satisfies the
    equations of the LCP as closely as the point at t = 0 does -- the residuals and the products
    s_i z_i do not change along the curve.  (For a point returned by the solver these are the
    residuals the solver stopped with; for the solutions of the LCP they would be zero.) *)
Record solution_curve (nz nineq neq : nat) (pr : R -> prob R) (it : R -> iter R) (r : R) : Prop := {
  sc_r : 0 < r;
  sc_sized : forall t, - r < t < r -> sized nz nineq neq (pr t);
  sc_point : forall t, - r < t < r -> point nz nineq neq (it t);
  sc_x : forall t, - r < t < r -> stationarity nz (pr t) (it t) = stationarity nz (pr 0) (it 0);
  sc_z : forall t, - r < t < r -> inequality (pr t) (it t) = inequality (pr 0) (it 0);
  sc_y : forall t, - r < t < r -> equality (pr t) (it t) = equality (pr 0) (it 0);
  sc_c : forall t, - r < t < r -> vmul (i_s (it t)) (i_z (it t)) = vmul (i_s (it 0)) (i_z (it 0)) }.

(** [dpr]: derivative of the problem data along the curve; [dit]: derivative of the point *)
Record data_rate (nz nineq neq : nat) (pr : R -> prob R) (dpr : prob R) : Prop := {
  dr_sized : sized nz nineq neq dpr;
  dr_Q : mrate (fun t => pr_Q (pr t)) (pr_Q dpr); dr_p : vrate (fun t => pr_p (pr t)) (pr_p dpr);
  dr_G : mrate (fun t => pr_G (pr t)) (pr_G dpr); dr_h : vrate (fun t => pr_h (pr t)) (pr_h dpr);
  dr_A : mrate (fun t => pr_A (pr t)) (pr_A dpr); dr_b : vrate (fun t => pr_b (pr t)) (pr_b dpr);
  dr_F : mrate (fun t => pr_F (pr t)) (pr_F dpr) }.
Record point_rate (nz nineq neq : nat) (it : R -> iter R) (dit : iter R) : Prop := {
  pr_point : point nz nineq neq dit;
  pr_x : vrate (fun t => i_x (it t)) (i_x dit); pr_s : vrate (fun t => i_s (it t)) (i_s dit);
  pr_z : vrate (fun t => i_z (it t)) (i_z dit); pr_y : vrate (fun t => i_y (it t)) (i_y dit) }.

(** sum of the products of the entries of two matrices *)
Fixpoint mdot (A B : mat R) : R :=
  match A, B with r :: A', q :: B' => dot r q + mdot A' B' | _, _ => 0 end.
(** what the chain rule makes of gradients [g] for the change [dpr] of the data *)
Definition chain (g : grads R) (dpr : prob R) : R :=
  mdot (g_Q g) (pr_Q dpr) + dot (g_p g) (pr_p dpr) + mdot (g_G g) (pr_G dpr) + dot (g_h g) (pr_h dpr) +
  mdot (g_A g) (pr_A dpr) + dot (g_b g) (pr_b dpr) + mdot (g_F g) (pr_F dpr).
