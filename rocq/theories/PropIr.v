(** C62: the regularised KKT solvers and iterative refinement *)
From Coq Require Import List Arith ZArith Bool Reals Lra.
From Verif Require Import Num Tensor Lapack LapackRef LapackSpec Pdipm KktIr LinAlg LuFacts IrSpec IrFacts IrProps.
Import ListNotations.
Open Scope R_scope.

(** the regularisation the code uses *)
Notation eps := (/ 10000000).

(** Relied on: more refinement iterations reduce what solve_kkt_ir leaves of the system it refines (that of the
    problem, with eps on the dual blocks).  Refuted: for a one-dimensional system it grows without bound. *)
Theorem C62_refuted :
  exists Q D G A F rx rs rz ry, shapes 1 1 0 Q D G A F /\ semidefinite 1 1 Q D F /\ parts 1 1 0 (rx, rs, rz, ry) /\
    forall la, lapack_ok la -> forall B, exists niter d,
      solve_kkt_ir la 1 1 0 Q D G A F rx rs rz ry niter = Ok d /\
      B < size2 (leftover 1 1 0 Q D G A F eps eps d (rx, rs, rz, ry)).
Proof.
  exists [[1]], [[1]], [[0]], [], None, [1], [0], [0], []. split; [exact one_shapes|]. split; [exact one_semi|]. split; [exact one_parts|].
  intros la HL. rewrite <- eps_val. exact (one_unbounded la HL).
Qed.
Print Assumptions C62_refuted.

(** Every further iteration leaves at least as much as before, for all semidefinite problems. *)
Theorem C62_never_smaller :
  forall la nz nineq neq Q D G A F rx rs rz ry k j d d',
    lapack_ok la -> shapes nz nineq neq Q D G A F -> semidefinite nz nineq Q D F -> parts nz nineq neq (rx, rs, rz, ry) ->
    solve_kkt_ir la nz nineq neq Q D G A F rx rs rz ry k = Ok d ->
    solve_kkt_ir la nz nineq neq Q D G A F rx rs rz ry (k + j) = Ok d' ->
    size2 (leftover nz nineq neq Q D G A F eps eps d (rx, rs, rz, ry)) <=
    size2 (leftover nz nineq neq Q D G A F eps eps d' (rx, rs, rz, ry)).
Proof.
  intros la nz nineq neq Q D G A F rx rs rz ry k j d d' HL HS HD HP E E'. rewrite <- eps_val.
  exact (ir_grows_all la HL nz nineq neq Q D G A F HS HD (rx, rs, rz, ry) k j d d' HP (fun i => ir_total la HL nz nineq neq Q D G A F HS HD _ i HP) E E').
Qed.
Print Assumptions C62_never_smaller.

(** The reason: an iteration adds what is left instead of removing it.  With e the leftover, the next one is
    2 e - eps (d' - d), also without semidefiniteness. *)
Theorem C62_doubles :
  forall la nz nineq neq Q D G A F rx rs rz ry k dx ds dz dy dx' ds' dz' dy',
    lapack_ok la -> shapes nz nineq neq Q D G A F -> parts nz nineq neq (rx, rs, rz, ry) ->
    solve_kkt_ir la nz nineq neq Q D G A F rx rs rz ry k = Ok (dx, ds, dz, dy) ->
    solve_kkt_ir la nz nineq neq Q D G A F rx rs rz ry (S k) = Ok (dx', ds', dz', dy') ->
    exists ex es,
      leftover nz nineq neq Q D G A F eps eps (dx, ds, dz, dy) (rx, rs, rz, ry) = (ex, es, vzeros nineq, vzeros neq) /\
      leftover nz nineq neq Q D G A F eps eps (dx', ds', dz', dy') (rx, rs, rz, ry) =
        (vsub (vscale 2 ex) (vscale eps (vsub dx' dx)), vsub (vscale 2 es) (vscale eps (vsub ds' ds)), vzeros nineq, vzeros neq).
Proof.
  intros la nz nineq neq Q D G A F rx rs rz ry k dx ds dz dy dx' ds' dz' dy' HL HS HP E E'. rewrite <- eps_val.
  exact (ir_doubles la HL nz nineq neq Q D G A F HS (rx, rs, rz, ry) k _ _ HP E E').
Qed.
Print Assumptions C62_doubles.

(** Without refinement the result solves the problem's system up to eps times the direction itself. *)
Theorem C62_regularised :
  forall la nz nineq neq Q D G A F rx rs rz ry dx ds dz dy,
    lapack_ok la -> shapes nz nineq neq Q D G A F -> parts nz nineq neq (rx, rs, rz, ry) ->
    solve_kkt_ir la nz nineq neq Q D G A F rx rs rz ry 0 = Ok (dx, ds, dz, dy) ->
    leftover nz nineq neq Q D G A F 0 0 (dx, ds, dz, dy) (rx, rs, rz, ry) =
      (vscale (- eps) dx, vscale (- eps) ds, vscale eps dz, vscale eps dy).
Proof.
  intros la nz nineq neq Q D G A F rx rs rz ry dx ds dz dy HL HS HP E. rewrite <- eps_val.
  exact (ir_regularised la HL nz nineq neq Q D G A F HS (rx, rs, rz, ry) _ HP E).
Qed.
Print Assumptions C62_regularised.

(** It returns for every semidefinite problem, singular or not, and every number of iterations. *)
Theorem C62_returns :
  forall la nz nineq neq Q D G A F rx rs rz ry niter,
    lapack_ok la -> shapes nz nineq neq Q D G A F -> semidefinite nz nineq Q D F -> parts nz nineq neq (rx, rs, rz, ry) ->
    exists d, solve_kkt_ir la nz nineq neq Q D G A F rx rs rz ry niter = Ok d.
Proof.
  intros la nz nineq neq Q D G A F rx rs rz ry niter HL HS HD HP.
  exact (ir_total la HL nz nineq neq Q D G A F HS HD (rx, rs, rz, ry) niter HP).
Qed.
Print Assumptions C62_returns.

(** factor_solve_kkt_reg solves the system with the block C it is given. *)
Theorem C62_factor_solve_reg :
  forall la nz nineq neq Q D G A C rx rs rz ry dx ds dz dy,
    lapack_ok la -> wf nz nz Q -> wf nineq nineq D -> wf nineq nz G -> wf neq nz A -> wf (nineq + neq) (nineq + neq) C ->
    parts nz nineq neq (rx, rs, rz, ry) ->
    factor_solve_kkt_reg la nz nineq neq Q D G A C rx rs rz ry = Ok (dx, ds, dz, dy) ->
    parts nz nineq neq (dx, ds, dz, dy) /\
    vadd (vadd (mv Q dx) (vm nz dz G)) (vadd (vm nz dy A) rx) = vzeros nz /\
    vadd (vadd (mv D ds) dz) rs = vzeros nineq /\
    vadd (vadd (vadd (mv G dx) ds ++ mv A dx) (mv C (dz ++ dy))) (rz ++ ry) = vzeros (nineq + neq).
Proof.
  intros la nz nineq neq Q D G A C rx rs rz ry dx ds dz dy HL H1 H2 H3 H4 H5 HP E.
  exact (kkt_reg_ok la HL nz nineq neq Q D G A C rx rs rz ry _ H1 H2 H3 H4 H5 HP E).
Qed.
Print Assumptions C62_factor_solve_reg.

(** Finding: factor_solve_kkt, given [[G I] [A 0]] for its third argument, solves the same system with the
    opposite sign of C. *)
Theorem C62_factor_solve_opposite :
  forall la nz nineq neq Q D G A C rx rs rz ry dx ds dz dy,
    lapack_ok la -> wf nz nz Q -> wf nineq nineq D -> wf nineq nz G -> wf neq nz A -> wf (nineq + neq) (nineq + neq) C ->
    parts nz nineq neq (rx, rs, rz, ry) -> (0 < neq)%nat ->
    factor_solve_kkt la nz nineq neq Q D (hcat G (meye nineq) ++ hcat A (mzeros neq nineq)) C rx rs rz ry = Ok (dx, ds, dz, dy) ->
    parts nz nineq neq (dx, ds, dz, dy) /\
    vadd (vadd (mv Q dx) (vm nz dz G)) (vadd (vm nz dy A) rx) = vzeros nz /\
    vadd (vadd (mv D ds) dz) rs = vzeros nineq /\
    vadd (vsub (vadd (mv G dx) ds ++ mv A dx) (mv C (dz ++ dy))) (rz ++ ry) = vzeros (nineq + neq).
Proof.
  intros la nz nineq neq Q D G A C rx rs rz ry dx ds dz dy HL H1 H2 H3 H4 H5 HP HN E.
  exact (kkt_opposite la HL nz nineq neq Q D G A C rx rs rz ry dx ds dz dy H1 H2 H3 H4 H5 HP HN E).
Qed.
Print Assumptions C62_factor_solve_opposite.

(** The hypotheses are met: a singular Q, one equality, F absent or present. *)
Example C62_case :
  shapes 2 1 1 [[1; 0]; [0; 0]] [[2]] [[1; 1]] [[1; -1]] (Some [[3]]) /\ semidefinite 2 1 [[1; 0]; [0; 0]] [[2]] (Some [[3]]) /\
  parts 2 1 1 ([1; 2], [0], [1], [3]) /\ lapack_ok ref_lapack /\
  forall niter, exists d, solve_kkt_ir ref_lapack 2 1 1 [[1; 0]; [0; 0]] [[2]] [[1; 1]] [[1; -1]] (Some [[3]]) [1; 2] [0] [1] [3] niter = Ok d.
Proof.
  assert (HS : shapes 2 1 1 [[1; 0]; [0; 0]] [[2]] [[1; 1]] [[1; -1]] (Some [[3]])) by (split; split; try reflexivity; repeat constructor).
  assert (HD : semidefinite 2 1 [[1; 0]; [0; 0]] [[2]] (Some [[3]])).
  { split; [intros [|a [|b [|c x]]] L|intros [|a [|b x]] L..]; try discriminate; cbn [F_times mv map];
      rewrite ?dot_cons, ?dot_nil_l; pose proof (Rle_0_sqr a); unfold Rsqr in *; nra. }
  split; [exact HS|]. split; [exact HD|]. split; [cbn; auto|]. split; [exact ref_lapack_ok|].
  intros niter. apply C62_returns; auto using ref_lapack_ok. cbn; auto.
Qed.
