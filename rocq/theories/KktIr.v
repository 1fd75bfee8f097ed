(** Model of the regularised KKT solvers of /repo/lcp_physics/lcp/solvers/pdipm.py:202-322, the
    "iterative refinement in the solver" its warning text (lines 34-46) recommends; forward does
    not call them.  One batch element, with at least one inequality; [neq = 0] is the case in
    which Python's [ry], [dy] and [resy] are None, modelled as []. *)
From Coq Require Import List Arith ZArith Bool.
From Verif Require Import Num Tensor Lapack Pdipm.
Import ListNotations.

Section KktIr.
Context {T : Type} {N : Num T}.
Local Open Scope num_scope.
Variable la : lapack T.
Variables nz nineq neq : nat.

(** pdipm.py:220 [eps = 1e-7] *)
Definition ir_eps : T := 1 / nofZ 10000000.

(** pdipm.py:202-215 [kkt_resid_reg]: (resx, ress, resz, resy) *)
Definition kkt_resid_reg (Q D G A F : mat T) (eps : T) (d : dirs T) (rx rs rz ry : vec T) : dirs T :=
  let '(dx, ds, dz, dy) := d in
  let resx := vadd (vadd (mv Q dx) (vm nz dz G)) rx in
  let resx := if Nat.ltb 0 neq then vadd resx (vm nz dy A) else resx in
  let ress := vadd (vadd (mv D ds) dz) rs in
  let resz := vadd (vadd (vadd (mv G dx) ds) (mv F dz)) rz in
  let resy := if Nat.ltb 0 neq then vadd (vsub (mv A dx) (vscale eps dy)) ry else [] in
  (resx, ress, resz, resy).

(** pdipm.py:251-253 and 293-295: H_ *)
Definition reg_H (Q D : mat T) : mat T :=
  blk_put (blk_put (mzeros (nz + nineq) (nz + nineq)) 0 0 Q) nz nz D.
(** pdipm.py:254-263: A_ *)
Definition reg_A (G A : mat T) : mat T :=
  if Nat.ltb 0 neq
  then vcat (hcat G (meye nineq)) (hcat A (mzeros neq nineq))
  else hcat G (meye nineq).

(** pdipm.py:296-322 [factor_solve_kkt] from the matrix H_ and the matrix to be added to A H^-1 A^T;
    [factor_solve_kkt_reg] (lines 265-288) is the same with [S_ -= C_tilde] *)
Definition reg_solve (H A_ : mat T) (shift : mat T -> mat T) (rx rs rz ry : vec T) : res (dirs T) :=
  let nh := (nz + nineq)%nat in
  let nw := (neq + nineq)%nat in
  let g := rx ++ rs in
  let h := if Nat.ltb 0 neq then rz ++ ry else rz in
  do H_LU <- la_getrf la H;
  let invH_A := getrs_mat la H_LU nh nw (mtr nh A_) in
  let invH_g := la_getrs la H_LU g in
  do S_LU <- la_getrf la (shift (mm nw A_ invH_A));
  let t := vsub (mv A_ invH_g) h in
  let w := vopp (la_getrs la S_LU t) in
  let v := la_getrs la H_LU (vsub (vopp g) (vm nh w A_)) in
  Ok (firstn nz v, skipn nz v, firstn nineq w, skipn nineq w).

(** pdipm.py:247-288 [factor_solve_kkt_reg] *)
Definition factor_solve_kkt_reg (Q D G A C : mat T) (rx rs rz ry : vec T) : res (dirs T) :=
  reg_solve (reg_H Q D) (reg_A G A) (fun S => msub S C) rx rs rz ry.
(** pdipm.py:290-322 [factor_solve_kkt], which gets A_ from its caller *)
Definition factor_solve_kkt (Q D A_ C : mat T) (rx rs rz ry : vec T) : res (dirs T) :=
  reg_solve (reg_H Q D) A_ (fun S => madd S C) rx rs rz ry.

(** pdipm.py:221-228: the regularised matrices; [F = None] leaves C_tilde without F *)
Definition ir_C (F : option (mat T)) : mat T :=
  let C := mscale (- ir_eps) (meye (neq + nineq)) in
  match F with
  | None => C
  | Some F => blk_put C 0 0 (msub (map (firstn nineq) (firstn nineq C)) F)
  end.
Definition ir_F (F : option (mat T)) : mat T := map (firstn nineq) (firstn nineq (ir_C F)).
Definition ir_reg (n : nat) (Q : mat T) : mat T := madd Q (mscale ir_eps (meye n)).

(** pdipm.py:234-243: the refinement loop *)
Fixpoint ir_loop (k : nat) (Q D G A : mat T) (F : option (mat T)) (rx rs rz ry : vec T) (d : dirs T)
  : res (dirs T) :=
  match k with
  | O => Ok d
  | S k' =>
      let '(resx, ress, resz, resy) := kkt_resid_reg Q D G A (ir_F F) ir_eps d rx rs rz ry in
      do dd <- factor_solve_kkt_reg (ir_reg nz Q) (ir_reg nineq D) G A (ir_C F)
                 (vopp resx) (vopp ress) (vopp resz) (vopp resy);
      ir_loop k' Q D G A F rx rs rz ry (dirs_add d dd)
  end.
(** pdipm.py:216-245 [solve_kkt_ir] *)
Definition solve_kkt_ir (Q D G A : mat T) (F : option (mat T)) (rx rs rz ry : vec T) (niter : nat)
  : res (dirs T) :=
  do d <- factor_solve_kkt_reg (ir_reg nz Q) (ir_reg nineq D) G A (ir_C F) rx rs rz ry;
  ir_loop niter Q D G A F rx rs rz ry d.

End KktIr.
