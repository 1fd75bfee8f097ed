(** Model of /repo/lcp_physics/lcp/lcp.py [LCPFunction] (forward and backward;
    numerical_backward is experimental and never called) *)
From Coq Require Import List Arith ZArith Bool.
From Verif Require Import Num Tensor Lapack Pdipm.
Import ListNotations.

Section Lcp.
Context {T : Type} {N : Num T}.
Local Open Scope num_scope.
Variable la : lapack T.

(** lcp.py:12-19: options of an LCPFunction *)
Record lcp_opts := mkOpts { lo_eps : T; lo_lim : nat; lo_max_iter : nat }.
Definition default_opts : lcp_opts := mkOpts (ncst C_1em12) 3 10.

(** What forward leaves on the object: sizes, factorisations (inside [elt]), nus, lams, slacks
    and the saved zhats (the three are the best iterates), lcp.py:26-34 *)
Record lcp_saved := mkSaved {
  sv_nz : nat; sv_nineq : nat; sv_neq : nat;
  sv_best : list (iter T); sv_elts : list (elt T) }.

(** lcp.py:22-35 [forward].  [None]: zhats is None.  Without inequalities the assertion
    (neq > 0 or nineq > 0) can pass, but pdipm.forward then takes torch.min over an empty
    dimension (pdipm.py:66) and raises; which exception depends on the torch version. *)
Definition lcp_forward (o : lcp_opts) (nz nineq neq : nat) (ps : list (prob T))
  : res (option (list (vec T) * lcp_saved)) :=
  if negb (Nat.ltb 0 neq || Nat.ltb 0 nineq) then Err EAssert
  else if Nat.eqb nineq 0 then Err EShape
  else
    do fs <- mapM (fun pr => pre_factor_kkt la nz nineq neq (pr_Q pr) (pr_G pr) (pr_F pr) (pr_A pr))
                  ps;
    do r <- pd_forward la nz nineq neq (lo_eps o) (lo_lim o) (lo_max_iter o) (combine ps fs);
    let '(best, es) := r in
    match best with
    | None => Ok None
    | Some b => Ok (Some (map (fun bi => i_x (snd bi)) b,
                          mkSaved nz nineq neq (map snd b) es))
    end.

(** lcp.py:37-64 [backward], one batch element: gradients (dQ, dp, dG, dh, dA, db, dF).
    dA and db are None in Python when neq = 0; here they are empty. *)
Record grads := mkGrads {
  g_Q : mat T; g_p : vec T; g_G : mat T; g_h : vec T; g_A : mat T; g_b : vec T; g_F : mat T }.
Definition lcp_backward1 (nz nineq neq : nat) (e : elt T) (it : iter T) (dl : vec T)
  : res grads :=
  let d := vdiv (i_z it) (i_s it) in
  do SL <- factor_kkt la nineq neq (e_SLU e) (e_R e) d;
  let '(dx, _, dlam, dnu) :=
    solve_kkt la nz neq (e_QLU e) d (pr_G (e_pr e)) (pr_A (e_pr e)) SL
              dl (vzeros nineq) (vzeros nineq) (vzeros neq) in
  Ok {| g_p := dx;
        g_G := madd (outer dlam (i_x it)) (outer (i_z it) dx);
        g_F := mopp (outer dlam (i_z it));
        g_h := vopp dlam;
        g_A := madd (outer dnu (i_x it)) (outer (i_y it) dx);
        g_b := vopp dnu;
        g_Q := mscale (1 / nofZ 2) (madd (outer dx (i_x it)) (outer (i_x it) dx)) |}.
Definition lcp_backward (sv : lcp_saved) (dls : list (vec T)) : res (list grads) :=
  mapM (fun '(e, it, dl) => lcp_backward1 (sv_nz sv) (sv_nineq sv) (sv_neq sv) e it dl)
       (combine (combine (sv_elts sv) (sv_best sv)) dls).

End Lcp.
Arguments lcp_opts : clear implicits.
Arguments lcp_saved : clear implicits.
Arguments grads : clear implicits.
