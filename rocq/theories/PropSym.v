(** C65: the LCP layer sees neither the order of the constraints nor the frame of the unknowns *)
From Coq Require Import List Arith ZArith Bool Reals.
From Verif Require Import Num Tensor Lapack LapackRef LapackSpec LuFacts Pdipm Lcp LinAlg KktSpec PdipmSpec SymSpec LcpSym SymEx.
Import ListNotations.
Open Scope R_scope.

(** C65.  Two batches of LCPs that are the same up to a rigid change of the unknowns, an order of the
    inequalities and a rigid change of the equalities are answered alike: both raise, or both find
    nothing, or the unknowns, slacks and multipliers correspond - although the solver works on
    different matrices, with different pivots. *)
Theorem C65_answer la (HL : lapack_ok la) o nz nineq neq fu P fv ps ps' :
  isometry nz fu -> isometry neq fv -> ordering nineq P ->
  Forall (sized nz nineq neq) ps -> Forall (sized nz nineq neq) ps' ->
  Forall2 (transformed nz nineq neq fu P fv) ps ps' ->
  alike (transformed_answer fu P fv) (lcp_forward la o nz nineq neq ps) (lcp_forward la o nz nineq neq ps').
Proof. exact (answers_transformed la HL o nz nineq neq fu P fv ps ps'). Qed.
Print Assumptions C65_answer.
(** In particular: the same inequalities listed in another order have the same solution x, and the
    multipliers and slacks are listed in the new order. *)
Theorem C65_order la (HL : lapack_ok la) o nz nineq neq P ps :
  ordering nineq P -> Forall (sized nz nineq neq) ps ->
  alike (transformed_answer (fun x => x) P (fun y => y)) (lcp_forward la o nz nineq neq ps) (lcp_forward la o nz nineq neq (map (relist P) ps)).
Proof. exact (answers_relist la o nz nineq neq P ps HL). Qed.
Print Assumptions C65_order.
(** The gradients correspond as well. *)
Theorem C65_gradients la (HL : lapack_ok la) o nz nineq neq fu P fv ps ps' xs sv xs' sv' dls :
  isometry nz fu -> isometry neq fv -> ordering nineq P ->
  Forall (sized nz nineq neq) ps -> Forall (sized nz nineq neq) ps' ->
  Forall2 (transformed nz nineq neq fu P fv) ps ps' ->
  lcp_forward la o nz nineq neq ps = Ok (Some (xs, sv)) -> lcp_forward la o nz nineq neq ps' = Ok (Some (xs', sv')) ->
  Forall (fun dl => length dl = nz) dls ->
  alike (Forall2 (transformed_grads nz nineq fu P fv)) (lcp_backward la sv dls) (lcp_backward la sv' (map fu dls)).
Proof. exact (gradients_transformed la HL o nz nineq neq fu P fv ps ps' xs sv xs' sv' dls). Qed.
Print Assumptions C65_gradients.

(** a case: a problem with two unknowns turned by a right angle, its two inequalities swapped and its
    equality negated; forward and backward return *)
Example C65_case :
  isometry 2 quarter /\ isometry 1 vopp /\ ordering 2 [1; 0]%nat /\ sized 2 2 1 ex_two /\ sized 2 2 1 ex_turned /\
  transformed 2 2 1 quarter [1; 0]%nat vopp ex_two ex_turned /\ pr_G (relist [1; 0]%nat ex_two) = [[0; 1]; [1; 0]] /\
  exists xs sv gs, lcp_forward ref_lapack default_opts 2 2 1 [ex_two] = Ok (Some (xs, sv)) /\ lcp_backward ref_lapack sv [[1; 0]] = Ok gs.
Proof.
  split; [exact quarter_iso|]. split; [exact (opp_iso 1)|]. split; [exact swap_ordering|]. split; [exact ex_two_sized|]. split; [exact ex_turned_sized|].
  split; [exact ex_turned_ok|]. split; [reflexivity|exact ex_two_runs].
Qed.
