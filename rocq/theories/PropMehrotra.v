(** C88: the iterations of the LCP solver *)
From Coq Require Import List Arith ZArith Lia Bool Reals Lra.
From Verif Require Import Num Tensor Lapack LapackRef LapackSpec Pdipm Lcp KktSpec PdipmSpec MehrotraSpec RBase ResFacts LinAlg LuFacts KktFactor KktTotal PdipmFacts PdipmLoop SolverFacts SolverEx MehrotraFacts.
Import ListNotations.
Open Scope R_scope.

(** C88.  Every iteration of the solver, on every problem of a batch, is a predictor-corrector step of Mehrotra's method: the predictor
    is Newton's direction towards zero residuals and s_i z_i = 0, probed as far as slacks and multipliers stay non-negative; the
    direction taken is Newton's direction towards zero residuals and s_i z_i = sigma mu - (second-order term of the predictor),
    followed for 0.999 of the way to the boundary (at most 1, and at least 0.999 when the boundary is further than 1). *)
Theorem C88_iteration :
  forall la nz nineq neq ps j i pr it it',
    lapack_ok la -> (0 < nineq)%nat -> Forall (sized nz nineq neq) ps -> nth_error ps i = Some pr ->
    no_zero_direction la nz nineq neq ps (S j) ->
    iterate la nz nineq neq ps j i it -> iterate la nz nineq neq ps (S j) i it' ->
    exists p d a al, mehrotra_step nz nineq neq pr it it' p d a al.
Proof. exact iteration. Qed.
Print Assumptions C88_iteration.
(** What such a step does to the complementarity s.z, which the residual contains. *)
Theorem C88_complementarity :
  forall nz nineq neq pr it it' p d a al,
    point nz nineq neq it -> (0 < nineq)%nat -> mehrotra_step nz nineq neq pr it it' p d a al ->
    dot (i_s it') (i_z it') = (1 - al * (1 - centring it p a)) * dot (i_s it) (i_z it) - al * dot (m_s p) (m_z p) + al * al * dot (m_s d) (m_z d).
Proof. exact gap_after. Qed.
Print Assumptions C88_complementarity.
Example C88_case : exists it it', lapack_ok ref_lapack /\ Forall (sized 1 1 0) [ex_one] /\ no_zero_direction ref_lapack 1 1 0 [ex_one] 1 /\
  iterate ref_lapack 1 1 0 [ex_one] 0 0 it /\ iterate ref_lapack 1 1 0 [ex_one] 1 0 it' /\ point 1 1 0 it.
Proof.
  assert (HS : Forall (sized 1 1 0) [ex_one]) by exact (Forall_cons _ ex_one_sized (Forall_nil _)).
  assert (HP : forall j, exists it, iterate ref_lapack 1 1 0 [ex_one] j 0 it).
  { intros j. exact (iterate_total ref_lapack ref_lapack_ok 1 1 0 ltac:(lia) [ex_one] j 0 HS (Forall_cons _ ex_one_posed (Forall_nil _)) ltac:(cbn; lia)). }
  destruct (HP 0%nat) as [it H0]. destruct (HP 1%nat) as [it' H1]. exists it, it'. split; [apply ref_lapack_ok|]. split; [exact HS|]. split; [apply (ex_one_moving _ ref_lapack_ok)|]. split; [exact H0|]. split; [exact H1|].
  destruct (iterate_good ref_lapack ref_lapack_ok 1 1 0 ltac:(lia) [ex_one] 0 0 it HS H0) as (pr & _ & P & _). exact P.
Qed.
