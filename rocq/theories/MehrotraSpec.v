(** The predictor-corrector step of Mehrotra (specification for C88) *)
From Coq Require Import List Arith ZArith Bool Reals.
From Verif Require Import Num Tensor Lapack Pdipm LinAlg LapackSpec KktSpec PdipmSpec.
Import ListNotations.
Open Scope R_scope.

(** a direction in which all four parts of a point are moved *)
Record move := mkMove { m_x : vec R; m_s : vec R; m_z : vec R; m_y : vec R }.
(** the point it leads to *)
Definition moved (it : iter R) (a : R) (d : move) : iter R :=
  mkIter (vadd (i_x it) (vscale a (m_x d))) (vadd (i_s it) (vscale a (m_s d))) (vadd (i_z it) (vscale a (m_z d))) (vadd (i_y it) (vscale a (m_y d))).
(** Newton's direction for the system: residuals zero and s_i z_i = target i *)
Record newton_dir (nz nineq neq : nat) (pr : prob R) (it : iter R) (target : nat -> R) (d : move) : Prop := {
  nd_lx : length (m_x d) = nz; nd_ls : length (m_s d) = nineq; nd_lz : length (m_z d) = nineq; nd_ly : length (m_y d) = neq;
  nd_x : vadd (vadd (mv (pr_Q pr) (m_x d)) (vm nz (m_z d) (pr_G pr))) (vm nz (m_y d) (pr_A pr)) = vopp (stationarity nz pr it);
  nd_z : vsub (vadd (mv (pr_G pr) (m_x d)) (m_s d)) (mv (pr_F pr) (m_z d)) = vopp (inequality pr it);
  nd_y : mv (pr_A pr) (m_x d) = vopp (equality pr it);
  nd_c : forall i, (i < nineq)%nat -> vget (i_s it) i * vget (m_z d) i + vget (i_z it) i * vget (m_s d) i = target i - vget (i_s it) i * vget (i_z it) i }.
(** the longest step up to 1 that keeps slacks and multipliers non-negative *)
Definition longest (it : iter R) (d : move) (a : R) : Prop :=
  0 <= a <= 1 /\ Forall (fun c => 0 <= c) (i_s (moved it a d)) /\ Forall (fun c => 0 <= c) (i_z (moved it a d)) /\
  (a = 1 \/ In 0 (i_s (moved it a d)) \/ In 0 (i_z (moved it a d))).
(** the centring parameter: the cube of the factor by which the predictor would reduce s.z *)
Definition centring (it : iter R) (d : move) (a : R) : R :=
  (dot (i_s (moved it a d)) (i_z (moved it a d)) / dot (i_s it) (i_z it)) ^ 3.
(** one iteration leads from [it] to [it'], along the direction [d], after the predictor [p] *)
Record mehrotra_step (nz nineq neq : nat) (pr : prob R) (it it' : iter R) (p d : move) (a al : R) : Prop := {
  ms_predictor : newton_dir nz nineq neq pr it (fun _ => 0) p;
  ms_probe : longest it p a;
  ms_corrector : newton_dir nz nineq neq pr it (fun i => centring it p a * (dot (i_s it) (i_z it) / INR nineq) - vget (m_s p) i * vget (m_z p) i) d;
  ms_next : it' = moved it al d;
  ms_length : exists b, longest it d b /\ 999 / 1000 * b <= al <= 1 /\ (b < 1 -> al = 999 / 1000 * b) }.
