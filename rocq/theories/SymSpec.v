(** Two mixed LCPs that are the same up to a rigid change of the unknowns and an order of the
    constraints (specification for C65) *)
From Coq Require Import List Arith ZArith Bool Reals Permutation.
From Verif Require Import Num Tensor Lapack Pdipm Lcp LinAlg.
Import ListNotations.
Open Scope R_scope.

(** a linear isometry of R^n *)
Record isometry (n : nat) (f : vec R -> vec R) : Prop := {
  iso_len : forall x, length x = n -> length (f x) = n;
  iso_add : forall x y, length x = n -> length y = n -> f (vadd x y) = vadd (f x) (f y);
  iso_scale : forall k x, length x = n -> f (vscale k x) = vscale k (f x);
  iso_dot : forall x y, length x = n -> length y = n -> dot (f x) (f y) = dot x y;
  iso_onto : forall y, length y = n -> exists x, length x = n /\ f x = y }.
(** list the entries of a vector in the order [P] *)
Definition reorder (P : list nat) (z : vec R) : vec R := map (vget z) P.
Definition ordering (n : nat) (P : list nat) : Prop := Permutation P (seq 0 n).

(** [pr'] is [pr] with unknowns changed by [fu], inequalities listed in the order [P] and
    equalities combined by [fv]:
      Q' = U Q U^T, p' = U p, G' = P G U^T, h' = P h, A' = V A U^T, b' = V b, F' = P F P^T *)
Record transformed (nz nineq neq : nat) (fu : vec R -> vec R) (P : list nat) (fv : vec R -> vec R)
  (pr pr' : prob R) : Prop := {
  tr_Q : forall x, length x = nz -> mv (pr_Q pr') (fu x) = fu (mv (pr_Q pr) x);
  tr_G : forall x, length x = nz -> mv (pr_G pr') (fu x) = reorder P (mv (pr_G pr) x);
  tr_A : forall x, length x = nz -> mv (pr_A pr') (fu x) = fv (mv (pr_A pr) x);
  tr_F : forall z, length z = nineq -> mv (pr_F pr') (reorder P z) = reorder P (mv (pr_F pr) z);
  tr_p : pr_p pr' = fu (pr_p pr);
  tr_h : pr_h pr' = reorder P (pr_h pr);
  tr_b : pr_b pr' = fv (pr_b pr) }.
(** the corresponding point *)
Definition transform (fu : vec R -> vec R) (P : list nat) (fv : vec R -> vec R) (it : iter R) : iter R :=
  mkIter (fu (i_x it)) (reorder P (i_s it)) (reorder P (i_z it)) (fv (i_y it)).
(** both raise, or both return and the values correspond *)
Definition alike {A B} (r : A -> B -> Prop) (a : res A) (b : res B) : Prop :=
  match a, b with Ok x, Ok y => r x y | Err _, Err _ => True | _, _ => False end.
(** the answers of the solver correspond: no point found, or the unknowns and the whole points *)
Definition transformed_answer (fu : vec R -> vec R) (P : list nat) (fv : vec R -> vec R)
  (r r' : option (list (vec R) * lcp_saved R)) : Prop :=
  match r, r' with
  | None, None => True
  | Some (xs, sv), Some (xs', sv') => xs' = map fu xs /\ sv_best sv' = map (transform fu P fv) (sv_best sv)
  | _, _ => False
  end.
(** the gradients correspond in the same way as the problems *)
Record transformed_grads (nz nineq : nat) (fu : vec R -> vec R) (P : list nat) (fv : vec R -> vec R)
  (g g' : grads R) : Prop := {
  tg_p : g_p g' = fu (g_p g); tg_h : g_h g' = reorder P (g_h g); tg_b : g_b g' = fv (g_b g);
  tg_Q : forall x, length x = nz -> mv (g_Q g') (fu x) = fu (mv (g_Q g) x);
  tg_G : forall x, length x = nz -> mv (g_G g') (fu x) = reorder P (mv (g_G g) x);
  tg_A : forall x, length x = nz -> mv (g_A g') (fu x) = fv (mv (g_A g) x);
  tg_F : forall z, length z = nineq -> mv (g_F g') (reorder P z) = reorder P (mv (g_F g) z) }.
(** the same inequalities listed in the order [P]: rows of G, entries of h, rows and columns of F *)
Definition relist (P : list nat) (pr : prob R) : prob R :=
  mkProb (pr_Q pr) (pr_p pr) (map (fun i => nth i (pr_G pr) []) P) (reorder P (pr_h pr))
         (pr_A pr) (pr_b pr) (map (fun i => reorder P (nth i (pr_F pr) [])) P).
