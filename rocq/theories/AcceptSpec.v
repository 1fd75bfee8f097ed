(** Vocabulary for statements about what World's constructor accepts and how deep contacts are *)
From Coq Require Import List Arith ZArith Bool Reals.
From Verif Require Import Num Tensor Utils Bodies Forces Constraints Contacts World Spec GeoSpec BodySpec ContactSpec.
Import ListNotations.
Open Scope R_scope.

(** the bodies the constraint names are in the list *)
Definition at_hand (bs : list (body R)) (j : joint R) : Prop :=
  In (j_b1 j) (map b_id bs) /\ forall id, j_b2 j = Some id -> In id (map b_id bs).
(** two Circles, two Rects, or a Rect and a Circle of a larger radius than [t] *)
Definition plain_pair (t : R) (b1 b2 : body R) : Prop :=
  match b_kind b1, b_kind b2 with
  | KCircle _, KCircle _ => True
  | KCircle r, KRect _ _ _ => t < r
  | KRect _ _ _, KCircle r => t < r
  | KRect _ _ _, KRect _ _ _ => True
  | _, _ => False
  end.
(** a body that detection can deal with: a Circle or a Rect of positive and bounded size, with a
    padding of at least half of eps *)
Definition plain_body (gf : nat) (eps : R) (b : body R) : Prop :=
  solid b /\ in_range b /\ (gjk_rounds b <= gf)%nat /\ 0 <= b_eps b /\ eps <= 2 * b_eps b /\
  match b_kind b with KHull _ _ => False | _ => True end.
