(** Poses in which what is found does not depend on what was found before (specification for C87) *)
From Coq Require Import List Arith ZArith Bool Reals Permutation.
From Verif Require Import Num Tensor Utils Bodies Forces Constraints Contacts World Spec GeoSpec BodySpec ContactSpec.
Import ListNotations.
Open Scope R_scope.

(** no two different edges of [b1] are equally the furthest from [b2] *)
Definition one_face (b1 b2 : body R) : Prop :=
  forall e e' m, In e (edges (b_verts b1)) -> In e' (edges (b_verts b1)) ->
    separation (b_verts b2) (offset b1 b2) e m -> separation (b_verts b2) (offset b1 b2) e' m ->
    (forall e2 m2, In e2 (edges (b_verts b1)) -> separation (b_verts b2) (offset b1 b2) e2 m2 -> m2 <= m) -> e = e'.
(** the centre of the circle [c] is outside the polygon [h], or on no edge or diagonal and nearest to one edge only *)
Definition one_way_out (c h : body R) : Prop :=
  NoDup (b_verts h) /\
  (~ in_hull (b_verts h) (rel c h) \/
   off_chords (b_verts h) (rel c h) /\
   forall e e', In e (edges (b_verts h)) -> In e' (edges (b_verts h)) -> edge_dist e (rel c h) = edge_dist e' (rel c h) ->
     (forall e2, In e2 (edges (b_verts h)) -> edge_dist e2 (rel c h) <= edge_dist e (rel c h)) -> e = e').
(** no ties *)
Definition clear_cut (b1 b2 : body R) : Prop :=
  match is_circle b1, is_circle b2 with
  | true, true => True
  | true, false => one_way_out b1 b2
  | false, true => one_way_out b2 b1
  | false, false => b_verts b1 <> [] /\ b_verts b2 <> [] /\ one_face b1 b2 /\ one_face b2 b1
  end.
(** two broad phases report the same pairs, in any order *)
Definition same_pairs (o o' : oracle R) : Prop := forall k k' gs, Permutation (o_collide o k gs) (o_collide o' k' gs).
