(** Bodies that stay clear of each other (specification for C101) *)
From Coq Require Import List Arith Bool Reals.
From Verif Require Import Num Tensor Bodies Contacts World GeoSpec ContactSpec StaticsSpec.
Import ListNotations.
Open Scope R_scope.

(** the vertices of a polygon that has been moved to the pose [p], seen from its centre *)
Definition verts_at (b : body R) (p : v3 R) : list pt := map (rotate (fst p - b_rot b)) (b_verts b).
(** the points a body covers at the pose [p] *)
Definition occupies (b : body R) (p : v3 R) (q : pt) : Prop :=
  match b_kind b with
  | KCircle r => dist q (snd p) <= r
  | _ => in_hull (verts_at b p) (v2sub q (snd p))
  end.
(** a strip wider than [d] separates the two bodies at these poses *)
Definition strip (d : R) (b1 : body R) (p1 : v3 R) (b2 : body R) (p2 : v3 R) : Prop :=
  exists n s, unit_vec n /\ d < s /\
    forall q1 q2, occupies b1 p1 q1 -> occupies b2 p2 q2 -> s <= fst n * (fst q2 - fst q1) + snd n * (snd q2 - snd q1).
(** ... along an edge of the first polygon *)
Definition strip_along (d : R) (b1 : body R) (p1 : v3 R) (b2 : body R) (p2 : v3 R) : Prop :=
  exists e, In e (edges (verts_at b1 p1)) /\
    forall v, In v (verts_at b2 p2) -> d < edge_dist e (v2add v (v2sub (snd p2) (snd p1))).
(** two bodies have room: a circle and another body are separated, two polygons along an edge of one of them *)
Definition room (d : R) (b1 : body R) (p1 : v3 R) (b2 : body R) (p2 : v3 R) : Prop :=
  if is_circle b1 || is_circle b2 then strip d b1 p1 b2 p2 else strip_along d b1 p1 b2 p2 \/ strip_along d b2 p2 b1 p1.
(** every two bodies exclude each other (no_contact, joints) or have room in the poses [ps] *)
Definition all_room (d : R) (bs : list (body R)) (ps : list (v3 R)) : Prop :=
  forall i j b1 b2 p1 p2, (i < j)%nat -> nth_error bs i = Some b1 -> nth_error bs j = Some b2 -> nth_error ps i = Some p1 -> nth_error ps j = Some p2 ->
    excluded b1 b2 /\ excluded b2 b1 \/ room d b1 p1 b2 p2.
(** no point of the body is further than [r] from its centre *)
Definition inside (r : R) (b : body R) : Prop := if is_circle b then b_rad b <= r else forall v, In v (b_verts b) -> dist v (0, 0) <= r.
(** what detection can handle *)
Definition handled (rounds : nat) (b : body R) : Prop := available b /\ tidy b /\ in_range b /\ (gjk_rounds b <= rounds)%nat.
