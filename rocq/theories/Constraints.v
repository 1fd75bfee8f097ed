(** Model of /repo/lcp_physics/physics/constraints.py (without [draw]) *)
From Coq Require Import List Arith ZArith Bool.
From Verif Require Import Num Tensor Utils Bodies.
Import ListNotations.

Section Constraints.
Context {T : Type} {N : Num T}.
Local Open Scope num_scope.

Inductive jkind := JJoint | JFixed | JY | JX | JRot | JTotal.

(** One record for the six constraint classes.  [j_b1], [j_b2] are the identities ([b_id]) of
    body1 and body2.  Attributes a class does not have are left at 0.
    [j_pos2] and [j_rot2] are meaningful only if [j_b2] is [Some _]. *)
Record joint := mkJoint {
  j_kind : jkind;
  j_b1 : nat;
  j_b2 : option nat;
  j_pos : v2 T;
  j_pos1 : v2 T;
  j_pos2 : v2 T;
  j_r1 : T;
  j_rot1 : T;
  j_rot2 : option T
}.

(** constraints.py:16-27 [Joint.__init__].  [r2] is never read again and left out. *)
Definition joint_init (body1 : body T) (body2 : option (body T)) (pos : v2 T) : joint :=
  let pos1 := v2sub pos (b_pos body1) in
  let '(r1, rot1) := cart_to_polar pos1 in
  let pos2 := match body2 with Some b => v2sub pos (b_pos b) | None => v2zero end in
  {| j_kind := JJoint; j_b1 := b_id body1;
     j_b2 := match body2 with Some b => Some (b_id b) | None => None end;
     j_pos := pos; j_pos1 := pos1; j_pos2 := pos2; j_r1 := r1; j_rot1 := rot1;
     j_rot2 := match body2 with Some _ => Some (snd (cart_to_polar pos2)) | None => None end |}.

(** constraints.py:58-68 [FixedJoint.__init__] (body2 is required: it is dereferenced) *)
Definition fixed_init (body1 body2 : body T) : joint :=
  let pos := b_pos body1 in
  {| j_kind := JFixed; j_b1 := b_id body1; j_b2 := Some (b_id body2);
     j_pos := pos; j_pos1 := v2sub pos (b_pos body1); j_pos2 := v2sub pos (b_pos body2);
     j_r1 := 0; j_rot1 := 0; j_rot2 := Some (b_rot body2 - b_rot body1) |}.

(** constraints.py:98-104, 125-131, 152-158: YConstraint, XConstraint, RotConstraint *)
Definition axis_init (k : jkind) (body1 : body T) : joint :=
  {| j_kind := k; j_b1 := b_id body1; j_b2 := None;
     j_pos := b_pos body1; j_pos1 := v2zero; j_pos2 := v2zero;
     j_r1 := 0; j_rot1 := b_rot body1; j_rot2 := None |}.
Definition y_init := axis_init JY.
Definition x_init := axis_init JX.
Definition rot_init := axis_init JRot.

(** constraints.py:179-188 [TotalConstraint.__init__] *)
Definition total_init (body1 : body T) : joint :=
  let pos := b_pos body1 in
  let pos1 := v2sub pos (b_pos body1) in
  let '(r1, rot1) := cart_to_polar pos1 in
  {| j_kind := JTotal; j_b1 := b_id body1; j_b2 := None;
     j_pos := pos; j_pos1 := pos1; j_pos2 := v2zero;
     j_r1 := r1; j_rot1 := rot1; j_rot2 := None |}.

(** the class attributes [num_constraints] and [static], constraints.py:17-18, 59-60, 99-100,
    126-127, 153-154, 180-181 *)
Definition j_num (j : joint) : nat :=
  match j_kind j with JJoint => 2 | JFixed | JTotal => 3 | JY | JX | JRot => 1 end.
Definition j_static (j : joint) : bool :=
  match j_kind j with JJoint | JFixed => false | _ => true end.

(** constraints.py:29-36, 70-77, 106-108, 133-135, 160-162, 190-192 [J] *)
Definition joint_J1 (pos1 : v2 T) : mat T :=
  [ [ - snd pos1; 1; 0 ]; [ fst pos1; 0; 1 ] ].
Definition joint_J2 (pos2 : v2 T) : mat T :=
  [ [ snd pos2; - (1); - 0 ]; [ - fst pos2; - 0; - (1) ] ].
Definition j_J (j : joint) : mat T * option (mat T) :=
  match j_kind j with
  | JJoint => (joint_J1 (j_pos1 j),
               match j_b2 j with Some _ => Some (joint_J2 (j_pos2 j)) | None => None end)
  | JFixed => (joint_J1 (j_pos1 j) ++ [[1; 0; 0]],
               Some (joint_J2 (j_pos2 j) ++ [[nofZ (-1); 0; 0]]))
  | JY => ([[0; 0; 1]], None)
  | JX => ([[0; 1; 0]], None)
  | JRot => ([[1; 0; 0]], None)
  | JTotal => (meye 3, None)
  end.

(** constraints.py:44-49, 82-87, 113-115, 140-142, 167-169, 198-200 [update_pos].
    [b1], [b2] are the current states of body1 and body2. *)
Definition j_update_pos (j : joint) (b1 : body T) (b2 : option (body T)) : joint :=
  match j_kind j with
  | JJoint =>
      let pos1 := polar_to_cart (j_r1 j) (j_rot1 j) in
      let pos := v2add (b_pos b1) pos1 in
      {| j_kind := j_kind j; j_b1 := j_b1 j; j_b2 := j_b2 j; j_pos := pos; j_pos1 := pos1;
         j_pos2 := match b2 with Some b => v2sub pos (b_pos b) | None => j_pos2 j end;
         j_r1 := j_r1 j; j_rot1 := j_rot1 j; j_rot2 := j_rot2 j |}
  | JFixed =>
      let pos := b_pos b1 in
      {| j_kind := j_kind j; j_b1 := j_b1 j; j_b2 := j_b2 j; j_pos := pos;
         j_pos1 := v2sub pos (b_pos b1);
         j_pos2 := match b2 with Some b => v2sub pos (b_pos b) | None => j_pos2 j end;
         j_r1 := j_r1 j; j_rot1 := j_rot1 j; j_rot2 := j_rot2 j |}
  | JY | JX | JRot =>
      {| j_kind := j_kind j; j_b1 := j_b1 j; j_b2 := j_b2 j; j_pos := b_pos b1;
         j_pos1 := j_pos1 j; j_pos2 := j_pos2 j;
         j_r1 := j_r1 j; j_rot1 := b_rot b1; j_rot2 := j_rot2 j |}
  | JTotal =>
      let pos1 := polar_to_cart (j_r1 j) (j_rot1 j) in
      {| j_kind := j_kind j; j_b1 := j_b1 j; j_b2 := j_b2 j;
         j_pos := v2add (b_pos b1) pos1; j_pos1 := pos1; j_pos2 := j_pos2 j;
         j_r1 := j_r1 j; j_rot1 := j_rot1 j; j_rot2 := j_rot2 j |}
  end.

Definition j_with_rots (j : joint) (r1 : T) (r2 : option T) : joint :=
  {| j_kind := j_kind j; j_b1 := j_b1 j; j_b2 := j_b2 j; j_pos := j_pos j;
     j_pos1 := j_pos1 j; j_pos2 := j_pos2 j; j_r1 := j_r1 j; j_rot1 := r1; j_rot2 := r2 |}.

(** constraints.py:38-42, 79-80, 110-111, 137-138, 164-165, 194-196 [move] *)
Definition j_move (j : joint) (b1 : body T) (b2 : option (body T)) (dt : T) : joint :=
  match j_kind j with
  | JJoint =>
      let rot1 := j_rot1 j + fst (b_v b1) * dt in
      let rot2 := match b2, j_rot2 j with
                  | Some b, Some r => Some (r + fst (b_v b) * dt)
                  | _, r => r
                  end in
      j_update_pos (j_with_rots j rot1 rot2) b1 b2
  | JTotal => j_update_pos (j_with_rots j (j_rot1 j + fst (b_v b1) * dt) (j_rot2 j)) b1 b2
  | _ => j_update_pos j b1 b2
  end.

End Constraints.
Arguments joint : clear implicits.
