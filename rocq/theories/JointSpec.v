(** Vocabulary for statements about joints: how constraints are built, what they measure *)
From Coq Require Import List Arith ZArith Bool Reals.
From Verif Require Import Num Tensor Utils Bodies Forces Constraints Contacts World Spec GeoSpec.
Import ListNotations.
Open Scope R_scope.

(** [j] is a constraint a user builds on bodies of the list [bs]; a two-body constraint connects
    different bodies *)
Inductive built (bs : list (body R)) : joint R -> Prop :=
| built_joint1 b1 pos : In b1 bs -> built bs (joint_init b1 None pos)
| built_joint2 b1 b2 pos : In b1 bs -> In b2 bs -> b_id b1 <> b_id b2 ->
    built bs (joint_init b1 (Some b2) pos)
| built_fixed b1 b2 : In b1 bs -> In b2 bs -> b_id b1 <> b_id b2 -> built bs (fixed_init b1 b2)
| built_x b1 : In b1 bs -> built bs (x_init b1)
| built_y b1 : In b1 bs -> built bs (y_init b1)
| built_rot b1 : In b1 bs -> built bs (rot_init b1)
| built_total b1 : In b1 bs -> built bs (total_init b1).

(** [w]: a world after the constructor and any history of calls; [bs] and [js] are the bodies and
    constraints it was given *)
Inductive world_of (bs : list (body R)) (js : list (joint R)) (w : world R) : Prop :=
| world_of_history fuel (o : oracle R) (hd : handler R) (e : engine R) heap dt eps tol fric_dirs ps st w0 ops :
    handler_frame hd -> NoDup (map b_id bs) -> Forall (built bs) js ->
    world_init o hd heap bs js dt eps tol fric_dirs ps st = Ok w0 ->
    exec fuel o hd e ops w0 = Ok w ->
    world_of bs js w.

(** velocity of the point at offset [r] of a body moving with u = (omega, (vx, vy)) *)
Definition point_velocity (u : v3 R) (r : v2 R) : v2 R :=
  (fst (snd u) - fst u * snd r, snd (snd u) + fst u * fst r).
Definition v2l (a : v2 R) : list R := [fst a; snd a].

(** what a constraint keeps at zero: [x1], [x2] positions of the two bodies, [u1], [u2] their
    velocities *)
Definition measured (k : jkind) (anchor x1 : v2 R) (u1 : v3 R) (other : option (v2 R * v3 R)) : list R :=
  match k with
  | JJoint =>
      match other with
      | None => v2l (point_velocity u1 (v2sub anchor x1))
      | Some (x2, u2) => v2l (v2sub (point_velocity u1 (v2sub anchor x1)) (point_velocity u2 (v2sub anchor x2)))
      end
  | JFixed =>
      match other with
      | None => []
      | Some (x2, u2) => v2l (v2sub (point_velocity u1 (v2sub anchor x1)) (point_velocity u2 (v2sub anchor x2)))
                         ++ [fst u1 - fst u2]
      end
  | JX => [fst (snd u1)]
  | JY => [snd (snd u1)]
  | JRot => [fst u1]
  | JTotal => [fst u1; fst (snd u1); snd (snd u1)]
  end.
