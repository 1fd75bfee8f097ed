(** A scene of any shapes turned about the origin (specification for C98; turned bodies, forces and
    constraints are those of SceneSpec) *)
From Coq Require Import List Arith ZArith Bool Reals.
From Verif Require Import Num Tensor Utils Bodies Forces Constraints Contacts World Spec GeoSpec BodySpec SceneSpec.
Import ListNotations.
Open Scope R_scope.

(** a contact turned by [th]: the vectors turn, the penetration and the bodies stay *)
Definition turn_contact (th : R) (c : contact R) : contact R :=
  mkContact (rotate th (c_normal c)) (rotate th (c_p1 c)) (rotate th (c_p2 c)) (c_pen c) (c_i1 c) (c_i2 c).
(** the outcome of the contact callback turned: the same errors *)
Definition turned_outcome (th : R) (r : res (list (contact R) * list (body R) * nat)) : res (list (contact R) * list (body R) * nat) :=
  match r with
  | Ok (cs, bs, k) => Ok (map (turn_contact th) cs, map (turn_body (turned th)) bs, k)
  | Err e => Err e
  end.
(** the ODE geom of a body is where the body is *)
Definition in_step (b : body R) : Prop :=
  g_pos (b_geom b) = b_pos b /\
  match b_kind b, g_quat (b_geom b) with
  | KRect _ _ _, None => b_rot b = 0
  | KRect _ _ _, Some q => q = (sin (- b_rot b / 2), cos (- b_rot b / 2))
  | _, _ => True
  end.
(** the broad phase [o'] finds in the turned scene the pairs that [o] finds in the scene itself, and
    random.choice picks alike *)
Definition turned_oracle (th : R) (o o' : oracle R) : Prop :=
  (forall k bs, Forall in_step bs -> o_collide o' k (map b_geom (map (turn_body (turned th)) bs)) = o_collide o k (map b_geom bs)) /\
  (forall k n, o_choice o' k n = o_choice o k n).
(** [w'] is [w] turned: the same time, bodies and contacts in the same order, and the same constraints *)
Definition turned_world (th : R) (w w' : world R) : Prop :=
  w_t w' = w_t w /\ w_bodies w' = map (turn_body (turned th)) (w_bodies w) /\ w_contacts w' = map (turn_contact th) (w_contacts w) /\
  Forall2 (turned_joint (turned th)) (map (fun e => fst (fst e)) (w_joints w)) (map (fun e => fst (fst e)) (w_joints w')).
(** calls on the two worlds: the same steps, turned velocities *)
Definition turned_call (th : R) (n : nat) (c : op R) : op R :=
  match c with
  | OSetV v => OSetV (if Nat.eqb (length v) (3 * n) then cat3 (map (fun i => turn_vel (turned th) (v3_at v i)) (seq 0 n)) else v)
  | c => c
  end.
