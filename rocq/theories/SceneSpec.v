(** The same scene of circles described in another way: turned by an angle, in a mirror, with other
    identities, with bodies and constraints listed in another order, and with another broad phase
    (specification for C66-C68 and C85) *)
From Coq Require Import List Arith ZArith Bool Reals Permutation.
From Verif Require Import Num Tensor Utils Bodies Forces Constraints Contacts World Spec GeoSpec BodySpec JointSpec ContactSpec SymSpec.
Import ListNotations.
Open Scope R_scope.

(** Another description of a scene: everything turned about the origin by [v_angle], after taking the
    mirror image in the x axis if [v_mirror]; the angles of the circles measured from another direction;
    the body with identity [i] called [v_name i] instead *)
Record view : Type := { v_mirror : bool; v_angle : R; v_rot : R; v_name : nat -> nat; v_apart : forall a b, v_name a = v_name b -> a = b }.
(** only turned; turned after a reflection; only with other names *)
Definition turned (th : R) : view := {| v_mirror := false; v_angle := th; v_rot := th; v_name := fun i => i; v_apart := fun _ _ H => H |}.
Definition mirrored (th : R) : view := {| v_mirror := true; v_angle := th; v_rot := th; v_name := fun i => i; v_apart := fun _ _ H => H |}.
Definition renamed (name : nat -> nat) (H : forall a b, name a = name b -> a = b) : view :=
  {| v_mirror := false; v_angle := 0; v_rot := 0; v_name := name; v_apart := H |}.
(** where a point goes, and whether turning to the left becomes turning to the right *)
Definition place (f : view) (a : v2 R) : v2 R := rotate (v_angle f) (if v_mirror f then (fst a, - snd a) else a).
Definition hand (f : view) : R := if v_mirror f then -1 else 1.
(** a velocity (or force), and a pose *)
Definition turn_vel (f : view) (u : v3 R) : v3 R := (hand f * fst u, place f (snd u)).
Definition turn_pose (f : view) (p : v3 R) : v3 R := (hand f * fst p + v_rot f, place f (snd p)).
(** a body: the vertices of a polygon turn (polygons are only considered without a reflection), and the
    box of a Rect lies along its sides *)
Definition turn_kind (f : view) (k : kind R) : kind R :=
  match k with
  | KCircle r => KCircle r
  | KHull vs l => KHull (map (place f) vs) l
  | KRect dims vs l => KRect dims (map (place f) vs) l
  end.
Definition turn_quat (f : view) (b : body R) : option (R * R) :=
  match b_kind b with
  | KRect _ _ _ => let rot := fst (turn_pose f (b_p b)) in Some (sin (- rot / 2), cos (- rot / 2))
  | _ => g_quat (b_geom b)
  end.
Definition turn_body (f : view) (b : body R) : body R :=
  {| b_id := v_name f (b_id b); b_kind := turn_kind f (b_kind b); b_p := turn_pose f (b_p b); b_v := turn_vel f (b_v b); b_mass := b_mass b;
     b_inertia := b_inertia b; b_fric := b_fric b; b_rest := b_rest b; b_eps := b_eps b; b_forces := b_forces b;
     b_geom := {| g_shape := g_shape (b_geom b); g_pos := place f (g_pos (b_geom b)); g_quat := turn_quat f b;
                  g_no_contact := map (v_name f) (g_no_contact (b_geom b)) |} |}.
(** force objects that give turned forces at all times *)
Definition turned_force (f : view) (g g' : forceobj R) : Prop :=
  forall t, alike (fun u u' => u' = turn_vel f u) (force_value g t) (force_value g' t).
(** the same constraint put on the bodies of [bs] and on the turned bodies; constraints along the
    axes only if the axes stay where they are *)
Inductive built_alike (f : view) (bs : list (body R)) : joint R -> joint R -> Prop :=
| ba_joint1 b1 pos : In b1 bs ->
    built_alike f bs (joint_init b1 None pos) (joint_init (turn_body f b1) None (place f pos))
| ba_joint2 b1 b2 pos : In b1 bs -> In b2 bs -> b_id b1 <> b_id b2 ->
    built_alike f bs (joint_init b1 (Some b2) pos) (joint_init (turn_body f b1) (Some (turn_body f b2)) (place f pos))
| ba_fixed b1 b2 : In b1 bs -> In b2 bs -> b_id b1 <> b_id b2 ->
    built_alike f bs (fixed_init b1 b2) (fixed_init (turn_body f b1) (turn_body f b2))
| ba_x b1 : In b1 bs -> sin (v_angle f) = 0 -> built_alike f bs (x_init b1) (x_init (turn_body f b1))
| ba_y b1 : In b1 bs -> sin (v_angle f) = 0 -> built_alike f bs (y_init b1) (y_init (turn_body f b1))
| ba_rot b1 : In b1 bs -> built_alike f bs (rot_init b1) (rot_init (turn_body f b1))
| ba_total b1 : In b1 bs -> built_alike f bs (total_init b1) (total_init (turn_body f b1)).
(** a scene of circles on which contact detection cannot depend on the broad phase: the boxes are
    large enough for the world's eps, and add_no_contact was used on both bodies of a pair *)
Definition round_scene (eps : R) (bs : list (body R)) : Prop :=
  Forall available bs /\ Forall (fun b => is_circle b = true) bs /\ NoDup (map b_id bs) /\
  (forall b1 b2, In b1 bs -> In b2 bs -> eps <= b_eps b1 + b_eps b2) /\
  (forall b1 b2, In b1 bs -> In b2 bs -> excluded b1 b2 -> excluded b2 b1).
(** the broad phase reports no pair twice, in either order *)
Definition broadphase_once (o : oracle R) : Prop :=
  forall k gs, NoDup (map (fun '(i, j) => (Nat.min i j, Nat.max i j)) (o_collide o k gs)).
(** what is assumed of py3ode's broad phase: all pairs with overlapping boxes, once each, in any order
    and orientation, and whatever else *)
Definition broadphase_ok (o : oracle R) : Prop := broadphase_sane o /\ broadphase_complete o /\ broadphase_once o.

(** identity of body number [i] *)
Definition id_at (w : world R) (i : nat) : option nat := option_map b_id (nth_error (w_bodies w) i).
(** [c'] is the contact [c], turned, between the same bodies *)
Definition turned_contact (f : view) (w w' : world R) (c c' : contact R) : Prop :=
  c_normal c' = place f (c_normal c) /\ c_p1 c' = place f (c_p1 c) /\ c_p2 c' = place f (c_p2 c) /\ c_pen c' = c_pen c /\
  id_at w' (c_i1 c') = option_map (v_name f) (id_at w (c_i1 c)) /\ id_at w' (c_i2 c') = option_map (v_name f) (id_at w (c_i2 c)).
(** the same contact, seen from either of its bodies *)
Definition same_contact (f : view) (w w' : world R) (c c' : contact R) : Prop :=
  turned_contact f w w' c c' \/ turned_contact f w w' (mirror c) c'.
(** the same list up to order *)
Definition up_to_order {A B} (r : A -> B -> Prop) (l : list A) (l' : list B) : Prop :=
  exists l2, Permutation l l2 /\ Forall2 r l2 l'.
Definition turned_joint (f : view) (j j' : joint R) : Prop :=
  j_kind j' = j_kind j /\ j_b1 j' = v_name f (j_b1 j) /\ j_b2 j' = option_map (v_name f) (j_b2 j) /\ j_pos j' = place f (j_pos j).
(** [w'] is [w] in the other description: the same bodies, constraints and contacts, in any order, at the same time *)
Definition same_scene (f : view) (w w' : world R) : Prop :=
  w_t w' = w_t w /\
  up_to_order (fun b b' => b' = turn_body f b) (w_bodies w) (w_bodies w') /\
  up_to_order (turned_joint f) (map (fun e => fst (fst e)) (w_joints w)) (map (fun e => fst (fst e)) (w_joints w')) /\
  up_to_order (same_contact f w w') (w_contacts w) (w_contacts w').
(** the same call; velocities are given for the same bodies *)
Definition same_call (f : view) (bs bs' : list (body R)) (c c' : op R) : Prop :=
  match c, c' with
  | OSetV v, OSetV v' => length v' = length v /\
      forall i j b b', nth_error bs i = Some b -> nth_error bs' j = Some b' -> b_id b' = v_name f (b_id b) -> v3_at v' j = turn_vel f (v3_at v i)
  | OStep fx, OStep fx' => fx' = fx
  | OStepDt dt, OStepDt dt' => dt' = dt
  | _, _ => False
  end.
(** the same contact, seen from either of its bodies, when bodies are numbered alike *)
Definition either_way (c c' : contact R) : Prop := c' = c \/ c' = mirror c.
Definition same_joint (j j' : joint R) : Prop := j_kind j' = j_kind j /\ j_b1 j' = j_b1 j /\ j_b2 j' = j_b2 j /\ j_pos j' = j_pos j.
(** the same state: only the order and orientation of the contacts may differ *)
Definition same_state (w w' : world R) : Prop :=
  w_t w' = w_t w /\ w_bodies w' = w_bodies w /\ w_v w' = w_v w /\
  Forall2 same_joint (map (fun e => fst (fst e)) (w_joints w)) (map (fun e => fst (fst e)) (w_joints w')) /\
  up_to_order either_way (w_contacts w) (w_contacts w').
(** the same contact between bodies that are numbered differently *)
Definition renumbered_contact (w w' : world R) (c c' : contact R) : Prop :=
  exists d, either_way c d /\ c_normal c' = c_normal d /\ c_p1 c' = c_p1 d /\ c_p2 c' = c_p2 d /\ c_pen c' = c_pen d /\
    id_at w' (c_i1 c') = id_at w (c_i1 d) /\ id_at w' (c_i2 c') = id_at w (c_i2 d).
(** the same state with bodies, constraints and contacts listed in another order *)
Definition reordered (w w' : world R) : Prop :=
  w_t w' = w_t w /\ Permutation (w_bodies w) (w_bodies w') /\
  up_to_order same_joint (map (fun e => fst (fst e)) (w_joints w)) (map (fun e => fst (fst e)) (w_joints w')) /\
  up_to_order (renumbered_contact w w') (w_contacts w) (w_contacts w').
(** the same calls when bodies are listed in the order of [bs'] instead of [bs] *)
Definition reordered_call (bs bs' : list (body R)) (c c' : op R) : Prop :=
  match c, c' with
  | OSetV v, OSetV v' => length v' = length v /\
      forall i j b, nth_error bs i = Some b -> nth_error bs' j = Some b -> v3_at v' j = v3_at v i
  | OStep fx, OStep fx' => fx' = fx
  | OStepDt dt, OStepDt dt' => dt' = dt
  | _, _ => False
  end.
