(** Frames of reference (specification for C59, C60): the same scene described by an observer whose origin
    is displaced by -[d] and moves with the velocity -[U] *)
From Coq Require Import List Arith ZArith Bool Reals.
From Verif Require Import Num Tensor Utils Bodies Forces Constraints Contacts World Spec.
Import ListNotations.
Open Scope R_scope.

(** a pose or a velocity, displaced *)
Definition shift3 (d : v2 R) (p : v3 R) : v3 R := (fst p, v2add (snd p) d).
Definition shift_geom (d : v2 R) (g : geom R) : geom R :=
  {| g_shape := g_shape g; g_pos := v2add (g_pos g) d; g_quat := g_quat g; g_no_contact := g_no_contact g |}.
(** a body displaced by [d] and moving faster by [U]; nothing else changes *)
Definition boost_body (U d : v2 R) (b : body R) : body R :=
  {| b_id := b_id b; b_kind := b_kind b; b_p := shift3 d (b_p b); b_v := shift3 U (b_v b); b_mass := b_mass b;
     b_inertia := b_inertia b; b_fric := b_fric b; b_rest := b_rest b; b_eps := b_eps b;
     b_forces := b_forces b; b_geom := shift_geom d (b_geom b) |}.
(** a constraint whose anchor is displaced by [d] *)
Definition shift_joint (d : v2 R) (j : joint R) : joint R :=
  {| j_kind := j_kind j; j_b1 := j_b1 j; j_b2 := j_b2 j; j_pos := v2add (j_pos j) d;
     j_pos1 := j_pos1 j; j_pos2 := j_pos2 j; j_r1 := j_r1 j; j_rot1 := j_rot1 j; j_rot2 := j_rot2 j |}.
(** the velocity vector of [nb] bodies that all move with [U] *)
Definition uniform (U : v2 R) (nb : nat) : vec R := cat3 (repeat (0, U) nb).
(** a world in the other frame: bodies, anchors and the velocity vector change, the contacts, the
    time, the clock and everything else do not *)
Definition boost_world (U d : v2 R) (w : world R) : world R :=
  with_state w (map (boost_body U d) (w_bodies w)) (map (fun '(j, i1, i2) => (shift_joint d j, i1, i2)) (w_joints w))
             (w_t w) (vadd (w_v w) (uniform U (length (w_bodies w)))) (w_contacts w) (w_cache w) (w_clk w).
(** the calls of the other observer: velocities passed to set_v are theirs *)
Definition boost_op (U : v2 R) (nb : nat) (c : op R) : op R :=
  match c with OSetV v => OSetV (vadd v (uniform U nb)) | _ => c end.

(** py3ode: displacing all geoms does not change which pairs are reported, nor their order, and
    displaces the contact points of the narrow phase *)
Definition shift_point (d : v2 R) (c : (v2 R * R) * v2 R * R) : (v2 R * R) * v2 R * R :=
  let '(pt, n, depth) := c in ((v2add (fst pt) d, snd pt), n, depth).
Definition translation_invariant (o : oracle R) : Prop :=
  (forall d k gs, o_collide o k (map (shift_geom d) gs) = o_collide o k gs) /\
  (forall d k g1 g2, o_narrow o k (shift_geom d g1) (shift_geom d g2) = map (shift_point d) (o_narrow o k g1 g2)).

(** constructor arguments (x, y) or (angle, x, y), displaced *)
Definition shift_args (d : v2 R) (l : list R) : list R :=
  match l with
  | [x; y] => [x + fst d; y + snd d]
  | [r; x; y] => [r; x + fst d; y + snd d]
  | _ => l
  end.
(** a result, transformed if it is not an error *)
Definition result_map {A B} (f : A -> B) (r : res A) : res B := match r with Ok a => Ok (f a) | Err e => Err e end.
