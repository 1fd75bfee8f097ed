(** debug_demo and fric_demo before anything touches (specification for C100) *)
From Coq Require Import List Arith Bool Reals.
From Verif Require Import Num Tensor Bodies Forces Constraints Contacts World.
Import ListNotations.
Open Scope R_scope.

(** way and velocity after [k] steps of 1/30 s: of a body that 500 pushes for three steps, ... *)
Definition way (k : nat) : R := match k with 0 => 0 | 1 => 5 / 9 | _ => 5 / 3 * INR k - 5 / 3 end.
Definition pace (k : nat) : R := match k with 0 => 0 | 1 => 50 / 3 | 2 => 100 / 3 | _ => 50 end.
(** ... and of one that falls with 100 per s^2 *)
Definition drop (k : nat) : R := INR k * (INR k + 1) / 18.
Definition drop_pace (k : nat) : R := 10 / 3 * INR k.
Definition at_rest (x y : R) : v3 R * v3 R := ((0, (x, y)), (0, (0, 0))).
Definition turning (k : nat) : v3 R * v3 R := ((INR k / 30, (975, 575)), (1, (0, 0))).
(** debug_demo after [k] steps: two pairs of a pushed ball and one below it, two pairs of a falling ball and
    one below it, a square that turns and rises, the clock *)
Definition debug_at (k : nat) : list (v3 R * v3 R) :=
  [((0, (150, 150 + way k)), (0, (0, pace k))); at_rest 150 230;
   ((0, (300, 150 + drop k)), (0, (0, drop_pace k))); at_rest 301 230;
   ((0, (225, 300 + drop k)), (0, (0, drop_pace k))); at_rest 215 380;
   ((0, (375, 300 + way k)), (0, (0, pace k))); at_rest 375 380;
   ((- (INR k / 30), (300, 500 - drop k)), (-1, (0, - drop_pace k))); turning k].
(** fric_demo after [k] steps: the plate and the ball above it fall together *)
Definition fric_at (k : nat) : list (v3 R * v3 R) :=
  [((0, (400, 400 + drop k)), (0, (0, drop_pace k))); ((0, (200, 364 + drop k)), (0, (0, drop_pace k))); at_rest 50 436; at_rest 800 436; turning k].
(** what a body is made of: mass, restitution, friction *)
Definition matter (b : body R) : R * R * R := (b_mass b, b_rest b, b_fric b).
(** the shapes *)
Definition disc_of (r : R) (b : body R) : Prop := b_kind b = KCircle r.
Definition rect_of (w h : R) (b : body R) : Prop := exists vs l, b_kind b = KRect (w, h) vs l.
Definition debug_shapes : list (body R -> Prop) := repeat (disc_of 20) 8 ++ [rect_of 40 40; disc_of 20].
Definition fric_shapes : list (body R -> Prop) := [rect_of 900 10; disc_of 30; disc_of 30; disc_of 30; disc_of 20].
(** the forces at time [t] *)
Definition debug_loads (t : R) : list R :=
  let push := if Rlt_dec t (1 / 10) then 500 else 0 in
  cat3 [(0, (0, push)); (0, (0, 0)); (0, (0, 100)); (0, (0, 0)); (0, (0, 100)); (0, (0, 0)); (0, (0, push)); (0, (0, 0)); (0, (0, -100)); (0, (0, 0))].
Definition fric_loads (t : R) : list R :=
  let push := if Rlt_dec 1 t then if Rlt_dec t 2 then 100 else 0 else 0 in
  cat3 [(0, (push, 100)); (0, (0, 100)); (0, (0, 0)); (0, (0, 0)); (0, (0, 0))].
