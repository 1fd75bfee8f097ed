(** Joints and drift (specification for C61) *)
From Coq Require Import List Arith ZArith Bool Reals.
From Verif Require Import Num Tensor Utils Bodies Forces Constraints Contacts World Engines Spec GeoSpec ResFacts RBase.
Import ListNotations.
Open Scope R_scope.

(** where the point of a body that was at [p] when the body was in the state [c] is in the state [b] *)
Definition material (c b : body R) (p : v2 R) : v2 R := v2add (b_pos b) (rotate (b_rot b - b_rot c) (v2sub p (b_pos c))).
(** the angle by which it turned *)
Definition turn (b b' : body R) : R := b_rot b' - b_rot b.
(** [q] moved by the angle [th] along the tangent of the circle it is on, instead of along the circle *)
Definition along_tangent (th : R) (q : v2 R) : v2 R := (fst q - th * snd q, snd q + th * fst q).
(** the difference of the two *)
Definition arc_error (th : R) (q : v2 R) : v2 R := v2sub (rotate th q) (along_tangent th q).
Definition len (q : v2 R) : R := dist q (0, 0).

(** a run of steps from [w] to [w'] during which body [i] turns by the angles [ths], one per step *)
Inductive swings (fuel : nat) (o : oracle R) (hd : handler R) (e : engine R) (i : nat) : world R -> list R -> world R -> Prop :=
| swings_none w : swings fuel o hd e i w [] w
| swings_step w dt w1 b b1 ths w' :
    step_dt fuel o hd e w dt = Ok w1 -> nth_error (w_bodies w) i = Some b -> nth_error (w_bodies w1) i = Some b1 ->
    swings fuel o hd e i w1 ths w' -> swings fuel o hd e i w (turn b b1 :: ths) w'.
