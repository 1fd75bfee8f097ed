(** The gradient demo (specification for C90) *)
From Coq Require Import List Arith Bool Reals.
From Verif Require Import Num Tensor Bodies Forces World GeoSpec.
Import ListNotations.
Open Scope R_scope.

(** the pushed ball after [k] steps of 1/30: it starts from (250, 210); under 100 times the force (x, y)
    during the first three steps it moves by 1/9, 1/3 and 2/3 of (x, y), and by 1/3 of it in every later step *)
Definition reach (k : nat) : R := match k with 0 => 0 | 1 => 1 / 9 | S k' => INR k' / 3 end.
Definition course (f : v3 R) (s : R) : v2 R := (250 + s * fst (snd f), 210 + s * snd (snd f)).
(** up to step [k] the pushed ball is too far from the other one, which lies at (400, 250), for a
    contact: both have radius 30 and the contact distance is 1/10 *)
Definition misses (f : v3 R) (k : nat) : Prop := forall s, 0 <= s <= reach k -> 60 + 1 / 10 < dist (course f s) (400, 250).
(** the value of a result (0 for an error) *)
Definition value (r : res R) : R := match r with Ok a => a | Err _ => 0 end.
(** force [f] changed by [h] times [d] *)
Definition shifted (f d : v3 R) (h : R) : v3 R := (fst f + h * fst d, (fst (snd f) + h * fst (snd d), snd (snd f) + h * snd (snd d))).
Definition inner (a b : v3 R) : R := fst a * fst b + fst (snd a) * fst (snd b) + snd (snd a) * snd (snd b).
(** [g] is the gradient of [F] at [f]: its products with the directions are the derivatives *)
Definition gradient_of (F : v3 R -> res R) (f g : v3 R) : Prop :=
  forall d, derivable_pt_lim (fun h => value (F (shifted f d h))) 0 (inner g d).
