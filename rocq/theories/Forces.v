(** Model of /repo/lcp_physics/physics/forces.py and of Body.apply_forces / add_force *)
From Coq Require Import List Arith ZArith Bool.
From Verif Require Import Num Tensor Utils Bodies.
Import ListNotations.

Section Forces.
Context {T : Type} {N : Num T}.
Local Open Scope num_scope.

(** forces.py:35-38 *)
Definition DOWN : v3 T := (0, (0, 1)).
Definition RIGHT : v3 T := (0, (1, 0)).
Definition ROT : v3 T := (1, (0, 0)).
Definition ZEROS : v3 T := (0, (0, 0)).

(** forces.py:4-26 *)
Definition down_force (t : T) : v3 T := DOWN.
Definition vert_impulse (t : T) : v3 T := if t <? ncst C_0_1 then DOWN else ZEROS.
Definition hor_impulse (t : T) : v3 T := if t <? ncst C_0_1 then RIGHT else ZEROS.
Definition rot_impulse (t : T) : v3 T := if t <? ncst C_0_1 then ROT else ZEROS.

(** Force objects live in a heap (a list indexed by force id), because one object can be added
    to several bodies.
    ExternalForce: forces.py:29-48;  Gravity: forces.py:51-67. *)
Inductive forceobj :=
| FExt (func : T -> v3 T) (mult : T)
| FGrav (g : T) (cached : option (v3 T)).
Definition fheap := list forceobj.

(** [tensor * scalar] elementwise *)
Definition v3mulr (a : v3 T) (k : T) : v3 T :=
  (fst a * k, (fst (snd a) * k, snd (snd a) * k)).

(** forces.py:42 and 61-62 [force(t)]; a Gravity that was never attached returns None *)
Definition force_value (f : forceobj) (t : T) : res (v3 T) :=
  match f with
  | FExt func mult => Ok (v3mulr (func t) mult)
  | FGrav _ (Some c) => Ok c
  | FGrav _ None => Err ENone
  end.

(** forces.py:45-48 and 64-67 [set_body] (the dtype conversion of the multiplier is the
    identity here) *)
Definition set_body (f : forceobj) (mass : T) : forceobj :=
  match f with
  | FExt func mult => FExt func mult
  | FGrav g _ => FGrav g (Some (v3mulr (v3mulr DOWN mass) g))
  end.

(** bodies.py:98-102 [Body.apply_forces] *)
Definition body_apply_forces (h : fheap) (b : body T) (t : T) : res (v3 T) :=
  do fs <- mapM (fun id => match nth_error h id with
                           | Some f => force_value f t
                           | None => Err EIndex
                           end) (b_forces b);
  Ok (fold_left v3add fs v3zero).

(** bodies.py:108-110 [Body.add_force] *)
Definition add_force (h : fheap) (b : body T) (id : nat) : res (fheap * body T) :=
  match nth_error h id with
  | Some f => Ok (upd h id (set_body f (b_mass b)), with_forces b (b_forces b ++ [id]))
  | None => Err EIndex
  end.

End Forces.
Arguments forceobj : clear implicits.
Arguments fheap : clear implicits.
