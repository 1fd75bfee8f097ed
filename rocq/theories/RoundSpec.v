(** Rounds of the simulated Breakout game (specification for C76) *)
From Coq Require Import List Arith Reals.
From Verif Require Import Num Tensor Bodies Contacts World Spec.
Import ListNotations.
Open Scope R_scope.

(** [w'] comes from [w] by one round per action: the horizontal velocity of body [i] is set to [v] times the
    action, nothing else, and world.step(fixed_dt=True) is called *)
Inductive rounds (fuel : nat) (o : oracle R) (hd : handler R) (e : engine R) (v : R) (i : nat) : list R -> world R -> world R -> Prop :=
| rounds_nil w : rounds fuel o hd e v i [] w w
| rounds_cons a l w x w1 w' :
    length x = length (w_v w) -> nth (3 * i + 1) x 0 = v * a -> (forall k, k <> (3 * i + 1)%nat -> nth k x 0 = nth k (w_v w) 0) ->
    exec fuel o hd e [OSetV x; OStep true] w = Ok w1 -> rounds fuel o hd e v i l w1 w' -> rounds fuel o hd e v i (a :: l) w w'.
