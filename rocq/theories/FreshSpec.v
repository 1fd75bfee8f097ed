(** The contact list belongs to the bodies' current poses *)
From Coq Require Import List Arith ZArith.
From Verif Require Import Num Tensor Bodies Constraints Contacts World Spec.
Import ListNotations.

Section FreshSpec.
Context {T : Type} {N : Num T}.
(** what contact detection can see of a body: everything but its velocity and warm-start index *)
Definition still (b : body T) : body T := with_v (forget b) v3zero.
(** [new] is what the callback reported for the pair (i, j) of bodies in the poses of [bs] *)
Definition reported (hd : handler T) (eps : T) (bs : list (body T)) (i j : nat) (new : list (contact T)) : Prop :=
  exists clk bs0 bs1 clk1, map still bs0 = map still bs /\ hd eps clk bs0 i j = Ok (new, bs1, clk1).
(** The world's contacts are exactly the callback's reports, one for each pair the broad phase
    finds for the current poses of the bodies. *)
Definition contacts_current (o : oracle T) (hd : handler T) (w : world T) : Prop :=
  exists k calls,
    map fst calls = o_collide o k (map b_geom (w_bodies w)) /\
    w_contacts w = flat_map snd calls /\
    forall i j new, In ((i, j), new) calls -> reported hd (w_eps w) (w_bodies w) i j new.
End FreshSpec.
