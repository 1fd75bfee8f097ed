(** Bodies a user can observe: constructed, used, and carried through worlds *)
From Coq Require Import List Arith ZArith Bool Reals Lra Lia.
From Verif Require Import Num Tensor Utils Bodies Forces Constraints Contacts World Spec GeoSpec.
Import ListNotations.
Open Scope R_scope.

(** every body of every world after any history of calls, for every engine, broad phase and
    callback (that leaves the bodies' attributes alone), and every body outside a world *)
Inductive reachable_body (b : body R) : Prop :=
| RBavailable : available b -> reachable_body b
| RBworld fuel (o : oracle R) (hd : handler R) (e : engine R) heap bodies constraints dt eps tol
          fric_dirs ps st w0 ops w :
    handler_frame hd -> Forall available bodies ->
    world_init o hd heap bodies constraints dt eps tol fric_dirs ps st = Ok w0 ->
    exec fuel o hd e ops w0 = Ok w ->
    In b (w_bodies w) -> reachable_body b.

(** the space reports every pair of geoms whose bounding boxes overlap *)
Definition broadphase_complete (o : oracle R) : Prop :=
  forall k gs i j gi gj, i <> j -> nth_error gs i = Some gi -> nth_error gs j = Some gj ->
    aabb_overlap gi gj -> In (i, j) (o_collide o k gs) \/ In (j, i) (o_collide o k gs).
