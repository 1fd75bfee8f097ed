(** Interrupting a run and going on with a new World made of the same objects (specification for C89) *)
From Coq Require Import List Arith ZArith Bool Reals.
From Verif Require Import Num Tensor Utils Bodies Forces Constraints Contacts World Spec.
Import ListNotations.

Section Resume.
Context {T : Type} {N : Num T}.

(** World(bodies, constraints, ...) called again with the objects and settings of the world [w], and the
    force objects [heap] *)
Definition rebuild (o : oracle T) (hd : handler T) (heap : fheap T) (w : world T) : res (world T) :=
  world_init o hd heap (w_bodies w) (map (fun '(j, _, _) => j) (w_joints w)) (w_dt w) (w_eps w) (w_tol w) (w_fric_dirs w) (w_post_stab w) (w_strict w).

(** the force objects of a simulation that starts at the time [t0] of another one *)
Definition delayed (t0 : T) (h : fheap T) : fheap T :=
  map (fun f => match f with FExt func m => FExt (fun t => func (nadd t0 t)) m | FGrav g c => FGrav g c end) h.

(** ODE's broad and narrow phase and random.choice answer the same question always in the same way *)
Definition repeatable (o : oracle T) : Prop :=
  forall k k', (forall gs, o_collide o k gs = o_collide o k' gs) /\ (forall g1 g2, o_narrow o k g1 g2 = o_narrow o k' g1 g2) /\ (forall n, o_choice o k n = o_choice o k' n).

(** the same state at a clock that is [t0] behind, or the same exception *)
Definition same_outcome (t0 : T) (r r' : res (world T)) : Prop :=
  match r, r' with
  | Ok x, Ok x' => w_bodies x' = w_bodies x /\ w_joints x' = w_joints x /\ w_v x' = w_v x /\ w_contacts x' = w_contacts x /\ w_t x = nadd t0 (w_t x')
  | Err e, Err e' => e' = e
  | _, _ => False
  end.
End Resume.
