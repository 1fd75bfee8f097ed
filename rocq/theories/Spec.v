(** Vocabulary of the theorem statements: histories of API calls *)
From Coq Require Import List Arith ZArith.
From Verif Require Import Num Tensor Bodies Constraints Contacts World.
Import ListNotations.

Section Spec.
Context {T : Type} {N : Num T}.

(** Calls a user makes on a world after constructing it. *)
Inductive op :=
| OStep (fixed_dt : bool)     (** world.step(fixed_dt) *)
| OStepDt (dt : T)            (** world.step_dt(dt) *)
| OSetV (v : vec T).          (** world.set_v(v) *)

(** [exec fuel o hd e ops w]: perform the calls in order; any exception stops the history. *)
Fixpoint exec (fuel : nat) (o : oracle T) (hd : handler T) (e : engine T) (ops : list op)
         (w : world T) : res (world T) :=
  match ops with
  | [] => Ok w
  | OStep fx :: ops' => do w' <- step fuel o hd e fx w; exec fuel o hd e ops' w'
  | OStepDt dt :: ops' => do w' <- step_dt fuel o hd e w dt; exec fuel o hd e ops' w'
  | OSetV v :: ops' => do w' <- set_v w v; exec fuel o hd e ops' w'
  end.

(** [tries o hd sp sr w dt k w' dt']: trying the move from [w] with step [dt], the first [k]
    attempts are rejected (penetration found, state rewound, dt halved) and the next one is
    accepted, giving [w'] after a move of length [dt'] (world.py:88-107). *)
Inductive tries (o : oracle T) (hd : handler T) (sp : vec T) (sr : list (T * option T))
  : world T -> T -> nat -> world T -> T -> Prop :=
| tries_accept w dt w1 w2 :
    move_all w dt = Ok w1 ->
    find_contacts o hd w1 = Ok w2 ->
    (no_penetration w2 = true \/
     (w_strict w2 = false /\ nltb dt (ndiv (w_dt w2) (nofZ 4)) = true)) ->
    tries o hd sp sr w dt 0 w2 dt
| tries_reject w dt w1 w2 w3 k w' dt' :
    move_all w dt = Ok w1 ->
    find_contacts o hd w1 = Ok w2 ->
    no_penetration w2 = false ->
    (w_strict w2 = true \/ nltb dt (ndiv (w_dt w2) (nofZ 4)) = false) ->
    rewind w2 sp sr = Ok w3 ->
    tries o hd sp sr w3 (ndiv dt (nofZ 2)) k w' dt' ->
    tries o hd sp sr w dt (S k) w' dt'.

End Spec.
Arguments op : clear implicits.

Section Spec2.
Context {T : Type} {N : Num T}.

(** a body without its SAT warm-start index, the only attribute contact detection may change *)
Definition forget (b : body T) : body T := set_last b 0.

(** The callback changes nothing on the bodies but last_sat_idx.  Proved for the two callbacks
    of the package; a hypothesis for user-supplied ones. *)
Definition handler_frame (hd : handler T) : Prop :=
  forall eps clk bs i1 i2 cs bs' clk',
    hd eps clk bs i1 i2 = Ok (cs, bs', clk') -> map forget bs' = map forget bs.

(** a sequence of calls bodies[i].add_no_contact(bodies[j]) *)
Definition no_contact_ops (bs : list (body T)) (calls : list (nat * nat)) : list (body T) :=
  fold_left (fun bs '(i, j) =>
               match nth_error bs i, nth_error bs j with
               | Some bi, Some bj =>
                   let '(bi', bj') := add_no_contact bi bj in upd (upd bs i bi') j bj'
               | _, _ => bs
               end) calls bs.

(** the broad phase only reports pairs of different members of the space *)
Definition broadphase_sane (o : oracle T) : Prop :=
  forall k gs i j, In (i, j) (o_collide o k gs) -> i <> j /\ i < length gs /\ j < length gs.

End Spec2.
