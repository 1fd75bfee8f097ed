(** Vocabulary for statements about one step *)
From Coq Require Import List Arith ZArith.
From Verif Require Import Num Tensor Bodies Constraints Contacts World Spec.
Import ListNotations.

Section RewindSpec.
Context {T : Type} {N : Num T}.

(** the velocity the engine computes for a step of dt from [w] *)
Definition solved_velocity (e : engine T) (w : world T) (dt : T) (v : vec T) : Prop :=
  exists cache, e_solve e w dt = Ok (v, cache).

(** [trials o hd e w dt k w2 dt']: step_dt(dt) from [w] rejects [k] trial moves and accepts the next,
    which took dt' and led to [w2] (world.py:83-107, before any post-stabilisation) *)
Definition trials (o : oracle T) (hd : handler T) (e : engine T) (w : world T) (dt : T)
           (k : nat) (w2 : world T) (dt' : T) : Prop :=
  exists v cache w1,
    e_solve e w dt = Ok (v, cache) /\ set_v (with_cache w cache) v = Ok w1 /\
    tries o hd (cat3 (map b_p (w_bodies w)))
          (map (fun '(j, _, _) => (j_rot1 j, j_rot2 j)) (w_joints w)) w1 dt k w2 dt'.
Definition rejected o hd e w dt k : Prop := exists w2 dt', trials o hd e w dt k w2 dt'.
Definition accepted_state o hd e w dt w2 : Prop := exists k dt', trials o hd e w dt k w2 dt'.

(** the bodies a joint of [w] connects, with the velocities [v] *)
Definition joint_ends (w : world T) (v : vec T) (i1 : nat) (i2 : option nat)
           (b1 : body T) (b2 : option (body T)) : Prop :=
  (exists b, nth_error (w_bodies w) i1 = Some b /\ b1 = with_v b (v3_at v i1)) /\
  match i2 with
  | None => b2 = None
  | Some i => exists b, nth_error (w_bodies w) i = Some b /\ b2 = Some (with_v b (v3_at v i))
  end.
End RewindSpec.
