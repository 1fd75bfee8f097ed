(** Joined bodies falling (specification for C95) *)
From Coq Require Import List Arith Bool Reals.
From Verif Require Import Num Tensor Bodies Forces Constraints World EngineSpec.
Import ListNotations.
Open Scope R_scope.

(** how far bodies with velocity [u] and acceleration [g] come in [n] steps of length [dt], and their velocity then *)
Definition sunk (dt : R) (u g : v2 R) (n : nat) : v2 R :=
  v2add (v2scale (INR n * dt) u) (v2scale (INR n * (INR n + 1) / 2 * (dt * dt)) g).
Definition speed (dt : R) (u g : v2 R) (n : nat) : v2 R := v2add u (v2scale (INR n * dt) g).
(** the poses and velocities of the bodies of [w], all shifted alike *)
Definition shifted (w : world R) (u g : v2 R) (n : nat) : list (v3 R * v3 R) :=
  map (fun b => ((b_rot b, v2add (b_pos b) (sunk (w_dt w) u g n)), (0, speed (w_dt w) u g n))) (w_bodies w).
(** every body has the velocity [u], does not turn, and the forces [F] give every body the acceleration [g] *)
Definition falling (w : world R) (F : R -> vec R) (u g : v2 R) : Prop :=
  forall i b, nth_error (w_bodies w) i = Some b -> b_v b = (0, u) /\ forall t, acceleration b (v3_at (F t) i) = (0, g).
(** every constraint joins two bodies *)
Definition linked (js : list (joint R)) : Prop := Forall (fun j => j_b2 j <> None) js.
