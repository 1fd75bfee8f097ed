(** A ball hits another one, in the simulation and in reality (specification for C86) *)
From Coq Require Import List Arith ZArith Bool Reals.
From Verif Require Import Num Tensor Utils Bodies Forces Constraints Contacts World Spec EngineSpec WellSpec.
Import ListNotations.
Open Scope R_scope.

(** radius, mass, restitution and friction coefficient of the two balls, and the settings of the world *)
Record duel := { d_ra : R; d_rb : R; d_ma : R; d_mb : R; d_ea : R; d_eb : R; d_fa : R; d_fb : R;
                 d_dt : R; d_eps : R; d_tol : R; d_strict : bool }.
Definition d_rest (d : duel) : R := (d_ea d + d_eb d) / 2.
Record sensible (d : duel) : Prop := {
  s_ra : 0 < d_ra d; s_rb : 0 < d_rb d; s_ma : 0 < d_ma d; s_mb : 0 < d_mb d; s_rest : 0 <= d_rest d;
  s_dt : 0 < d_dt d; s_eps : 0 <= d_eps d; s_tol : 0 <= d_tol d < d_ra d + d_rb d }.
(** the first ball at [xa] moves with velocity [u] along the line to the second one, which rests at [xb] *)
Definition duel_start (o : oracle R) (hd : handler R) (d : duel) (xa xb u : R) : res (world R) :=
  do a <- circle_init 0 [xa; 0] (d_ra d) [0; u; 0] (d_ma d) (d_ea d) (d_fa d) (d_eps d);
  do b <- circle_init 1 [xb; 0] (d_rb d) [0; 0; 0] (d_mb d) (d_eb d) (d_fb d) (d_eps d);
  world_init o hd [] [a; b] [] (d_dt d) (d_eps d) (d_tol d) 2 false (d_strict d).
(** the world after [n] calls of step() *)
Definition duel_after (fuel : nat) (o : oracle R) (hd : handler R) (e : engine R) (d : duel) (n : nat) (xa xb u : R) : res (world R) :=
  do w0 <- duel_start o hd d xa xb u; exec fuel o hd e (repeat (OStep false) n) w0.
(** x coordinate of body [i] then *)
Definition sim_at (fuel : nat) (o : oracle R) (hd : handler R) (e : engine R) (d : duel) (n i : nat) (xa xb u : R) : R :=
  match duel_after fuel o hd e d n xa xb u with
  | Ok w => match nth_error (w_bodies w) i with Some b => fst (b_pos b) | None => 0 end
  | Err _ => 0
  end.
(** the engine answers every state of the run with a physical contact response (as exact solutions of the LCP are: C34) *)
Definition exact_along (fuel : nat) (o : oracle R) (hd : handler R) (e : engine R) (d : duel) (xa xb u : R) : Prop :=
  forall n w, duel_after fuel o hd e d n xa xb u = Ok w ->
    exists v c imps, e_solve e w (w_dt w) = Ok (v, c) /\ response w (w_dt w) v imps.

(** *** reality: the balls move freely, meet when the gap is closed, and part with the textbook velocities *)
Definition gap (d : duel) (xa xb : R) : R := xb - xa - (d_ra d + d_rb d).
Definition meet_time (d : duel) (xa xb u : R) : R := gap d xa xb / u.
(** the parts of the velocity [u] that the first ball loses and the second one gains *)
Definition lost (d : duel) : R := (1 + d_rest d) * d_mb d / (d_ma d + d_mb d).
Definition gained (d : duel) : R := (1 + d_rest d) * d_ma d / (d_ma d + d_mb d).
Definition true_at (d : duel) (i : nat) (xa xb u t : R) : R :=
  let since := Rmax 0 (t - meet_time d xa xb u) in
  match i with
  | 0%nat => xa + u * t - lost d * u * since
  | _ => xb + gained d * u * since
  end.

(** the contact is noticed after [k] steps (the balls are within [eps] then, and not before), and not by a hair *)
Definition noticed_after (d : duel) (xa xb u : R) (k : nat) : Prop :=
  gap d xa xb - INR k * (u * d_dt d) < d_eps d /\
  forall j, (j < k)%nat -> d_eps d < gap d xa xb - INR j * (u * d_dt d).

(** the same balls, but the first one of mass [m], or of restitution [r] *)
Definition with_mass (d : duel) (m : R) : duel :=
  {| d_ra := d_ra d; d_rb := d_rb d; d_ma := m; d_mb := d_mb d; d_ea := d_ea d; d_eb := d_eb d; d_fa := d_fa d; d_fb := d_fb d;
     d_dt := d_dt d; d_eps := d_eps d; d_tol := d_tol d; d_strict := d_strict d |}.
Definition with_rest (d : duel) (r : R) : duel :=
  {| d_ra := d_ra d; d_rb := d_rb d; d_ma := d_ma d; d_mb := d_mb d; d_ea := r; d_eb := d_eb d; d_fa := d_fa d; d_fb := d_fb d;
     d_dt := d_dt d; d_eps := d_eps d; d_tol := d_tol d; d_strict := d_strict d |}.
