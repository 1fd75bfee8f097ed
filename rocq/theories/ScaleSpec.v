(** Units of mass and time (specification for C77): the same scene described with masses [c] times as
    large and times [tau] times as long *)
From Coq Require Import List Arith ZArith Bool Reals.
From Verif Require Import Num Tensor Utils Bodies Forces Constraints Contacts World Spec SymSpec.
Import ListNotations.
Open Scope R_scope.

(** the body with [c] times the mass and moment of inertia, moving [tau] times as slowly *)
Definition rescale_body (c tau : R) (b : body R) : body R :=
  {| b_id := b_id b; b_kind := b_kind b; b_p := b_p b; b_v := v3scale (/ tau) (b_v b); b_mass := c * b_mass b;
     b_inertia := c * b_inertia b; b_fric := b_fric b; b_rest := b_rest b; b_eps := b_eps b;
     b_forces := b_forces b; b_geom := b_geom b |}.
(** [f'] is the force [f] in the new units: mass times length over time squared *)
Definition rescaled_force (c tau : R) (f f' : forceobj R) : Prop :=
  forall t, alike (fun u u' => u' = v3scale (c / (tau * tau)) u) (force_value f t) (force_value f' (tau * t)).
(** the same call in the new units *)
Definition rescale_op (tau : R) (x : op R) : op R :=
  match x with
  | OStep fx => OStep fx
  | OStepDt dt => OStepDt (tau * dt)
  | OSetV v => OSetV (vscale (/ tau) v)
  end.
(** [w'] is the state [w] in the new units: the same poses, shapes, constraints and contacts *)
Record rescaled (c tau : R) (w w' : world R) : Prop := {
  rs_t : w_t w' = tau * w_t w;
  rs_bodies : w_bodies w' = map (rescale_body c tau) (w_bodies w);
  rs_v : w_v w' = vscale (/ tau) (w_v w);
  rs_joints : w_joints w' = w_joints w;
  rs_contacts : w_contacts w' = w_contacts w;
  rs_rows : w_num_constraints w' = w_num_constraints w;
  rs_heap : Forall2 (rescaled_force c tau) (w_heap w) (w_heap w') }.
(** the same engine, except that it gives up when there are contacts *)
Definition until_contact (e : engine R) : engine R :=
  {| e_solve := fun w dt => match w_contacts w with [] => e_solve e w dt | _ => Err ENotImpl end;
     e_post := fun w => match w_contacts w with [] => e_post e w | _ => Err ENotImpl end |}.
(** impulses: mass times length over time *)
Definition rescale_imps (c tau : R) (imps : list (R * R)) : list (R * R) := map (fun im => (c / tau * fst im, c / tau * snd im)) imps.
