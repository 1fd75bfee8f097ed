(** Equilibrium, virtual work, and bodies that coast beside a structure at rest (specification for C79) *)
From Coq Require Import List Arith Bool Reals.
From Verif Require Import Num Tensor Bodies Forces Constraints Contacts World Spec GeoSpec JointSpec EngineSpec.
Import ListNotations.
Open Scope R_scope.

(** velocities [x] with which the bodies can move: the constraints stay satisfied and no contact closes *)
Definition virtual (w : world R) (x : vec R) : Prop :=
  length x = (3 * length (w_bodies w))%nat /\ constraint_velocity w x = vzeros (w_num_constraints w) /\
  forall c, In c (w_contacts w) -> 0 <= normal_velocity x c.
(** the forces [f] are in equilibrium: they do no positive work in any possible motion *)
Definition equilibrium (w : world R) (f : vec R) : Prop := forall x, virtual w x -> dot x f <= 0.
Definition at_rest (w : world R) : Prop := w_v w = vzeros (3 * length (w_bodies w)).
(** normal forces [z] >= 0 at the contacts and forces [y] in the constraints that carry [f] *)
Definition carried (w : world R) (f : vec R) (z y : list R) : Prop :=
  length z = length (w_contacts w) /\ length y = w_num_constraints w /\ Forall (fun a => 0 <= a) z /\
  forall x, length x = (3 * length (w_bodies w))%nat ->
    dot x f + contact_power (w_contacts w) (map (fun a => (a, 0)) z) x + dot y (constraint_velocity w x) = 0.

(** d'Alembert's principle: with the accelerations [a], which the constraints allow, the forces [f] do
    the work of the inertia in every possible motion *)
Definition dalembert (w : world R) (f a : vec R) : Prop :=
  constraint_velocity w a = vzeros (w_num_constraints w) /\
  forall x, length x = (3 * length (w_bodies w))%nat -> constraint_velocity w x = vzeros (w_num_constraints w) ->
    dot x f = kinetic w x a.

(** pose and velocity after [n] steps of length [dt] from time [t] of a free body with acceleration
    [acc t] at time [t]: the velocity is updated first, and the pose with the new velocity *)
Fixpoint coast (dt t : R) (acc : R -> v3 R) (p v : v3 R) (n : nat) : v3 R * v3 R :=
  match n with
  | O => (p, v)
  | S n' => let v' := v3add v (v3scale dt (acc t)) in coast dt (t + dt) acc (v3add p (v3scale dt v')) v' n'
  end.
(** the bodies of [w] for which [rest] holds stay where they are, the others coast under the forces [F] *)
Definition coasting (w : world R) (rest : nat -> bool) (F : R -> vec R) (n : nat) : list (v3 R * v3 R) :=
  mapi (fun i b => if rest i then (b_p b, (0, (0, 0)))
                   else coast (w_dt w) (w_t w) (fun t => acceleration b (v3_at (F t) i)) (b_p b) (b_v b) n) (w_bodies w).
(** every body of a constraint is among those at rest *)
Definition structure (w : world R) (rest : nat -> bool) : Prop :=
  (forall j i1 i2, In (j, i1, i2) (w_joints w) -> rest i1 = true /\ match i2 with Some i => rest i = true | None => True end) /\
  (forall i b, nth_error (w_bodies w) i = Some b -> rest i = true -> b_v b = (0, (0, 0))).
(** the forces [f] on the bodies at rest do no work in a motion of these bodies that the constraints allow *)
Definition in_balance (w : world R) (rest : nat -> bool) (f : vec R) : Prop :=
  forall x, length x = (3 * length (w_bodies w))%nat -> constraint_velocity w x = vzeros (w_num_constraints w) ->
    (forall i, rest i = false -> v3_at x i = (0, (0, 0))) -> dot x f = 0.
(** the bodies [i] and [k] move alike: they do not turn, have one velocity, and the forces [F] give them
    one acceleration at every time *)
Definition alike (w : world R) (F : R -> vec R) (i k : nat) : Prop :=
  forall b c, nth_error (w_bodies w) i = Some b -> nth_error (w_bodies w) k = Some c ->
    fst (b_v b) = 0 /\ b_v c = b_v b /\
    forall t, fst (acceleration b (v3_at (F t) i)) = 0 /\ acceleration c (v3_at (F t) k) = acceleration b (v3_at (F t) i).
(** the bodies of a constraint are among those at rest, or are two others that move alike *)
Definition jointed (w : world R) (rest : nat -> bool) (F : R -> vec R) : Prop :=
  (forall j i1 i2, In (j, i1, i2) (w_joints w) ->
     (rest i1 = true /\ match i2 with Some i => rest i = true | None => True end) \/
     (exists i, i2 = Some i /\ rest i1 = false /\ rest i = false /\ alike w F i1 i)) /\
  (forall i b, nth_error (w_bodies w) i = Some b -> rest i = true -> b_v b = (0, (0, 0))).
