(** Vocabulary for statements about the engine (specification for C23, C24, C33-C37, C44, C49) *)
From Coq Require Import List Arith ZArith Bool Reals.
From Verif Require Import Num Tensor Utils Bodies Forces Constraints Contacts World Lapack Pdipm Lcp Engines Spec GeoSpec BodySpec JointSpec FreshSpec
     LinAlg LapackSpec KktSpec PdipmSpec ContactSpec.
Import ListNotations.

Section Cache.
Context {T : Type} {N : Num T}.

(** the same engine with cached_inverse set to None before every call *)
Definition without_cache (e : engine T) : engine T :=
  {| e_solve := fun w dt => do r <- e_solve e (with_cache w None) dt; Ok (fst r, None);
     e_post := fun w => e_post e (with_cache w None) |}.

End Cache.

Open Scope R_scope.

(** [w]: a world with the package's engine and one of the package's contact callbacks, after the
    constructor and any history of calls; [bs] and [js] are the bodies and constraints it was given.
    [la] is the LAPACK behind torch, [mi] the engine's max_iter. *)
Inductive engine_world (la : lapack R) (mi : nat) (bs : list (body R)) (js : list (joint R)) (w : world R) : Prop :=
| engine_history fuel gf (o : oracle R) (hd : handler R) heap dt eps tol fric_dirs ps st w0 ops :
    hd = diff_handler gf o \/ hd = ode_handler o -> broadphase_sane o ->
    NoDup (map b_id bs) -> Forall (built bs) js ->
    world_init o hd heap bs js dt eps tol fric_dirs ps st = Ok w0 ->
    exec fuel o hd (pdipm_engine la mi) ops w0 = Ok w ->
    engine_world la mi bs js w.

(** the same with the callback and broad phase in view, for statements about further calls *)
Inductive session (la : lapack R) (mi : nat) (o : oracle R) (hd : handler R) (bs : list (body R)) (js : list (joint R)) (w : world R) : Prop :=
| session_history fuel gf heap dt eps tol fric_dirs ps st w0 ops :
    hd = diff_handler gf o \/ hd = ode_handler o -> broadphase_sane o ->
    NoDup (map b_id bs) -> Forall (built bs) js -> Forall available bs ->
    world_init o hd heap bs js dt eps tol fric_dirs ps st = Ok w0 ->
    exec fuel o hd (pdipm_engine la mi) ops w0 = Ok w ->
    session la mi o hd bs js w.

(** velocity of the first body of contact [c] relative to the second, at the contact point, when
    the bodies move with the velocities [x] *)
Definition relative_velocity (x : vec R) (c : contact R) : v2 R :=
  v2sub (point_velocity (v3_at x (c_i1 c)) (c_p1 c)) (point_velocity (v3_at x (c_i2 c)) (c_p2 c)).
(** component of the velocity [u] along the direction [d] *)
Definition component (d u : v2 R) : R := fst d * fst u + snd d * snd u.
(** the direction [n] turned by a quarter *)
Definition tangent (n : v2 R) : v2 R := (snd n, - fst n).

(** *** mechanics, by virtual power *)
(** sum over the bodies of I w w' + m v.v': with x = y, twice the kinetic energy *)
Definition kinetic (w : world R) (x y : vec R) : R :=
  Rsum (mapi (fun i b => b_inertia b * (fst (v3_at x i) * fst (v3_at y i)) +
                         b_mass b * component (snd (v3_at x i)) (snd (v3_at y i))) (w_bodies w)).
(** what the constraints measure when the bodies move with [x] (C20) *)
Definition constraint_velocity (w : world R) (x : vec R) : list R :=
  flat_map (fun '(j, i1, i2) =>
              match nth_error (w_bodies w) i1 with
              | None => []
              | Some b1 => measured (j_kind j) (j_pos j) (b_pos b1) (v3_at x i1)
                  (match i2 with
                   | None => None
                   | Some i => match nth_error (w_bodies w) i with
                               | None => None
                               | Some b2 => Some (b_pos b2, v3_at x i)
                               end
                   end)
              end) (w_joints w).
(** power of the impulses (normal, tangential) at the contacts in the motion [x] *)
Definition contact_power (cs : list (contact R)) (imps : list (R * R)) (x : vec R) : R :=
  Rsum (map2 (fun c im => fst im * component (c_normal c) (relative_velocity x c) +
                          snd im * component (tangent (c_normal c)) (relative_velocity x c)) cs imps).
(** Newton's law for a step of length [dt] from [w] with external forces [f] to the velocity [v]:
    in every motion [x] the change of momentum has the power of the external impulses, the impulses
    [imps] at the contacts and [y] in the constraints, and an error [err]. *)
Definition balance (w : world R) (dt : R) (f v : vec R) (imps : list (R * R)) (y err : list R) : Prop :=
  length imps = length (w_contacts w) /\ length y = w_num_constraints w /\
  forall x, length x = (3 * length (w_bodies w))%nat ->
    kinetic w x v = kinetic w x (w_v w) + dt * dot x f + contact_power (w_contacts w) imps x +
                    dot y (constraint_velocity w x) + dot err x.

(** *** the law of contact *)
(** average of the coefficients [f] of the two bodies of a contact *)
Definition mixed (w : world R) (f : body R -> R) (c : contact R) : R :=
  (body_at (w_bodies w) f (c_i1 c) + body_at (w_bodies w) f (c_i2 c)) / 2.
Definition normal_velocity (x : vec R) (c : contact R) : R := component (c_normal c) (relative_velocity x c).
Definition slip_velocity (x : vec R) (c : contact R) : R := component (tangent (c_normal c)) (relative_velocity x c).
(** the response at contact [c] when the velocity changes from [w_v w] to [v]: normal impulse [l],
    friction impulses [b1] and [b2] along the two tangents, slip bound [g]; [r] is the tolerance.
    With r = 0: Newton's restitution law with unilateral contact, and Coulomb's law (inside the cone
    the contact sticks, a sliding contact gets the full friction mu*l against the slip). *)
Record contact_law (r : R) (w : world R) (v : vec R) (c : contact R) (l b1 b2 g : R) : Prop := {
  cl_signs : 0 <= l /\ 0 <= b1 /\ 0 <= b2 /\ 0 <= g;
  cl_normal : - r <= normal_velocity v c + mixed w b_rest c * normal_velocity (w_v w) c;
  cl_compl : l * (normal_velocity v c + mixed w b_rest c * normal_velocity (w_v w) c) <= r * (1 + l);
  cl_cone : b1 + b2 <= mixed w b_fric c * l + r;
  cl_slip : Rabs (slip_velocity v c) <= g + r;
  cl_slide : g * (mixed w b_fric c * l - (b1 + b2)) <= r * (1 + g);
  cl_power : (b1 - b2) * slip_velocity v c + g * (b1 + b2) <= r * (2 + b1 + b2) }.
(** the four multipliers of contact [i] of [nc] in the vector [z] of the LCP *)
Definition multipliers (nc : nat) (z : vec R) (i : nat) : R * R * R * R :=
  (vget z i, vget z (nc + 2 * i), vget z (nc + 2 * i + 1), vget z (3 * nc + i)).
(** the impulses (normal, tangential) at the contacts *)
Definition impulses (nc : nat) (z : vec R) : list (R * R) :=
  map (fun i => let '(l, b1, b2, _) := multipliers nc z i in (l, b1 - b2)) (seq 0 nc).

(** the same law without multipliers: normal impulse [l] >= 0, restitution as a complementarity
    condition, tangential impulse [t] in the friction cone, and maximal against the slip *)
Record coulomb (w : world R) (v : vec R) (c : contact R) (l t : R) : Prop := {
  co_push : 0 <= l;
  co_normal : - mixed w b_rest c * normal_velocity (w_v w) c <= normal_velocity v c;
  co_compl : 0 < l -> normal_velocity v c = - mixed w b_rest c * normal_velocity (w_v w) c;
  co_cone : Rabs t <= mixed w b_fric c * l;
  co_slide : t * slip_velocity v c = - (mixed w b_fric c * l) * Rabs (slip_velocity v c) }.
(** the problem solve_dynamics hands to the LCP solver if there are contacts (engines.py:26-74) *)
Definition engine_problem (w : world R) (dt : R) : res (prob R) :=
  do f <- world_apply_forces w (w_t w);
  contact_problem w (vadd (mv (w_M w) (w_v w)) (vscale dt f)).
(** number of unknowns, inequalities and equalities of that problem *)
Definition solves_engine (w : world R) (dt : R) (it : iter R) : Prop :=
  exists pr, engine_problem w dt = Ok pr /\
    solves_lcp (3 * length (w_bodies w)) (4 * length (w_contacts w)) (w_num_constraints w) pr it.
(** [it] is the point the engine's solver returned for that problem, with residual [r] *)
Definition engine_point (la : lapack R) (mi : nat) (w : world R) (dt : R) (it : iter R) (r : R) : Prop :=
  exists pr xs sv, engine_problem w dt = Ok pr /\
    lcp_forward la (mkOpts (ncst C_1em12) 3 mi) (3 * length (w_bodies w)) (4 * length (w_contacts w)) (w_num_constraints w) [pr] = Ok (Some (xs, sv)) /\
    sv_best sv = [it] /\ r = residual (3 * length (w_bodies w)) pr it.

(** *** energy *)
Definition kinetic_energy (w : world R) (v : vec R) : R := kinetic w v v / 2.
(** three per contact, plus all contact impulses: the factor of the tolerance in the energy bounds *)
Definition slack (nc : nat) (z : vec R) : R :=
  Rsum (map (fun i => let '(l, b1, b2, _) := multipliers nc z i in 3 + l + b1 + b2) (seq 0 nc)).
Definition slip_total (w : world R) (x : vec R) : R := Rsum (map (fun c => Rabs (slip_velocity x c)) (w_contacts w)).

(** *** momentum *)
(** total linear momentum of the bodies of [w] moving with the velocities [v] *)
Definition momentum (w : world R) (v : vec R) : v2 R :=
  (Rsum (mapi (fun i b => b_mass b * fst (snd (v3_at v i))) (w_bodies w)),
   Rsum (mapi (fun i b => b_mass b * snd (snd (v3_at v i))) (w_bodies w))).
(** total angular momentum about the point [o] *)
Definition angular_momentum (o : v2 R) (w : world R) (v : vec R) : R :=
  Rsum (mapi (fun i b => b_inertia b * fst (v3_at v i) +
                         b_mass b * cross_2d (v2sub (b_pos b) o) (snd (v3_at v i))) (w_bodies w)).
(** sum of the forces, and of their torques about [o], in the vector [f] of generalised forces *)
Definition total_force (w : world R) (f : vec R) : v2 R :=
  (Rsum (mapi (fun i _ => fst (snd (v3_at f i))) (w_bodies w)), Rsum (mapi (fun i _ => snd (snd (v3_at f i))) (w_bodies w))).
Definition total_torque (o : v2 R) (w : world R) (f : vec R) : R :=
  Rsum (mapi (fun i b => fst (v3_at f i) + cross_2d (v2sub (b_pos b) o) (snd (v3_at f i))) (w_bodies w)).
(** constraints between two bodies *)
Definition between_bodies (j : joint R) : Prop := (j_kind j = JJoint \/ j_kind j = JFixed) /\ j_b2 j <> None.
(** constraints that cannot push the bodies as a whole *)
Definition pushless (j : joint R) : Prop := between_bodies j \/ j_kind j = JRot.
(** the contact points of the two bodies of every contact are the same point of the plane *)
Definition consistent (w : world R) : Prop :=
  forall c b1 b2, In c (w_contacts w) -> nth_error (w_bodies w) (c_i1 c) = Some b1 -> nth_error (w_bodies w) (c_i2 c) = Some b2 ->
    v2add (b_pos b1) (c_p1 c) = v2add (b_pos b2) (c_p2 c).
(** no contact is between bodies in a degenerate position (C26) *)
Definition regular_contacts (w : world R) : Prop := forall c b1 b2, In c (w_contacts w) ->
  nth_error (w_bodies w) (c_i1 c) = Some b1 -> nth_error (w_bodies w) (c_i2 c) = Some b2 -> ContactSpec.regular b1 b2.
(** calls that do not set the velocity from outside *)
Definition undisturbed (ops : list (op R)) : Prop := Forall (fun x => match x with OSetV _ => False | _ => True end) ops.

(** no impulses in the constraints, except zero, cancel in every motion *)
Definition independent (w : world R) : Prop :=
  forall y, length y = w_num_constraints w ->
    (forall x, length x = (3 * length (w_bodies w))%nat -> dot y (constraint_velocity w x) = 0) ->
    y = vzeros (w_num_constraints w).

(** *** one-body constraints, and the centre of mass *)
(** the poses [p] and [p'] agree in the coordinates a constraint of kind [k] holds *)
Definition held (k : jkind) (p p' : v3 R) : Prop :=
  match k with
  | JX => fst (snd p') = fst (snd p)
  | JY => snd (snd p') = snd (snd p)
  | JRot => fst p' = fst p
  | JTotal => p' = p
  | _ => True
  end.
(** mass times centre of mass *)
Definition mass_centre (w : world R) : v2 R :=
  (Rsum (mapi (fun _ b => b_mass b * fst (b_pos b)) (w_bodies w)), Rsum (mapi (fun _ b => b_mass b * snd (b_pos b)) (w_bodies w))).

(** *** free bodies *)
(** body [i] takes part in no contact and no constraint *)
Definition untouched (w : world R) (i : nat) : Prop :=
  (forall c, In c (w_contacts w) -> c_i1 c <> i /\ c_i2 c <> i) /\
  (forall j i1 i2, In (j, i1, i2) (w_joints w) -> i1 <> i /\ i2 <> Some i).
(** generalised momentum: angular momentum about the centre, and linear momentum, of a body with velocity [u] *)
Definition body_momentum (b : body R) (u : v3 R) : v3 R := (b_inertia b * fst u, v2scale (b_mass b) (snd u)).

(** *** free flight *)
(** acceleration of body [b] by the generalised force [f] (torque, force) *)
Definition acceleration (b : body R) (f : v3 R) : v3 R := (fst f / b_inertia b, v2scale (/ b_mass b) (snd f)).
(** velocity and pose after [m] steps of length [dt] with constant acceleration [a] *)
Definition flight_v (dt : R) (a v0 : v3 R) (m : nat) : v3 R := v3add v0 (v3scale (INR m * dt) a).
Definition flight_p (dt : R) (a p0 v0 : v3 R) (m : nat) : v3 R :=
  v3add (v3add p0 (v3scale (INR m * dt) v0)) (v3scale (INR m * (INR m + 1) / 2 * (dt * dt)) a).
Definition flight_poses (w : world R) (dt : R) (f : vec R) (m : nat) : list (v3 R) :=
  mapi (fun i b => flight_p dt (acceleration b (v3_at f i)) (b_p b) (b_v b) m) (w_bodies w).
(** [b'] is [b] moved *)
Definition moved (b b' : body R) : Prop := exists ps, still b' = still (fold_left set_p ps b).
(** the bodies of [w] have no contacts when they are in the poses [ps] *)
Definition clear_at (o : oracle R) (hd : handler R) (w : world R) (ps : list (v3 R)) : Prop :=
  forall a : world R, Forall2 moved (w_bodies w) (w_bodies a) -> w_eps a = w_eps w -> map b_p (w_bodies a) = ps ->
    contacts_current o hd a -> w_contacts a = [].

(** *** simulations that cannot get stuck *)
(** constraints that do not repeat each other: taken in some order, each one holds a body no other one
    before it touches (so joints make chains and trees, without loops), or is an X, Y or Rot constraint
    on a body that so far has only constraints along other axes *)
Definition touches (j : joint R) (id : nat) : Prop := j_b1 j = id \/ j_b2 j = Some id.
Definition along_axis (k : jkind) : Prop := k = JX \/ k = JY \/ k = JRot.
Definition adds (js : list (joint R)) (j : joint R) : Prop :=
  (exists id, touches j id /\ forall j', In j' js -> ~ touches j' id) \/
  (along_axis (j_kind j) /\ forall j', In j' js -> touches j' (j_b1 j) -> along_axis (j_kind j') /\ j_kind j' <> j_kind j).
Inductive loop_free : list (joint R) -> Prop :=
| loop_free_nil : loop_free []
| loop_free_add l1 j l2 : loop_free (l1 ++ l2) -> adds (l1 ++ l2) j -> loop_free (l1 ++ j :: l2).

(** [w0], just constructed from the bodies [bs] and the constraints [js], is smooth: circles and
    strictly convex polygons of moderate size without friction, positive masses, forces defined at all
    times, joints without loops *)
Record smooth (gf : nat) (bs : list (body R)) (js : list (joint R)) (w0 : world R) : Prop := {
  sm_ids : NoDup (map b_id bs);
  sm_built : Forall (built bs) js;
  sm_available : Forall available bs;
  sm_shapes : Forall (fun b => ContactSpec.tidy b /\ ContactSpec.in_range b /\ (ContactSpec.gjk_rounds b <= gf)%nat) bs;
  sm_masses : Forall (fun b => 0 < b_mass b /\ 0 < b_inertia b) bs;
  sm_frictionless : Forall (fun b => b_fric b = 0) bs;
  sm_joints : loop_free js;
  sm_forces : forall t, exists f, world_apply_forces w0 t = Ok f;
  sm_dt : 0 < w_dt w0;
  sm_dirs : w_fric_dirs w0 = 2%nat;
  sm_strict : w_strict w0 = false }.
