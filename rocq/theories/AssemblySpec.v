(** Bodies held together by FixedJoints, as one rigid body (specification for C81) *)
From Coq Require Import List Arith Bool Reals.
From Verif Require Import Num Tensor Utils Bodies Constraints Contacts World LinAlg Spec GeoSpec JointSpec EngineSpec ImpactSpec.
Import ListNotations.
Open Scope R_scope.

(** bodies [i] and [k] of the world are connected by FixedJoints, directly or through other bodies *)
Inductive together (w : world R) (i : nat) : nat -> Prop :=
| together_self : together w i i
| together_tied j k l : together w i k -> In (j, k, Some l) (w_joints w) \/ In (j, l, Some k) (w_joints w) -> j_kind j = JFixed -> together w i l.
(** [G] is an assembly: its bodies (given by their positions in world.bodies) are connected by
    FixedJoints, and no constraint ties one of them to the ground or to a body outside *)
Record assembly (w : world R) (G : nat -> bool) : Prop := {
  as_together : forall i k, G i = true -> G k = true -> together w i k;
  as_free : forall j i1 i2, In (j, i1, i2) (w_joints w) -> match i2 with Some k => G i1 = G k | None => G i1 = false end }.

(** sum over the bodies of the assembly *)
Definition over (w : world R) (G : nat -> bool) (g : nat -> body R -> R) : R :=
  Rsum (mapi (fun i b => if G i then g i b else 0) (w_bodies w)).
Definition total_mass (w : world R) (G : nat -> bool) : R := over w G (fun _ b => b_mass b).
Definition centre (w : world R) (G : nat -> bool) : v2 R :=
  (over w G (fun _ b => b_mass b * fst (b_pos b)) / total_mass w G, over w G (fun _ b => b_mass b * snd (b_pos b)) / total_mass w G).
Definition arm (w : world R) (G : nat -> bool) (b : body R) : v2 R := v2sub (b_pos b) (centre w G).
(** moment of inertia about the centre (Steiner) *)
Definition total_inertia (w : world R) (G : nat -> bool) : R :=
  over w G (fun _ b => b_inertia b + b_mass b * component (arm w G b) (arm w G b)).
(** momentum and angular momentum about the centre, when the bodies move with [v] *)
Definition assembly_momentum (w : world R) (G : nat -> bool) (v : vec R) : v2 R :=
  (over w G (fun i b => b_mass b * fst (snd (v3_at v i))), over w G (fun i b => b_mass b * snd (snd (v3_at v i)))).
Definition assembly_spin (w : world R) (G : nat -> bool) (v : vec R) : R :=
  over w G (fun i b => b_inertia b * fst (v3_at v i) + b_mass b * cross_2d (arm w G b) (snd (v3_at v i))).
(** force, and torque about the centre, of the generalised forces [f] *)
Definition assembly_force (w : world R) (G : nat -> bool) (f : vec R) : v2 R :=
  (over w G (fun i b => fst (snd (v3_at f i))), over w G (fun i b => snd (snd (v3_at f i)))).
Definition assembly_torque (w : world R) (G : nat -> bool) (f : vec R) : R :=
  over w G (fun i b => fst (v3_at f i) + cross_2d (arm w G b) (snd (v3_at f i))).
(** impulse, and moment of it about the centre, that body [i] of a contact gets if it belongs to the
    assembly: [J] at the point [p] seen from the body *)
Definition share (w : world R) (G : nat -> bool) (i : nat) (p J : v2 R) : v3 R :=
  match nth_error (w_bodies w) i with
  | Some b => if G i then (cross_2d (v2add (arm w G b) p) J, J) else (0, (0, 0))
  | None => (0, (0, 0))
  end.
(** all the contacts together: the first body of each gets the impulse, the second one the opposite *)
Fixpoint contact_shares (w : world R) (G : nat -> bool) (cs : list (contact R)) (imps : list (R * R)) : v3 R :=
  match cs, imps with
  | c :: cs', im :: imps' =>
      let J := impulse_of (c_normal c) (fst im) (snd im) in
      v3add (v3add (share w G (c_i1 c) (c_p1 c) J) (share w G (c_i2 c) (c_p2 c) (v2scale (-1) J))) (contact_shares w G cs' imps')
  | _, _ => (0, (0, 0))
  end.
(** the assembly moves like one rigid body, with the velocity [u] = (angular, linear) of its centre *)
Definition moves_as_one (w : world R) (G : nat -> bool) (u : v3 R) (v : vec R) : Prop :=
  forall i b, nth_error (w_bodies w) i = Some b -> G i = true -> v3_at v i = (fst u, point_velocity u (arm w G b)).
(** the impulses (angular, linear) that bring a body of mass [m] and inertia [I] from the momenta [before] to the velocity [u] *)
Definition newton_euler (m I : R) (before impulse u : v3 R) : Prop :=
  v2scale m (snd u) = v2add (snd before) (snd impulse) /\ I * fst u = fst before + fst impulse.
(** what the inertia owes to the distances of the bodies from the centre *)
Definition spread (w : world R) (G : nat -> bool) : R := over w G (fun _ b => b_mass b * component (arm w G b) (arm w G b)).
