(** Newton's motion of a free body, and how far from it a simulated body may be (specification for C82) *)
From Coq Require Import List Arith Bool Reals.
From Verif Require Import Num Tensor Bodies Forces Constraints Contacts World Lapack Pdipm Engines Spec EngineSpec StaticsSpec LapackSpec.
Import ListNotations.
Open Scope R_scope.

(** the coordinates of a pose or velocity: angle, x, y *)
Inductive coordinate : Type := Turn | Along_x | Along_y.
Definition coord (c : coordinate) (q : v3 R) : R := match c with Turn => fst q | Along_x => fst (snd q) | Along_y => snd (snd q) end.
(** [P] is the motion with acceleration [acc] between the times [t0] and [t1], and [V] its velocity *)
Definition newton (acc P V : R -> v3 R) (t0 t1 : R) : Prop :=
  forall t c, t0 <= t <= t1 -> derivable_pt_lim (fun s => coord c (P s)) t (coord c (V t)) /\ derivable_pt_lim (fun s => coord c (V s)) t (coord c (acc t)).
(** no coordinate of the acceleration exceeds [A] or changes faster than [L] *)
Definition bounded_by (acc : R -> v3 R) (A L t0 t1 : R) : Prop :=
  (forall t c, t0 <= t <= t1 -> Rabs (coord c (acc t)) <= A) /\
  (forall s t c, t0 <= s <= t1 -> t0 <= t <= t1 -> Rabs (coord c (acc s) - coord c (acc t)) <= L * Rabs (s - t)).
(** all coordinates agree up to [e] *)
Definition within (e : R) (a b : v3 R) : Prop := forall c, Rabs (coord c a - coord c b) <= e.
(** energy of a free body under the constant force [f]: kinetic energy and the potential of the force *)
Definition energy (b : body R) (f p v : v3 R) : R :=
  (b_inertia b * (fst v * fst v) + b_mass b * (fst (snd v) * fst (snd v) + snd (snd v) * snd (snd v))) / 2
  - (fst f * fst p + fst (snd f) * fst (snd p) + snd (snd f) * snd (snd p)).
(** Newton's motion under the constant acceleration [a] *)
Definition parabola (p v a : v3 R) (t : R) : v3 R := v3add (v3add p (v3scale t v)) (v3scale (t * t / 2) a).
(** a run of [step] calls in which body [i] moves freely: the forces are [F t] at time [t], the
    bodies of constraints are at rest in balance or move alike, and no two bodies come near each other (see C79) *)
Inductive free_run (la : lapack R) (mi : nat) (o : oracle R) (hd : handler R) (bs : list (body R)) (js : list (joint R)) (F : R -> vec R) (w w' : world R) (i n : nat) : Prop :=
| fr_run rest fuel fixed :
    lapack_ok la ->
    session la mi o hd bs js w ->
    Forall (fun b : body R => 0 < b_mass b /\ 0 < b_inertia b) bs ->
    0 < w_dt w ->
    (forall t, world_apply_forces w t = Ok (F t)) ->
    jointed w rest F ->
    (forall m, (m < n)%nat -> in_balance w rest (F (w_t w + INR m * w_dt w))) ->
    (forall m, (m <= n)%nat -> clear_at o hd w (map fst (coasting w rest F m))) ->
    length fixed = n ->
    exec fuel o hd (pdipm_engine la mi) (map (@OStep R) fixed) w = Ok w' ->
    rest i = false ->
    free_run la mi o hd bs js F w w' i n.
