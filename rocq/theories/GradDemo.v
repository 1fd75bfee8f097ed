(** Model of the gradient demo /repo/demos/grad_demo.py without display: 84-104 [make_world] and
    20-81 [grad_demo].  Not modelled: printing and plotting, the recorder (it is None). *)
From Coq Require Import List Arith ZArith Bool.
From Verif Require Import Num Tensor Utils Bodies Forces Constraints Contacts World Game Infer.
Import ListNotations.

Section GradDemo.
Context {T : Type} {N : Num T}.
Local Open Scope num_scope.

(** grad_demo.py:26 and 42, the function [learned_force] while the variable [initial_force] is [f] *)
Definition learned_force (f : v3 T) (t : T) : v3 T := if t <? ncst C_0_1 then f else ZEROS.
(** Circle([x, y], 30) with the defaults of bodies.py:117-118 and 15-17: at rest, mass 1 *)
Definition ball (id : nat) (x y : Z) : res (body T) :=
  circle_init id [nofZ x; nofZ y] (nofZ 30) [0; 0; 0] 1 RESTITUTION FRIC_COEFF EPSILON.
(** grad_demo.py:84-104 [make_world]: the bodies are target, c1, c2; ExternalForce's multiplier is 100
    (forces.py:40) and the world has the defaults of world.py:19-22.  The contact exclusions (96, 101)
    change nothing the constructors read, so they are made after all bodies are there. *)
Definition make_world (o : oracle T) (hd : handler T) (f : v3 T) : res (world T) :=
  do target <- ball 0 500 300;
  do c1 <- ball 1 250 210;
  do hc <- add_force [FExt (learned_force f) (nofZ 100)] c1 0;
  let '(h, c1') := hc in
  do c2 <- ball 2 400 250;
  world_init o hd h (fold_left exclude [(1, 0); (2, 0)]%nat [target; c1'; c2]) [] STEP EPSILON TOL 2 false true.

Section Learn.
Variables (fuel lfuel : nat) (o : oracle T) (hd : handler T) (e : engine T).

(** grad_demo.py:44-50 (and 27-33, 72-78): a new world is run for TIME = 7 *)
Definition run (f : v3 T) : res (world T) :=
  do w <- make_world o hd f; run_world fuel lfuel o hd e (nofZ 7) w.
(** grad_demo.py:52 [(target.pos - c.pos).norm()], c being c2 (104) *)
Definition distance (w : world T) : res T :=
  match nth_error (w_bodies w) 0, nth_error (w_bodies w) 2 with
  | Some target, Some c => Ok (v2norm (v2sub (b_pos target) (b_pos c)))
  | _, _ => Err EIndex
  end.
(** what is measured in one round *)
Definition measure (f : v3 T) : res T := do w <- run f; distance w.

(** grad_demo.py:41-70, the loop with [iters] rounds left.  [grad f] stands for what dist.backward()
    leaves in initial_force.grad (53-54); [dist] is what the variable of that name holds.  The results are
    the last value of [initial_force], [dist_hist] and [dist].  The assignment to [initial_force] (56) is
    seen by the lambda of 42, which refers to the variable. *)
Fixpoint learn (grad : v3 T -> v3 T) (iters : nat) (rate last_dist : T) (hist : list T) (dist : T) (f : v3 T) : res (v3 T * list T * T) :=
  match iters with
  | O => Ok (f, hist, dist)
  | S iters' =>
      do d <- measure f;
      let g := v3scale rate (grad f) in
      let f' := (fst f - fst g, v2sub (snd f) (snd g)) in
      if nabs (last_dist - d) <? 1 / nofZ 100000 then Ok (f', hist, d)
      else learn grad iters' (rate * (nofZ 9 / nofZ 10)) d (hist ++ [d]) d f'
  end.
(** grad_demo.py:20-81: a first run (33), up to 100 rounds from learning rate 0.001 and last_dist = 1e10
    (35-39), and a last run (72-78).  The results are the last force, the world of the last run, the
    number printed at the end (79-80: [target] and [c] still are those of the last round) and [dist_hist]. *)
Definition grad_demo (grad : v3 T -> v3 T) (f0 : v3 T) : res (v3 T * world T * T * list T) :=
  do _ <- run f0;
  do r <- learn grad 100 (1 / nofZ 1000) (nofZ 10000000000) [] 0 f0;
  let '(f, hist, d) := r in
  do w <- run f;
  Ok (f, w, d, hist).
End Learn.
End GradDemo.
