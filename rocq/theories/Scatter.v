(** Model of debug_demo and fric_demo, /repo/demos/demo.py:16-59 and 117-154, up to the calls of run_world, without display *)
From Coq Require Import List Arith ZArith Bool.
From Verif Require Import Num Tensor Utils Bodies Forces Constraints Contacts World Game Infer.
Import ListNotations.

Section Scatter.
Context {T : Type} {N : Num T}.
Local Open Scope num_scope.

(** Circle([x, y], r) with the defaults of bodies.py: velocity 0, mass 1, restitution and friction *)
Definition ball_20 (id : nat) (x y : Z) : res (body T) :=
  circle_init id [nofZ x; nofZ y] (nofZ 20) [0; 0; 0] 1 RESTITUTION FRIC_COEFF EPSILON.
(** demo.py:55, 84 and 148: the clock, a disc that turns in place *)
Definition clock_ball (id : nat) : res (body T) :=
  circle_init id [nofZ 975; nofZ 575] (nofZ 20) [1; 0; 0] 1 RESTITUTION FRIC_COEFF EPSILON.
(** demo.py:16-59 [debug_demo].  The force objects: 0 and 3 are vertical impulses, 1, 2 and 4 Gravity. *)
Definition debug_demo (o : oracle T) (hd : handler T) : res (world T) :=
  let h := [FExt vert_impulse (nofZ 500); FGrav (nofZ 100) None; FGrav (nofZ 100) None; FExt vert_impulse (nofZ 500); FGrav (- nofZ 100) None] in
  do c0 <- ball_20 0 150 150;
  do f0 <- add_force h c0 0;
  do c1 <- ball_20 1 150 230;
  do c2 <- ball_20 2 300 150;
  do f2 <- add_force (fst f0) c2 1;
  do c3 <- ball_20 3 301 230;
  do c4 <- ball_20 4 225 300;
  do f4 <- add_force (fst f2) c4 2;
  do c5 <- ball_20 5 215 380;
  do c6 <- ball_20 6 375 300;
  do f6 <- add_force (fst f4) c6 3;
  do c7 <- ball_20 7 375 380;
  do r <- rect_init 8 [nofZ 300; nofZ 500] (nofZ 40, nofZ 40) [- (1); 0; 0] 1 RESTITUTION FRIC_COEFF EPSILON;
  do fr <- add_force (fst f6) r 4;
  do clock <- clock_ball 9;
  world_init o hd (fst fr) [snd f0; c1; snd f2; c3; snd f4; c5; snd f6; c7; snd fr; clock]
             [joint_init c1 None (nofZ 140, nofZ 220); total_init c3] STEP EPSILON TOL 2 true true.

(** demo.py:124-128 *)
Definition timed_force (t : T) : v3 T := if (1 <? t) && (t <? nofZ 2) then RIGHT else ZEROS.
(** demo.py:117-154 [fric_demo].  The force objects: 0 is the timed push, 1 and 2 are Gravity. *)
Definition fric_demo (o : oracle T) (hd : handler T) : res (world T) :=
  let restitution := 1 / nofZ 10 in
  let h := [FExt timed_force (nofZ 100); FGrav (nofZ 100) None; FGrav (nofZ 100) None] in
  do r <- rect_init 0 [nofZ 400; nofZ 400] (nofZ 900, nofZ 10) [0; 0; 0] 1 restitution 1 EPSILON;
  do f0 <- add_force h r 0;
  do f1 <- add_force (fst f0) (snd f0) 1;
  do c1 <- circle_init 1 [nofZ 200; nofZ 364] (nofZ 30) [0; 0; 0] 1 restitution 1 EPSILON;
  do f2 <- add_force (fst f1) c1 2;
  do c2 <- circle_init 2 [nofZ 50; nofZ 436] (nofZ 30) [0; 0; 0] 1 restitution 1 EPSILON;
  do c3 <- circle_init 3 [nofZ 800; nofZ 436] (nofZ 30) [0; 0; 0] 1 restitution 1 EPSILON;
  do clock <- clock_ball 4;
  world_init o hd (fst f2) [snd f1; snd f2; c2; c3; clock]
             [x_init c2; y_init c2; x_init c3; y_init c3] STEP EPSILON TOL 2 true true.
End Scatter.
