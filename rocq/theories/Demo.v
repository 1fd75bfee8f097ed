(** Model of demos /repo/demos/demo.py, without display *)
From Coq Require Import List Arith ZArith Bool.
From Verif Require Import Num Tensor Utils Bodies Forces Constraints Contacts World Game Infer.
Import ListNotations.

Section Demo.
Context {T : Type} {N : Num T}.
Local Open Scope num_scope.

(** demo.py:93-116 [slide_demo] up to the call of run_world; [pi] is math.pi.  Velocity 0 and mass 1 are
    the defaults of Rect, bodies.py:254-256; Defaults.RESTITUTION, DT = Defaults.DT and World's
    defaults (utils.py:17-44, world.py:23-26): eps, tol, 2 friction directions, no post-stabilisation, strict. *)
Definition slide_demo (pi : T) (o : oracle T) (hd : handler T) : res (world T) :=
  let fric_coeff := nofZ 15 / nofZ 100 in
  let inclination := pi / nofZ 32 in
  do r <- rect_init 0 [inclination; nofZ 500; nofZ 300] (nofZ 900, nofZ 10) [0; 0; 0] 1 RESTITUTION fric_coeff EPSILON;
  do b <- rect_init 1 [nofZ 100; nofZ 100] (nofZ 60, nofZ 60) [0; 0; 0] 1 RESTITUTION fric_coeff EPSILON;
  do hb <- add_force [FGrav (nofZ 100) None] b 0;
  world_init o hd (fst hb) [r; snd hb] [total_init r] STEP EPSILON TOL 2 false true.

(** fixed_joint_demo.py:17-43 up to the call of run_world; the two Gravity objects are 0 and 1 *)
Definition fixed_joint_demo (pi : T) (o : oracle T) (hd : handler T) : res (world T) :=
  let restitution := nofZ 5 / nofZ 10 in
  let fric_coeff := nofZ 15 / nofZ 100 in
  do r <- rect_init 0 [nofZ 120; nofZ 100] (nofZ 60, nofZ 60) [0; 0; 0] 1 restitution fric_coeff EPSILON;
  do hr <- add_force [FGrav (nofZ 100) None; FGrav (nofZ 100) None] r 0;
  do r2 <- rect_init 1 [nofZ 160; nofZ 100] (nofZ 60, nofZ 60) [0; 0; 0] 1 restitution fric_coeff EPSILON;
  let j := fixed_init (snd hr) r2 in
  let '(r2, r) := add_no_contact r2 (snd hr) in
  do hr2 <- add_force (fst hr) r2 1;
  let inclination := pi / nofZ 32 in
  do p <- rect_init 2 [inclination; nofZ 500; nofZ 500] (nofZ 900, nofZ 10) [0; 0; 0] 1 restitution fric_coeff EPSILON;
  world_init o hd (fst hr2) [r; snd hr2; p] [j; total_init p] STEP EPSILON TOL 2 false true.
End Demo.
