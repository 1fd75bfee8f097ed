(** Model of chain_demo, /repo/demos/demo.py:62-90, up to the call of run_world, without display *)
From Coq Require Import List Arith ZArith Bool.
From Verif Require Import Num Tensor Utils Bodies Forces Constraints Contacts World Game Infer.
Import ListNotations.

Section Chain.
Context {T : Type} {N : Num T}.
Local Open Scope num_scope.

(** demo.py:68 and 73: the i-th rectangle of the chain; velocity 0, mass 1 and friction are the defaults,
    bodies.py:254-256 *)
Definition demo_link (i : nat) : res (body T) :=
  rect_init i [nofZ 300; nofZ (50 + 50 * Z.of_nat i)] (nofZ 20, nofZ 60) [0; 0; 0] 1 (nofZ 9 / nofZ 10) FRIC_COEFF EPSILON.
(** demo.py:72-77, the loop over [is], [prev] being bodies[-2].  Each rectangle gets a Gravity object of its
    own.  The calls of add_no_contact (76) are made in [chain_demo]: nothing before World reads the exclusions. *)
Fixpoint demo_links (is : list nat) (h : fheap T) (prev : body T) : res (fheap T * list (body T) * list (joint T)) :=
  match is with
  | [] => Ok (h, [], [])
  | i :: is' =>
      do r <- demo_link i;
      do hr <- add_force (h ++ [FGrav (nofZ 100) None]) r (length h);
      let '(h1, r1) := hr in
      do rest <- demo_links is' h1 r1;
      let '(h2, rs, js) := rest in
      Ok (h2, r1 :: rs, joint_init r1 (Some prev) (nofZ 300, nofZ (25 + 50 * Z.of_nat i)) :: js)
  end.
(** demo.py:62-90 [chain_demo]: the chain, the projectile (80-82) and the clock (84-85), a disc that turns in
    place with angular velocity 1; World's defaults but for post_stab=True (world.py:23-26) *)
Definition chain_demo (o : oracle T) (hd : handler T) : res (world T) :=
  do r0 <- demo_link 0;
  do ls <- demo_links (seq 1 9) [] r0;
  let '(h, rs, js) := ls in
  do c <- circle_init 10 [nofZ 50; nofZ 500] (nofZ 20) [0; 0; 0] 1 (nofZ 9 / nofZ 10) FRIC_COEFF EPSILON;
  do hc <- add_force (h ++ [FExt hor_impulse (nofZ 2000)]) c (length h);
  do clock <- circle_init 11 [nofZ 975; nofZ 575] (nofZ 20) [1; 0; 0] 1 RESTITUTION FRIC_COEFF EPSILON;
  world_init o hd (fst hc) (fold_left exclude (map (fun i => (i, i - 1)%nat) (seq 1 9)) (r0 :: rs ++ [snd hc; clock]))
             (x_init r0 :: y_init r0 :: js) STEP EPSILON TOL 2 true true.
End Chain.
