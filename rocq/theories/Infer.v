(** Model of the mass-inference experiment /repo/experiments/inference.py: 97-128 [make_world],
    131-165 [positions_run_world] without display, and the loss of 50-61, 80-83 *)
From Coq Require Import List Arith ZArith Bool.
From Verif Require Import Num Tensor Utils Bodies Forces Constraints Contacts World Game.
Import ListNotations.

Section Infer.
Context {T : Type} {N : Num T}.
Local Open Scope num_scope.

(** utils.py:22-28: RESTITUTION = 0.5, FRIC_COEFF = 0.9, DT = 1/30 *)
Definition RESTITUTION : T := 1 / nofZ 2.
Definition FRIC_COEFF : T := nofZ 9 / nofZ 10.
Definition STEP : T := 1 / nofZ 30.

(** inference.py:102-104 and 107-110: the i-th link; velocity 0 by default, bodies.py:254-256 *)
Definition link (mass : T) (num_links i : nat) : res (body T) :=
  rect_init i [nofZ 300; nofZ (50 + 50 * Z.of_nat i)] (nofZ 20, nofZ 60) [0; 0; 0] (mass / nofZ (Z.of_nat num_links))
            RESTITUTION FRIC_COEFF EPSILON.
(** inference.py:106-113, the loop over the links [is], [prev] being the link before them.  Each gets a
    Gravity object of its own.  The calls of add_no_contact (114) are made in [make_world]. *)
Fixpoint links (mass : T) (num_links : nat) (is : list nat) (h : fheap T) (prev : body T)
  : res (fheap T * list (body T) * list (joint T)) :=
  match is with
  | [] => Ok (h, [], [])
  | i :: is' =>
      do r <- link mass num_links i;
      do hr <- add_force (h ++ [FGrav (nofZ 100) None]) r (length h);
      let '(h1, r1) := hr in
      do rest <- links mass num_links is' h1 r1;
      let '(h2, rs, js) := rest in
      Ok (h2, r1 :: rs, joint_init r1 (Some prev) (nofZ 300, nofZ (25 + 50 * Z.of_nat i)) :: js)
  end.
(** inference.py:121-122 with m = 3: an ExternalForce object per force function *)
Fixpoint push (forces : list (T -> v3 T)) (h : fheap T) (c : body T) : res (fheap T * body T) :=
  match forces with
  | [] => Ok (h, c)
  | f :: forces' =>
      do hc <- add_force (h ++ [FExt f (nofZ 1500)]) c (length h);
      let '(h1, c1) := hc in push forces' h1 c1
  end.
(** inference.py:97-128 [make_world] for num_links >= 1 (with 0 the mass of the only link would be
    mass / 0).  The bodies are the links from the top, then the projectile.  The contact exclusions change nothing the constructors read, so they are made after all bodies are there;
    Circle's friction is the default.  The last link, which the code also returns, is the one before the projectile. *)
Definition make_world (o : oracle T) (hd : handler T) (forces : list (T -> v3 T)) (mass : T) (num_links : nat) : res (world T) :=
  do r0 <- link mass num_links 0;
  do ls <- links mass num_links (seq 1 (num_links - 1)) [] r0;
  let '(h, rs, js) := ls in
  let chain := r0 :: rs in
  do c <- circle_init (length chain) [nofZ 50; snd (b_pos (last chain r0))] (nofZ 20) [0; 0; 0] 1 1 FRIC_COEFF EPSILON;
  do hc <- push forces h c;
  let '(h', c') := hc in
  world_init o hd h' (fold_left exclude (map (fun i => (i, i - 1)%nat) (seq 1 (num_links - 1))) (chain ++ [c']))
             (joint_init r0 None (nofZ 300, nofZ 30) :: js) STEP EPSILON TOL 2 true true.

(** torch.cat([b.p for b in world.bodies]) *)
Definition frame (w : world T) : vec T := cat3 (map b_p (w_bodies w)).
(** inference.py:131-165 [positions_run_world] with screen=None: the frame at the start and one after every step *)
Fixpoint positions_run_world (fuel lfuel : nat) (o : oracle T) (hd : handler T) (e : engine T) (run_time : T) (w : world T)
  : res (list (vec T) * world T) :=
  match fuel with
  | O => Err EFuel
  | S fuel' =>
      if w_t w <? run_time then
        do w1 <- step lfuel o hd e false w;
        do r <- positions_run_world fuel' lfuel o hd e run_time w1;
        Ok (frame w :: fst r, snd r)
      else Ok ([frame w], w)
  end.
(** inference.py:52-55 and 78-82: torch.cat of the frames, both clipped to the shorter length, and
    MSELoss, the mean of the squares of the differences *)
Definition loss (positions ground_truth : list (vec T)) : T :=
  let p := concat positions in
  let g := concat ground_truth in
  let p' := firstn (length g) p in
  let g' := firstn (length p') g in
  vsum (map (fun a => a * a) (vsub p' g')) / nofZ (Z.of_nat (length p')).
End Infer.
