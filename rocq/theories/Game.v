(** Model of the simulated Breakout game: /repo/experiments/breakout/encoder.py:148-228
    [make_world], 230-252 the loop of [run_breakout] without display, and
    run_breakout.py:27-44 [simulate_breakout] *)
From Coq Require Import List Arith ZArith Bool.
From Verif Require Import Num Tensor Utils Bodies Forces Constraints Contacts World Breakout.
Import ListNotations.

Section Game.
Context {T : Type} {N : Num T}.
Local Open Scope num_scope.

(** utils.py:17-20 EPSILON = 0.1, TOL = 1e-6; encoder.py:54-58 DT = 1, FRIC_COEFF = 0, BALL_MASS = 1,
    STD_RESTITUTION = 1, STOPPER_RESTITUTION = -1 *)
Definition EPSILON : T := 1 / nofZ 10.
Definition TOL : T := 1 / nofZ 1000000.
Definition DT : T := 1.

(** a sequence of two numbers as a vector *)
Definition pair_of (l : list T) : res (v2 T) :=
  match l with [a; b] => Ok (a, b) | _ => Err EShape end.
(** Rect(pos, dims, restitution=rest, fric_coeff=FRIC_COEFF): velocity 0 and mass 1 by default,
    bodies.py:254-256 *)
Definition game_rect (id : nat) (p : rect_params (T := T)) (rest : T) : res (body T) :=
  do d <- pair_of (snd p);
  rect_init id (fst p) d [0; 0; 0] 1 rest 0 EPSILON.

(** encoder.py:172-207 with WALL_WIDTH = STOPPER_WIDTH = 8, ROOF_LINE = 31, STOPPER_LINE = 189,
    STOPPER_HEIGHT = 6, SCREEN_WIDTH = 160: left wall, right wall, roof, left stopper, right stopper *)
Definition furniture : list (rect_params (T := T) * T) :=
  [ (([nofZ 8 / nofZ 2; nofZ 189 / nofZ 2], [nofZ 8; nofZ 189]), 1);
    (([nofZ 160 - nofZ 8 / nofZ 2; (nofZ 189 + nofZ 6) / nofZ 2], [nofZ 8; nofZ 189 + nofZ 6]), 1);
    (([nofZ 160 / nofZ 2; nofZ 31 / nofZ 2], [nofZ 160 - nofZ 2 * nofZ 8; nofZ 31]), 1);
    (([nofZ 8 / nofZ 2; nofZ 189 + nofZ 6 / nofZ 2], [nofZ 8; nofZ 6]), - (1));
    (([nofZ 160 + nofZ 8 / nofZ 2; nofZ 189 + nofZ 6 / nofZ 2], [nofZ 8; nofZ 6]), - (1)) ].

(** encoder.py:214 and the lookup BLOCK_COLORS[level] of 218: [int] cuts towards 0 and a negative
    index counts from the end of the six colours, so that the lookup succeeds exactly for a quotient
    in (-7, 6).  (On a NaN or infinity [int] raises ValueError or OverflowError.) *)
Definition block_level (p : rect_params (T := T)) : res unit :=
  match nth_error (fst p) 1, nth_error (snd p) 1 with
  | Some y, Some h =>
      let q := (y - h / nofZ 2 - nofZ 57) / nofZ 6 in
      if (nofZ (-7) <? q) && (q <? nofZ 6) then Ok tt else Err EIndex
  | _, _ => Err EIndex
  end.

(** b.add_no_contact(other) for the bodies at positions i and j (of different objects) *)
Definition exclude (bs : list (body T)) (ij : nat * nat) : list (body T) :=
  match nth_error bs (fst ij), nth_error bs (snd ij) with
  | Some bi, Some bj => let '(bi', bj') := add_no_contact bi bj in upd (upd bs (fst ij) bi') (snd ij) bj'
  | _, _ => bs
  end.
(** the calls of add_no_contact, encoder.py:176-226; positions: 0 ball, 1 paddle, 2 left wall, 3 right
    wall, 4 roof, 5 left stopper, 6 right stopper, from 7 on the blocks *)
Definition exclusions (blocks : nat) : list (nat * nat) :=
  [(2, 1); (1, 3); (4, 1); (4, 2); (4, 3); (5, 2); (5, 0); (6, 3); (6, 0)]%nat ++
  flat_map (fun k => [(7 + k, 2); (7 + k, 3)]%nat ++ map (fun j => (7 + k, 7 + j)%nat) (seq 0 k)) (seq 0 blocks).

(** encoder.py:148-228 [make_world].  The contact exclusions change nothing the constructors read, so
    they are made after all bodies are there.  The ball, the paddle and the blocks the code also returns are the bodies 0, 1 and
    7, 8, ..., the paddle's index is 1. *)
Definition make_world (o : oracle T) (hd : handler T) (paddle : rect_params (T := T)) (blocks : list rect_params)
           (ball : ball_params) (ball_vel : list T) : res (world T) :=
  do b0 <- circle_init 0 (fst ball) (snd ball) ball_vel 1 1 0 EPSILON;
  do b1 <- game_rect 1 paddle 1;
  do walls <- mapM (fun '(id, (p, rest)) => game_rect id p rest) (combine (seq 2 5) furniture);
  do bricks <- mapM (fun '(id, p) => do _ <- block_level p; game_rect id p 1) (combine (seq 7 (length blocks)) blocks);
  let fixed := walls ++ bricks in
  world_init o hd [] (fold_left exclude (exclusions (length blocks)) (b0 :: b1 :: fixed)) (map total_init fixed)
             DT EPSILON TOL 2 false true.

(** encoder.py:244-254, the loop of [run_breakout] without display: one action per round, -0.1 when
    there are none left *)
Fixpoint game_loop (fuel lfuel : nat) (o : oracle T) (hd : handler T) (e : engine T) (run_time paddle_vel : T)
         (paddle_idx : nat) (actions : list T) (w : world T) : res (world T) :=
  match fuel with
  | O => Err EFuel
  | S fuel' =>
    if w_t w <? run_time then
      let a := match actions with a :: _ => a | [] => - (1 / nofZ 10) end in
      do w1 <- set_v w (upd (w_v w) (3 * paddle_idx + 1) (paddle_vel * a));
      do w2 <- step lfuel o hd e true w1;
      game_loop fuel' lfuel o hd e run_time paddle_vel paddle_idx (tl actions) w2
    else Ok w
  end.

(** body.dims of a Rect *)
Definition b_dims (b : body T) : v2 T := match b_kind b with KRect d _ _ => d | _ => v2zero end.
(** run_breakout.py:30-33: what [simulate_breakout] reads.  torch.cat of no blocks raises *)
Definition game_vector (w : world T) : res (vec T) :=
  match w_bodies w with
  | ball :: paddle :: rest =>
    match skipn 5 rest with
    | [] => Err EValue
    | blocks => Ok ([fst (b_pos paddle); snd (b_pos paddle); fst (b_dims paddle); snd (b_dims paddle)] ++
                    flat_map (fun b => [fst (b_pos b); snd (b_pos b); fst (b_dims b); snd (b_dims b)]) blocks ++
                    [fst (b_pos ball); snd (b_pos ball); b_rad ball])
    end
  | _ => Err EIndex
  end.
(** run_breakout.py:37-43: the attributes p (angle 0), dims and rad are overwritten; neither the
    vertices nor the geom are *)
Definition put_rect (b : body T) (p : rect_params (T := T)) : body T :=
  let k := match b_kind b with
           | KRect _ vs l => KRect (vget (snd p) 0, vget (snd p) 1) vs l
           | k => k
           end in
  {| b_id := b_id b; b_kind := k; b_p := (0, (vget (fst p) 0, vget (fst p) 1)); b_v := b_v b; b_mass := b_mass b;
     b_inertia := b_inertia b; b_fric := b_fric b; b_rest := b_rest b; b_eps := b_eps b;
     b_forces := b_forces b; b_geom := b_geom b |}.
Definition put_ball (b : body T) (p : ball_params (T := T)) : body T :=
  let k := match b_kind b with KCircle _ => KCircle (snd p) | k => k end in
  {| b_id := b_id b; b_kind := k; b_p := (0, (vget (fst p) 0, vget (fst p) 1)); b_v := b_v b; b_mass := b_mass b;
     b_inertia := b_inertia b; b_fric := b_fric b; b_rest := b_rest b; b_eps := b_eps b;
     b_forces := b_forces b; b_geom := b_geom b |}.
Definition put_all (v : vec T) (bs : list (body T)) : list (body T) :=
  let '(paddle', blocks', ball') := from_vector v in
  match bs with
  | ball :: paddle :: rest =>
      put_ball ball ball' :: put_rect paddle paddle' :: firstn 5 rest ++ map2 put_rect (skipn 5 rest) blocks'
  | bs => bs
  end.
(** run_breakout.py:27-44 [simulate_breakout] *)
Definition simulate_breakout (fuel : nat) (o : oracle T) (hd : handler T) (e : engine T) (action vel_x vel_y : T)
           (w : world T) : res (vec T * world T) :=
  do w1 <- step_breakout fuel o hd e w 1 action vel_x vel_y;
  do v <- game_vector w1;
  Ok (v, with_bodies w1 (put_all v (w_bodies w1))).

(** run_breakout.py:72-90 [BreakoutDynamics.forward]: the dynamics handed to the planner -- a new world
    for the state x, one action, the new state *)
Definition forward (fuel : nat) (o : oracle T) (hd : handler T) (e : engine T) (ball_vel : list T) (vel_x vel_y : T)
           (x : vec T) (u : T) : res (vec T) :=
  let '(paddle, blocks, ball) := from_vector x in
  do w <- make_world o hd paddle blocks ball ball_vel;
  do r <- simulate_breakout fuel o hd e u vel_x vel_y w;
  Ok (fst r).

End Game.
