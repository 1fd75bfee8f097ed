(** Games for the refutations of C76 *)
From Coq Require Import List Arith ZArith Bool Floats.
From Verif Require Import Num Tensor Utils Bodies Forces Constraints Contacts World Engines Breakout Game Spec FloatEx.
Import ListNotations.
Open Scope float_scope.

Definition game_hd : handler float := diff_handler 30 pair_oracle.
(** the ball above the right half of the paddle, one unit and a half from it, moving straight down *)
Definition serve : res (world float) := make_world pair_oracle game_hd ([80; 191], [16; 4]) [([20; 60], [8; 6])] ([84; 186], 1) [0; 4].
(** poses of ball and paddle and the ball's velocity after one round without moving the paddle *)
Definition returned : res (v3 float * v3 float * v3 float) :=
  do w <- serve;
  do w1 <- step_breakout 60 pair_oracle game_hd ref_engine w 1 0 0 0;
  match w_bodies w1 with ball :: paddle :: _ => Ok (b_p ball, b_v ball, b_p paddle) | _ => Err EIndex end.
(** angle and first vertex of the paddle after the same round played by simulate_breakout *)
Definition simulated : res (float * v2 float) :=
  do w <- serve;
  do r <- simulate_breakout 60 pair_oracle game_hd ref_engine 0 0 0 w;
  match w_bodies (snd r) with _ :: paddle :: _ => Ok (b_rot paddle, nth 0 (b_verts paddle) v2zero) | _ => Err EIndex end.
(** the ball's column after two rounds, planned and played: it starts one unit from the left wall, moving to the left *)
Definition last3 (v : vec float) : float := nth (length v - 3) v 0.
Definition planned : res float :=
  let x := to_vector ([80; 191], [16; 4]) [([20; 60], [8; 6])] ([10; 120], 1) in
  do y <- forward 60 pair_oracle game_hd ref_engine [-2; 0] 1 0 x 0;
  do z <- forward 60 pair_oracle game_hd ref_engine [-2; 0] 1 0 y 0;
  Ok (last3 z).
Definition played : res float :=
  do w <- make_world pair_oracle game_hd ([80; 191], [16; 4]) [([20; 60], [8; 6])] ([10; 120], 1) [-2; 0];
  do r <- simulate_breakout 60 pair_oracle game_hd ref_engine 0 1 0 w;
  do r <- simulate_breakout 60 pair_oracle game_hd ref_engine 0 1 0 (snd r);
  Ok (last3 (fst r)).
(** three rounds of run_breakout's loop with two actions: the clock and the paddle's column *)
Definition looped : res (float * float) :=
  do w <- make_world pair_oracle game_hd ([80; 191], [16; 4]) [([20; 60], [8; 6])] ([84; 120], 1) [0; 4];
  do w1 <- game_loop 9 60 pair_oracle game_hd ref_engine 3 2 1 [1; 0.5] w;
  match w_bodies w1 with ball :: paddle :: _ => Ok (w_t w1, fst (b_pos paddle)) | _ => Err EIndex end.
