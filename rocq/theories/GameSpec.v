(** The simulated Breakout game (specification for C76) *)
From Coq Require Import List Arith ZArith Bool Reals.
From Verif Require Import Num Tensor Bodies Contacts World Lapack Engines Breakout Game Spec GeoSpec ScreenSpec.
Import ListNotations.
Open Scope R_scope.

(** a disc with its centre and radius, or a rectangle from left to right and from top to bottom *)
Inductive piece := Disc (c : pt) (r : R) | Box (left right top bottom : R).
Definition in_piece (s : piece) (q : pt) : Prop :=
  match s with
  | Disc c r => dist q c <= r
  | Box x0 x1 y0 y1 => x0 <= fst q <= x1 /\ y0 <= snd q <= y1
  end.
(** the body covers exactly the points of the piece *)
Definition fills (b : body R) (s : piece) : Prop := forall q, body_points b q <-> in_piece s q.

(** a rectangle given by centre and size, a disc given by centre and radius *)
Definition plain (p : rect_params (T := R)) : Prop := exists x y w h, p = ([x; y], [w; h]) /\ 0 < w /\ 0 < h.
Definition box_of (p : rect_params (T := R)) : piece :=
  let x := nth 0 (fst p) 0 in let y := nth 1 (fst p) 0 in let w := nth 0 (snd p) 0 in let h := nth 1 (snd p) 0 in
  Box (x - w / 2) (x + w / 2) (y - h / 2) (y + h / 2).
Definition plain_ball (p : ball_params (T := R)) : Prop := exists x y, fst p = [x; y].
Definition disc_of (p : ball_params (T := R)) : piece := Disc (nth 0 (fst p) 0, nth 1 (fst p) 0) (snd p).

(** the pieces of a game: ball, paddle, left wall, right wall, roof, left stopper, right stopper, blocks *)
Definition board (paddle : rect_params (T := R)) (blocks : list (rect_params (T := R))) (ball : ball_params (T := R)) : list piece :=
  [ disc_of ball; box_of paddle;
    Box 0 8 0 189; Box 152 160 0 195; Box 8 152 0 31; Box 0 8 189 195; Box 160 168 189 195 ] ++ map box_of blocks.

(** the ball may touch the paddle, the walls, the roof and the blocks; the paddle also the stoppers and
    the blocks *)
Definition may_touch (i j : nat) : Prop :=
  i = 0%nat /\ (1 <= j <= 4 \/ 7 <= j)%nat \/ i = 1%nat /\ (5 <= j)%nat.

(** [w]: a state of the game that starts with the world [w0], when the package's engine and contact
    callback run it *)
Inductive game (la : lapack R) (mi gf : nat) (o : oracle R) (w0 : world R) : world R -> Prop :=
| game_start : game la mi gf o w0 w0
| game_action fuel w w' a vx vy :
    game la mi gf o w0 w -> step_breakout fuel o (diff_handler gf o) (pdipm_engine la mi) w 1 a vx vy = Ok w' -> game la mi gf o w0 w'
| game_run fuel lfuel w w' run_time v actions :
    game la mi gf o w0 w -> game_loop fuel lfuel o (diff_handler gf o) (pdipm_engine la mi) run_time v 1 actions w = Ok w' -> game la mi gf o w0 w'.

(** [w'] comes from [w] by a chain of calls of step_dt; [l] lists the states these calls start from *)
Inductive substeps (fuel : nat) (o : oracle R) (hd : handler R) (e : engine R) : world R -> list (world R) -> world R -> Prop :=
| sub_nil w : substeps fuel o hd e w [] w
| sub_cons w dt w1 l w' : step_dt fuel o hd e w dt = Ok w1 -> substeps fuel o hd e w1 l w' -> substeps fuel o hd e w (w :: l) w'.

(** no contact of body [i] *)
Definition no_contact_of (w : world R) (i : nat) : Prop := forall c, In c (w_contacts w) -> c_i1 c <> i /\ c_i2 c <> i.

(** the velocity [u] of the body [i] after the paddle's linear velocity has been set *)
Definition pushed (a vx vy : R) (i : nat) (u : v3 R) : v3 R := if Nat.eqb i 1 then (fst u, (vx * a, vy * a)) else u.

(** two rectangles are more than [d] apart, horizontally or vertically *)
Definition apart (d : R) (s t : piece) : Prop :=
  match s, t with
  | Box l1 r1 t1 b1, Box l2 r2 t2 b2 => r1 + d < l2 \/ r2 + d < l1 \/ b1 + d < t2 \/ b2 + d < t1
  | _, _ => False
  end.
(** a block is between the roof (31) and the line of the stoppers (189), a unit from both *)
Definition hanging (s : piece) : Prop := match s with Box l r t b => 32 <= t /\ b <= 188 | _ => False end.
(** a disc lies left or right of, above or below a rectangle *)
Definition beside (s t : piece) : Prop :=
  match s, t with
  | Disc c r, Box x0 x1 y0 y1 => fst c + r <= x0 \/ x1 <= fst c - r \/ snd c + r <= y0 \/ y1 <= snd c - r
  | _, _ => False
  end.
(** the first line of the block is between 15 and 93: make_world finds a colour for it *)
Definition coloured (s : piece) : Prop := match s with Box l r t b => 15 < t < 93 | _ => False end.
(** a rectangle of pixels as a piece *)
Definition pixels (b : box) : piece := Box (INR (bx_left b)) (INR (bx_left b + bx_width b)) (INR (bx_top b)) (INR (bx_top b + bx_height b)).
Definition sized (s : piece) : Prop := match s with Box l r t b => r - l <= 10 ^ 8 /\ b - t <= 10 ^ 8 | Disc c r => 0 <= r <= 10 ^ 8 end.
(** a position from which a game can start *)
Record startable (paddle : rect_params (T := R)) (blocks : list (rect_params (T := R))) (ball : ball_params (T := R)) : Prop := {
  st_paddle : plain paddle;
  st_blocks : Forall plain blocks;
  st_ball : plain_ball ball;
  st_sized : Forall sized (board paddle blocks ball);
  st_coloured : Forall (fun p => coloured (box_of p)) blocks;
  st_hanging : Forall (fun p => hanging (box_of p)) blocks;
  st_apart : forall j s, may_touch 1 j -> nth_error (board paddle blocks ball) j = Some s -> apart (1 / 10) (box_of paddle) s;
  st_beside : forall j s, may_touch 0 j -> nth_error (board paddle blocks ball) j = Some s -> beside (disc_of ball) s }.

(** the body with the angle attribute set to 0 and nothing else changed (in particular not the vertices) *)
Definition angle_cleared (b : body R) : body R :=
  {| b_id := b_id b; b_kind := b_kind b; b_p := (0, b_pos b); b_v := b_v b; b_mass := b_mass b;
     b_inertia := b_inertia b; b_fric := b_fric b; b_rest := b_rest b; b_eps := b_eps b;
     b_forces := b_forces b; b_geom := b_geom b |}.

(** the blocks of a world made from a state vector: the placeholder when there are none *)
Definition seen (blocks : list (rect_params (T := R))) : list (rect_params (T := R)) :=
  match blocks with [] => [([1000; 60], [1; 1])] | _ => blocks end.
(** the planner's dynamics applied once per action *)
Inductive plan (fuel : nat) (o : oracle R) (hd : handler R) (e : engine R) (vel : list R) (vx vy : R) : vec R -> list R -> vec R -> Prop :=
| plan_nil x : plan fuel o hd e vel vx vy x [] x
| plan_cons x a y us z : forward fuel o hd e vel vx vy x a = Ok y -> plan fuel o hd e vel vx vy y us z -> plan fuel o hd e vel vx vy x (a :: us) z.

(** a disc is more than [d] to the left or right of, above or below a rectangle *)
Definition far (d : R) (s t : piece) : Prop :=
  match s, t with
  | Disc c r, Box x0 x1 y0 y1 => fst c + r + d < x0 \/ x1 + d < fst c - r \/ snd c + r + d < y0 \/ y1 + d < snd c - r
  | _, _ => False
  end.
(** paddle and ball are more than a tenth from everything they may touch *)
Definition uncrowded (paddle : rect_params (T := R)) (blocks : list (rect_params (T := R))) (ball : ball_params (T := R)) : Prop :=
  (forall j s, may_touch 1 j -> nth_error (board paddle blocks ball) j = Some s -> apart (1 / 10) (box_of paddle) s) /\
  (forall j s, may_touch 0 j -> nth_error (board paddle blocks ball) j = Some s -> far (1 / 10) (disc_of ball) s).
(** a rectangle or disc shifted *)
Definition shifted {A} (x y : R) (p : list R * A) : list R * A := ([nth 0 (fst p) 0 + x; nth 1 (fst p) 0 + y], snd p).
(** the actions played one after the other *)
Fixpoint play (fuel : nat) (o : oracle R) (hd : handler R) (e : engine R) (vx vy : R) (actions : list R) (w : world R) : res (world R) :=
  match actions with
  | [] => Ok w
  | a :: l => do w' <- step_breakout fuel o hd e w 1 a vx vy; play fuel o hd e vx vy l w'
  end.
Definition total (l : list R) : R := fold_right Rplus 0 l.
