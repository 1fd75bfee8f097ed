(** Learning the paddle's velocity (specification for C92) *)
From Coq Require Import List Arith ZArith Bool Reals.
From Verif Require Import Num Tensor Contacts World Breakout Screen Game Learn ScreenSpec GeoSpec GameSpec.
Import ListNotations.
Open Scope R_scope.

(** the squares of the differences of two rectangles, centres and sizes *)
Definition apart_sq (p q : rect_params (T := R)) : R :=
  (nth 0 (fst p) 0 - nth 0 (fst q) 0) ^ 2 + (nth 1 (fst p) 0 - nth 1 (fst q) 0) ^ 2 +
  (nth 0 (snd p) 0 - nth 0 (snd q) 0) ^ 2 + (nth 1 (snd p) 0 - nth 1 (snd q) 0) ^ 2.
(** the sum of the first [j] controls *)
Definition so_far (actions : list R) (j : nat) : R := total (firstn j actions).

(** an episode the reader can read: the frame after [j] actions shows the scene [scene j] *)
Definition filmed (env : list nat -> frame) (actions : list R) (scene : nat -> picture) (sfuel : nat) : Prop :=
  forall j, (j <= length actions)%nat ->
    shows (env (sent (firstn j actions))) (scene j) /\ readable (scene j) /\ Forall (fun l => (length l < sfuel)%nat) (pc_blocks (scene j)).
(** what is read: the paddle, the blocks, the ball *)
Definition paddle_of (p : picture) : rect_params (T := R) := (centre (paddle_box p), size (paddle_box p)).
Definition blocks_of (p : picture) : list (rect_params (T := R)) := map (fun b => (centre b, size b)) (all_blocks p).
Definition ball_shown (p : picture) : ball_params (T := R) :=
  match pc_ball p with
  | Some b => (centre b, Rmin (Rmin (INR (bx_width b)) (INR (bx_height b)) / 2) 1)
  | None => ([80; 21000], 1)
  end.

(** with the velocity (vx, vy), the simulated paddle keeps away from everything during the episode *)
Definition keeps_away (scene : picture) (actions : list R) (vx vy : R) : Prop :=
  forall j, (j <= length actions)%nat ->
    uncrowded (shifted (vx * so_far actions j) (vy * so_far actions j) (paddle_of scene)) (blocks_of scene) (ball_shown scene).
(** a scene a simulated world can start from, with a block *)
Definition opening (scene : picture) : Prop :=
  startable (paddle_of scene) (blocks_of scene) (ball_shown scene) /\ blocks_of scene <> [].

(** (gx, gy) is the gradient at (vx, vy) of a loss that may raise *)
Definition gradient_at (f : R -> R -> res R) (vx vy gx gy : R) : Prop :=
  exists F : R -> R -> R,
    (exists d, 0 < d /\ forall x y, Rabs (x - vx) < d -> Rabs (y - vy) < d -> f x y = Ok (F x y)) /\
    derivable_pt_lim (fun x => F x vy) vx gx /\ derivable_pt_lim (fun y => F vx y) vy gy.

(** the paddle of the game moves by [u] pixels per unit of control, along its line *)
Definition moves_by (u : R) (actions : list R) (scene : nat -> picture) : Prop :=
  forall j, (j <= length actions)%nat -> paddle_of (scene j) = shifted (u * so_far actions j) 0 (paddle_of (scene 0%nat)).
(** the mean of the squares of the controls added up, over the four numbers of each state *)
Definition weight (actions : list R) : R :=
  Rsum (map (fun j => so_far actions j ^ 2) (seq 1 (length actions))) / INR (4 * S (length actions)).
(** the mean of the squares of the differences between the simulated and the filmed paddle *)
Definition mean_miss (scene : nat -> picture) (actions : list R) (vx vy : R) : R :=
  Rsum (map (fun j => apart_sq (shifted (vx * so_far actions j) (vy * so_far actions j) (paddle_of (scene 0%nat))) (paddle_of (scene j)))
            (seq 1 (length actions))) / INR (4 * S (length actions)).
(** the controls of an episode: the signs of its ten random numbers *)
Definition direction (z : R) : R := if Rlt_dec 0 z then 1 else if Rlt_dec z 0 then - (1) else 0.
Definition controls (draws : nat -> R) : list R := map (fun j => direction (draws j)) (seq 0 10).
