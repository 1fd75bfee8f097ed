(** What is on the screen of the breakout game (specification for C74) *)
From Coq Require Import List Arith ZArith Bool Reals.
From Verif Require Import Num Screen.
Import ListNotations.

(** a rectangle of pixels *)
Record box := mkBox { bx_top : nat; bx_left : nat; bx_height : nat; bx_width : nat }.
Definition inside (b : box) (i j : nat) : Prop :=
  bx_top b <= i < bx_top b + bx_height b /\ bx_left b <= j < bx_left b + bx_width b.
Definition disjoint (a b : box) : Prop := forall i j, inside a i j -> inside b i j -> False.

(** a scene: the paddle (16 x 4 pixels at line 189, or less when part of it is hidden), the blocks
    of each of the six levels as column ranges (first column, column after the last), the ball *)
Record picture := mkPicture {
  pc_paddle : nat; pc_width : nat; pc_blocks : list (list (nat * nat)); pc_ball : option box }.
Definition paddle_box (p : picture) : box := mkBox 189 (pc_paddle p) 4 (pc_width p).
(** the levels lie below each other from line 57 on and are six lines high *)
Definition block_box (k : nat) (b : nat * nat) : box := mkBox (57 + 6 * k) (fst b) 6 (snd b - fst b).
(** the red field at the right end of the paddle's line *)
Definition stopper_box : box := mkBox 189 152 6 8.
Definition level (p : picture) (k : nat) : list (nat * nat) := nth k (pc_blocks p) [].

(** the blocks of a level from left to right, at least one free column between two of them *)
Fixpoint spread (after : nat) (l : list (nat * nat)) : Prop :=
  match l with
  | [] => True
  | (a, b) :: l' => after < a /\ a < b /\ b < 160 /\ spread b l'
  end.

(** red: 200, and the colours of the other levels (channel 0) *)
Definition level_color (k : nat) : nat := nth k [200; 198; 180; 162; 72; 66] 0.

(** the frame shows the scene: a pixel is red exactly where the paddle, a block of the first level,
    the ball or the stopper is; on the top line of every other level the level's colour is where
    its blocks are; nothing on the paddle's line is brighter than red.  Every other pixel may have
    any colour. *)
Record shows (f : frame) (p : picture) : Prop := {
  sh_height : length f = 210;
  sh_width : Forall (fun r => length r = 160) f;
  sh_red : forall i j, i < 210 -> j < 160 ->
    (pixel f i j = Ok 200 <->
     inside (paddle_box p) i j \/ (exists b, In b (level p 0) /\ inside (block_box 0 b) i j) \/
     (exists b, pc_ball p = Some b /\ inside b i j) \/ inside stopper_box i j);
  sh_level : forall k j, 1 <= k < 6 -> j < 160 ->
    (pixel f (57 + 6 * k) j = Ok (level_color k) <-> exists b, In b (level p k) /\ fst b <= j < snd b);
  sh_bright : forall j c, pixel f 189 j = Ok c -> c <= 200 }.

(** scenes that can be read: nothing covers anything else, and the ball is on neither of the lines
    on which the paddle and the first level of blocks are looked for -- except that on the paddle's
    line it may be to the right of the paddle with a column between, or to the left of it, at most
    three columns wide and its first column at least four columns away *)
Record readable (p : picture) : Prop := {
  rd_paddle : 4 <= pc_width p <= 16 /\ pc_paddle p + pc_width p <= 152 /\
              (pc_width p = 16 \/ pc_paddle p + pc_width p < 152);
  rd_levels : length (pc_blocks p) = 6 /\ Forall (spread 0) (pc_blocks p);
  rd_ball : forall b, pc_ball p = Some b ->
    0 < bx_height b /\ 0 < bx_width b /\ bx_top b + bx_height b < 210 /\ bx_left b + bx_width b < 160 /\
    ~ (bx_top b <= 57 < bx_top b + bx_height b) /\
    (forall k c, k < 6 -> In c (level p k) -> disjoint b (block_box k c)) /\
    disjoint b (mkBox 189 (pc_paddle p) 5 (pc_width p + 1)) /\ disjoint b stopper_box /\
    (bx_top b <= 189 < bx_top b + bx_height b -> bx_left b < pc_paddle p -> bx_width b <= 3 /\ bx_left b + 3 < pc_paddle p) }.

(** centre and size of a rectangle, x before y *)
Definition centre (b : box) : list R :=
  [INR (bx_left b) + INR (bx_width b) / 2; INR (bx_top b) + INR (bx_height b) / 2]%R.
Definition size (b : box) : list R := [INR (bx_width b); INR (bx_height b)].

(** the blocks of a scene, level by level *)
Definition all_blocks (p : picture) : list box :=
  flat_map (fun k => map (block_box k) (level p k)) (seq 0 6).
