(** Model of the screen reader of the breakout experiment,
    /repo/experiments/breakout/encoder.py:62-137.

    A frame is the array of the values of colour channel 0, row by row (the code never reads the
    other two channels; [remove_rect] clears them as well). *)
From Coq Require Import List Arith ZArith Bool.
From Verif Require Import Num Tensor Breakout.
Import ListNotations.

Definition frame : Type := list (list nat).

(** channel 0 of the colours, encoder.py:18-26, 34, 38, 43 *)
Definition PADDLE_COLOR : nat := 200.
Definition BALL_COLOR : nat := 200.
Definition BLOCK_COLORS : list nat := [200; 198; 180; 162; 72; 66].
(** encoder.py:28-33, 36-37, 40-41, 45-51 *)
Definition SCREEN_HEIGHT : nat := 210.
Definition SCREEN_WIDTH : nat := 160.
Definition PADDLE_TOP_LINE : nat := 189.
Definition PADDLE_HEIGHT : nat := 4.
Definition PADDLE_WIDTH : nat := 16.
Definition BALL_WIDTH : nat := 2.
Definition BLOCK_HEIGHT : nat := 6.
Definition BLOCKS_TOP : nat := 57.
Definition STOPPER_LINE : nat := 189.
Definition STOPPER_WIDTH : nat := 8.
Definition STOPPER_HEIGHT : nat := 6.

(** frame[i, :, 0] and frame[i, j, 0]: IndexError out of range *)
Definition line (f : frame) (i : nat) : res (list nat) :=
  match nth_error f i with Some r => Ok r | None => Err EIndex end.
Definition pixel (f : frame) (i j : nat) : res nat :=
  do r <- line f i; match nth_error r j with Some c => Ok c | None => Err EIndex end.
(** frame[i:, j, 0]: IndexError only when the column is out of range *)
Definition column_from (f : frame) (i j : nat) : res (list nat) :=
  mapM (fun r : list nat => match nth_error r j with Some c => Ok c | None => Err EIndex end) (skipn i f).

(** np.argmax of numbers: first index of the greatest; ValueError on an empty array *)
Fixpoint argmax_from (l : list nat) (i best arg : nat) : nat :=
  match l with
  | [] => arg
  | a :: l' => if best <? a then argmax_from l' (S i) a i else argmax_from l' (S i) best arg
  end.
Definition argmax (l : list nat) : res nat :=
  match l with [] => Err EValue | a :: l' => Ok (argmax_from l' 1 a 0) end.
(** np.argmax of booleans: the first True, or 0 if there is none; np.argmin: the first False *)
Fixpoint first_true (l : list bool) (i : nat) : nat :=
  match l with [] => 0 | b :: l' => if b then i else first_true l' (S i) end.
Definition argmax_bool (l : list bool) : res nat :=
  match l with [] => Err EValue | _ => Ok (first_true l 0) end.
Definition argmin_bool (l : list bool) : res nat := argmax_bool (map negb l).

(** encoder.py:136-137 [remove_rect]: rows tl.Y .. br.Y and columns tl.X .. br.X, both ends
    included, are cleared; corners are (row, column).  (The code's corners are never negative.) *)
Definition remove_rect (f : frame) (tl br : nat * nat) : frame :=
  map2 (fun i r => if (fst tl <=? i) && (i <? fst br + 1)
                   then map2 (fun j c => if (snd tl <=? j) && (j <? snd br + 1) then 0 else c)
                             (seq 0 (length r)) r
                   else r)
       (seq 0 (length f)) f.

Definition corners : Type := ((nat * nat) * (nat * nat))%type.

(** encoder.py:65-80: the paddle *)
Definition find_paddle (f : frame) : res corners :=
  do row <- line f PADDLE_TOP_LINE;
  do x <- argmax row;
  do c <- pixel f PADDLE_TOP_LINE (x + BALL_WIDTH + 1);
  do x <- (if c =? PADDLE_COLOR then Ok x
           else do k <- argmax (skipn (x + BALL_WIDTH + 1) row); Ok (k + x + BALL_WIDTH + 1));
  do k <- argmin_bool (map (fun c => c =? PADDLE_COLOR) (skipn x row));
  let rgt := k + x in
  let rgt := if rgt =? x then SCREEN_WIDTH else rgt in
  let rgt := Nat.min rgt (x + PADDLE_WIDTH) in
  Ok ((PADDLE_TOP_LINE, x), (PADDLE_TOP_LINE + PADDLE_HEIGHT, rgt)).

(** encoder.py:94-99: the blocks of one level.  The loop ends when no pixel of the level's colour
    is found (or one is found in column 0 first); [fuel] bounds the number of blocks. *)
Fixpoint find_blocks (fuel : nat) (f : frame) (top color : nat) (acc : list corners) : res (frame * list corners) :=
  match fuel with
  | O => Err EFuel
  | S fuel' =>
    do row <- line f top;
    do lft <- argmax_bool (map (fun c => c =? color) row);
    if lft =? 0 then Ok (f, acc)
    else
      do k <- argmin_bool (map (fun c => c =? color) (skipn lft row));
      let rgt := k + lft in
      let pos := ((top, lft), (top + BLOCK_HEIGHT, rgt)) in
      find_blocks fuel' (remove_rect f (fst pos) (top + BLOCK_HEIGHT - 1, rgt - 1)) top color (acc ++ [pos])
  end.
(** encoder.py:91-99 *)
Fixpoint find_levels (fuel : nat) (f : frame) (i : nat) (colors : list nat) (acc : list corners) : res (frame * list corners) :=
  match colors with
  | [] => Ok (f, acc)
  | color :: cs =>
    do r <- find_blocks fuel f (BLOCKS_TOP + i * BLOCK_HEIGHT) color acc;
    find_levels fuel (fst r) (S i) cs (snd r)
  end.

(** encoder.py:105-120: the first pixel, row by row, that has the ball's colour *)
Fixpoint find_ball (f : frame) (cells : list (nat * nat)) : res (option corners) :=
  match cells with
  | [] => Ok None
  | (i, j) :: cells' =>
    do c <- pixel f i j;
    if c =? BALL_COLOR then
      do row <- line f i;
      do k <- argmin_bool (map (fun c => c =? BALL_COLOR) (skipn j row));
      do col <- column_from f i j;
      do l <- argmin_bool (map (fun c => c =? BALL_COLOR) col);
      Ok (Some ((i, j), (l + i, k + j)))
    else find_ball f cells'
  end.
Definition screen_cells : list (nat * nat) := list_prod (seq 0 SCREEN_HEIGHT) (seq 0 SCREEN_WIDTH).

Section Screen.
Context {T : Type} {N : Num T}.
Local Open Scope num_scope.

Definition ofn (n : nat) : T := nofZ (Z.of_nat n).
(** encoder.py:140-145 on integer corners *)
Definition corner_params (c : corners) : rect_params (T := T) :=
  get_pos_dims (ofn (fst (fst c)), ofn (snd (fst c))) (ofn (fst (snd c)), ofn (snd (snd c))).
Definition nmin (a b : T) : T := if b <? a then b else a.
(** encoder.py:122-128 *)
Definition ball_of (c : option corners) : ball_params (T := T) :=
  match c with
  | Some c => let p := corner_params c in
              (fst p, nmin (nmin (nth 0 (snd p) 0) (nth 1 (snd p) 0) / nofZ 2) 1)
  | None => ([ofn SCREEN_WIDTH / nofZ 2; ofn (SCREEN_HEIGHT * 100)], 1)
  end.

(** encoder.py:62-133 [extract_params].  The frame is copied first; the caller's is unchanged. *)
Definition extract_params (fuel : nat) (f : frame) : res (rect_params (T := T) * list rect_params * ball_params) :=
  do paddle <- find_paddle f;
  let f := remove_rect f (fst paddle) (snd paddle) in
  do r <- find_levels fuel f 0 BLOCK_COLORS [];
  let f := remove_rect (fst r) (STOPPER_LINE, SCREEN_WIDTH - STOPPER_WIDTH)%nat
                               (STOPPER_LINE + STOPPER_HEIGHT - 1, SCREEN_WIDTH)%nat in
  do ball <- find_ball f screen_cells;
  Ok (corner_params paddle, map corner_params (snd r), ball_of ball).

End Screen.
