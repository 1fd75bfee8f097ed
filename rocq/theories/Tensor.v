(** Small tensors: 2-vectors, 3-vectors, vectors and matrices as lists (row major).

    These are the torch operations the modelled code uses.  Torch checks shapes and raises;
    the list operations below truncate instead.  The lemmas about the assembled matrices
    ([*_wf] in the Facts files) show that the model only ever combines matching shapes.
    The order of summation inside torch.dot / bmm / sum is unspecified; here it is right to
    left (irrelevant over the reals). *)
From Coq Require Import List Arith.
From Verif Require Import Num.
Import ListNotations.

Section Tensor.
Context {T : Type} {N : Num T}.
Local Open Scope num_scope.

(** *** 2-vectors and poses *)
Definition v2 : Type := (T * T)%type.
(** a pose or velocity tensor of size 3: (angle, (x, y))   bodies.py:25-39 *)
Definition v3 : Type := (T * v2)%type.

Definition v2add (a b : v2) : v2 := (fst a + fst b, snd a + snd b).
Definition v2sub (a b : v2) : v2 := (fst a - fst b, snd a - snd b).
Definition v2opp (a : v2) : v2 := (- fst a, - snd a).
Definition v2scale (k : T) (a : v2) : v2 := (k * fst a, k * snd a).
Definition v2div (a : v2) (k : T) : v2 := (fst a / k, snd a / k).
Definition v2dot (a b : v2) : T := fst a * fst b + snd a * snd b.
Definition v2norm (a : v2) : T := nsqrt (v2dot a a).
Definition v2zero : v2 := (0, 0).

Definition v3add (a b : v3) : v3 := (fst a + fst b, v2add (snd a) (snd b)).
Definition v3scale (k : T) (a : v3) : v3 := (k * fst a, v2scale k (snd a)).
Definition v3zero : v3 := (0, v2zero).
Definition v3list (a : v3) : list T := [fst a; fst (snd a); snd (snd a)].

(** *** vectors and matrices *)
Definition vec : Type := list T.
Definition mat : Type := list (list T).

Fixpoint vmap2 (f : T -> T -> T) (x y : vec) : vec :=
  match x, y with
  | a :: x', b :: y' => f a b :: vmap2 f x' y'
  | _, _ => []
  end.
Definition vadd := vmap2 nadd.
Definition vsub := vmap2 nsub.
Definition vmul := vmap2 nmul.
Definition vdiv := vmap2 ndiv.
Definition vopp (x : vec) : vec := map nopp x.
Definition vscale (k : T) (x : vec) : vec := map (nmul k) x.
Definition vsum (x : vec) : T := fold_right nadd 0 x.
Definition dot (x y : vec) : T := vsum (vmul x y).
Definition vnorm (x : vec) : T := nsqrt (dot x x).
Definition vzeros (n : nat) : vec := repeat 0 n.
Definition vones (n : nat) : vec := repeat 1 n.
Definition vget (x : vec) (i : nat) : T := nth i x 0.

Fixpoint map2 {A B C} (f : A -> B -> C) (x : list A) (y : list B) : list C :=
  match x, y with
  | a :: x', b :: y' => f a b :: map2 f x' y'
  | _, _ => []
  end.

Definition mget (A : mat) (i j : nat) : T := vget (nth i A []) j.
Definition mv (A : mat) (x : vec) : vec := map (fun r => dot r x) A.
(** transpose of a matrix with [n] columns *)
Definition mtr (n : nat) (A : mat) : mat :=
  map (fun j => map (fun r => vget r j) A) (seq 0 n).
(** row vector times matrix with [n] columns:  x.unsqueeze(1).bmm(A).squeeze(1) *)
Definition vm (n : nat) (x : vec) (A : mat) : vec := mv (mtr n A) x.
(** matrix product, [n] the number of columns of B *)
Definition mm (n : nat) (A B : mat) : mat := map (fun r => vm n r B) A.
Definition madd (A B : mat) : mat := map2 vadd A B.
Definition msub (A B : mat) : mat := map2 vsub A B.
Definition mopp (A : mat) : mat := map vopp A.
Definition mscale (k : T) (A : mat) : mat := map (vscale k) A.
Definition mzeros (m n : nat) : mat := repeat (vzeros n) m.
Definition mdiag (d : vec) : mat :=
  map (fun i => map (fun j => if Nat.eqb i j then vget d i else 0) (seq 0 (length d)))
      (seq 0 (length d)).
Definition meye (n : nat) : mat := mdiag (vones n).
Definition hcat (A B : mat) : mat := map2 (@app T) A B.
Definition vcat (A B : mat) : mat := A ++ B.
(** outer product of two vectors, util.py:18-19 (bger, per batch element) *)
Definition outer (x y : vec) : mat := map (fun a => vscale a y) x.

(** list update in place: x[i] = a *)
Fixpoint upd {A} (l : list A) (i : nat) (a : A) : list A :=
  match l, i with
  | [], _ => []
  | _ :: l', O => a :: l'
  | b :: l', S i' => b :: upd l' i' a
  end.

(** write the vector [x] into row [r] starting at column [c]:  r[c:c+len(x)] = x *)
Definition row_put (r : vec) (c : nat) (x : vec) : vec :=
  firstn c r ++ x ++ skipn (c + length x) r.
(** block assignment A[i:i+len(B), c:c+width] = B *)
Fixpoint blk_put (A : mat) (i c : nat) (B : mat) : mat :=
  match A, i with
  | [], _ => []
  | r :: A', S i' => r :: blk_put A' i' c B
  | r :: A', O => match B with
                  | [] => r :: A'
                  | b :: B' => row_put r c b :: blk_put A' O c B'
                  end
  end.
(** slicing x[a:b] *)
Definition slice {A} (l : list A) (a b : nat) : list A := firstn (b - a) (skipn a l).

End Tensor.
Arguments v2 : clear implicits.
Arguments v3 : clear implicits.
Arguments vec : clear implicits.
Arguments mat : clear implicits.
