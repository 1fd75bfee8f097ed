(** Interface to the LAPACK routines behind torch.btrifact / btrisolve / inverse, and the
    unpacking of factorisations, /repo/lcp_physics/lcp/util.py:67-95. *)
From Coq Require Import List Arith ZArith Bool.
From Verif Require Import Num Tensor.
Import ListNotations.

Section Lapack.
Context {T : Type} {N : Num T}.
Local Open Scope num_scope.

(** packed LU data and 1-based pivots *)
Definition lu : Type := (mat T * list nat)%type.

(** [la_getrf]: x.btrifact() of one batch element; an [Err] is the RuntimeError torch raises for
    a zero pivot.  [la_getrs]: b.btrisolve(data, pivots) for one right-hand side.
    [la_inv]: torch.inverse. *)
Record lapack := mkLapack {
  la_getrf : mat T -> res lu;
  la_getrs : lu -> vec T -> vec T;
  la_inv : mat T -> res (mat T) }.

(** B.btrisolve(data, pivots) for an n x k right-hand side: column by column *)
Definition getrs_mat (la : lapack) (f : lu) (n k : nat) (B : mat T) : mat T :=
  mtr n (map (la_getrs la f) (mtr k B)).

(** util.py:74-79: I_U is the upper triangle with diagonal; L gets a unit diagonal *)
Definition unpack_U (data : mat T) : mat T :=
  let n := length data in
  map (fun i => map (fun j => if Nat.leb i j then mget data i j else 0) (seq 0 n)) (seq 0 n).
Definition unpack_L (data : mat T) : mat T :=
  let n := length data in
  map (fun i => map (fun j => if Nat.eqb i j then 1
                              else if Nat.leb i j then 0 else mget data i j) (seq 0 n)) (seq 0 n).

(** util.py:86-89: l[k], l[j] = l[j], l[k] *)
Definition swap {A} (d : A) (l : list A) (k j : nat) : list A :=
  upd (upd l k (nth j l d)) j (nth k l d).
Definition final_order (sz : nat) (piv : list nat) : list nat :=
  fold_left (fun l kj => swap 0%nat l (fst kj) (snd kj - 1))
            (combine (seq 0 (length piv)) piv) (seq 0 sz).
(** util.py:83-91 *)
Definition unpack_P (sz : nat) (piv : list nat) : mat T :=
  mtr sz (map (fun i => nth i (meye sz) []) (final_order sz piv)).

End Lapack.
Arguments lu : clear implicits.
Arguments lapack : clear implicits.
