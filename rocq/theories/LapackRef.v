(** A reference implementation of the LAPACK interface: Gaussian elimination with partial
    pivoting.  It is not part of the modelled code.  It makes the model executable (witnesses and
    non-vacuity examples) and shows that the contract [lapack_ok] assumed of LAPACK can be met. *)
From Coq Require Import List Arith ZArith Bool.
From Verif Require Import Num Tensor Lapack LapackSpec.
Import ListNotations.

Section Ref.
Context {T : Type} {N : Num T}.
Local Open Scope num_scope.

(** index of an entry of largest absolute value *)
Fixpoint argmax (i best : nat) (m : T) (l : list T) : nat :=
  match l with
  | [] => best
  | a :: l' => if m <? nabs a then argmax (S i) i (nabs a) l' else argmax (S i) best m l'
  end.
Definition pivot_row (A : mat T) : nat :=
  argmax 0 0 (nopp 1) (map (fun r => hd 0 r) A).

Fixpoint ref_lu (n : nat) (A : mat T) : res (mat T * list nat) :=
  match n with
  | O => Ok ([], [])
  | S n' =>
      let p := pivot_row A in
      match swap [] A 0 p with
      | (a :: r) :: rest =>
          if a =? 0 then Err ESingular
          else
            let ls := map (fun row => hd 0 row / a) rest in
            let sch := map2 (fun l row => vsub (tl row) (vscale l r)) ls rest in
            do f <- ref_lu n' sch;
            let '(D, piv) := f in
            Ok ((a :: r) :: map2 cons (apply_piv 0 piv ls) D, S p :: map S piv)
      | _ => Err ESingular
      end
  end.

Fixpoint ref_solve (D : mat T) (n : nat) (b : vec T) : vec T :=
  match n, D, b with
  | S n', (u :: r) :: rows, b0 :: bs =>
      let bs' := map2 (fun row c => c - hd 0 row * b0) rows bs in
      let x' := ref_solve (map (@tl T) rows) n' bs' in
      (b0 - dot r x') / u :: x'
  | _, _, _ => []
  end.

Definition ref_getrf (A : mat T) : res (lu T) := ref_lu (length A) A.
Definition ref_getrs (f : lu T) (b : vec T) : vec T :=
  ref_solve (fst f) (length (fst f)) (apply_piv 0 (snd f) b).
Definition ref_inv (A : mat T) : res (mat T) :=
  do f <- ref_getrf A;
  let n := length A in
  Ok (mtr n (map (ref_getrs f) (meye n))).

Definition ref_lapack : lapack T := mkLapack ref_getrf ref_getrs ref_inv.
End Ref.
