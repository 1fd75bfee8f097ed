(** Doubles as real numbers (specification for C69) *)
From Coq Require Import Reals Floats.
From Flocq Require Import IEEE754.BinarySingleNaN IEEE754.PrimFloat.

(** the real number a double stands for; 0 for infinities and NaN *)
Definition value (x : float) : R := B2R (Prim2B x).
(** neither infinite nor NaN *)
Definition finite (x : float) : Prop := PrimFloat.is_finite x = true.

From Verif Require Import Num Tensor Bodies Forces Contacts World Lapack.

(** double arithmetic, with any elementary functions *)
Definition doubles (N : Num float) : Prop := exists fsin fcos fatan2, N = FNum fsin fcos fatan2.
(** [n] additions of [dt], rounded each time *)
Definition ticks (n : nat) (dt t : float) : float := Nat.iter n (fun s => (s + dt)%float) t.
(** the double after a positive one *)
Definition next (x : float) : float := PrimFloat.next_up x.

(** a call that does not run forever (it returns or raises) *)
Definition ends {A} (r : res A) : Prop := r <> Err EFuel.
(** the contact callback and the engine end on every input *)
Definition callbacks_end {T} `{Num T} (hd : handler T) (e : engine T) : Prop :=
  (forall eps clk bs i j, ends (hd eps clk bs i j)) /\
  (forall w dt, ends (e_solve e w dt)) /\ (forall w, ends (e_post e w)).
(** so do the factorisations of the linear-algebra library *)
Definition lapack_ends {T} (la : lapack T) : Prop :=
  (forall A, ends (la_getrf la A)) /\ (forall A, ends (la_inv la A)).
