(** Binary64 instance used by the concrete examples.  [sin] and [cos] are Taylor polynomials
    (enough for the small angles of the examples); [atan2] is not needed. *)
From Coq Require Import List ZArith Floats.
From Verif Require Import Num Tensor Bodies Forces Constraints Contacts World Lapack LapackRef Engines.
Import ListNotations.

Definition fsin (x : float) : float :=
  let y := (x * x)%float in
  (x * (1 - y / 6 * (1 - y / 20 * (1 - y / 42 * (1 - y / 72 * (1 - y / 110))))))%float.
Definition fcos (x : float) : float :=
  let y := (x * x)%float in
  (1 - y / 2 * (1 - y / 12 * (1 - y / 30 * (1 - y / 56 * (1 - y / 90)))))%float.
#[global] Instance FN : Num float := FNum fsin fcos (fun _ _ => 0%float).

(** every pair (i, j), i < j: a broad phase that never misses anything *)
Definition all_pairs (n : nat) : list (nat * nat) :=
  flat_map (fun i => map (fun j => (i, j)) (seq (S i) (n - S i))) (seq 0 n).
Definition pair_oracle {T} : oracle T :=
  {| o_collide := fun _ gs => all_pairs (length gs);
     o_narrow := fun _ _ _ => [];
     o_choice := fun _ _ => 0 |}.

(** the default engine with the reference LAPACK *)
Definition ref_engine {T} `{Num T} : engine T := pdipm_engine ref_lapack 10.

(** checking a computed result by evaluation *)
Definition res_check {A} (r : res A) (p : A -> bool) : bool :=
  match r with Ok a => p a | Err _ => false end.
Lemma res_check_ok {A} (r : res A) p : res_check r p = true -> exists a, r = Ok a /\ p a = true.
Proof. destruct r; simpl; intros H; [eauto|discriminate]. Qed.
