(** torch.optim.RMSprop with its default settings (specification for C92, C93) *)
From Coq Require Import List Arith Reals.
From Verif Require Import GeoSpec.
Import ListNotations.
Open Scope R_scope.

(** the squares of the gradients [g 0], ..., [g k], averaged with weights that fade by 0.99 with each step *)
Definition faded (g : nat -> R) (k : nat) : R := Rsum (map (fun i => (99 / 100) ^ (k - i) * (1 / 100) * g i ^ 2) (seq 0 (S k))).
(** the k-th step from [a], with the learning rate [lr] *)
Definition stepped (lr : R) (g : nat -> R) (k : nat) (a : R) : R := a - lr * g k / (sqrt (faded g k) + 1 / 100000000).
