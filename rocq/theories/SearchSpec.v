(** The search for the mass (specification for C93) *)
From Coq Require Import List Arith ZArith Bool Reals.
From Verif Require Import Num Tensor Contacts World Infer GeoSpec.
Import ListNotations.
Open Scope R_scope.

(** the simulation with the mass [mass] shows the frames [film] *)
Definition filmed (fuel lfuel : nat) (o : oracle R) (hd : handler R) (e : engine R) (forces : list (R -> v3 R)) (num_links : nat) (run_time mass : R)
           (film : list (list R)) : Prop :=
  exists w w', make_world o hd forces mass num_links = Ok w /\ positions_run_world fuel lfuel o hd e run_time w = Ok (film, w').

(** the mean of the squared differences of two films, over the length of the shorter *)
Definition overlap (p g : list (list R)) : nat := Nat.min (length (concat p)) (length (concat g)).
Definition mean_sq (p g : list (list R)) : R :=
  Rsum (map (fun j => (nth j (concat p) 0 - nth j (concat g) 0) ^ 2) (seq 0 (overlap p g))) / INR (overlap p g).
(** its derivative, if the numbers of the first film change by [jac] *)
Definition slope (jac : list R) (p g : list (list R)) : R :=
  Rsum (map (fun j => 2 * (nth j (concat p) 0 - nth j (concat g) 0) * nth j jac 0) (seq 0 (overlap p g))) / INR (overlap p g).
