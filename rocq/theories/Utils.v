(** Model of /repo/lcp_physics/physics/utils.py *)
From Coq Require Import List Arith ZArith.
From Verif Require Import Num Tensor.
Import ListNotations.

Section Utils.
Context {T : Type} {N : Num T}.
Local Open Scope num_scope.

(** utils.py:75-82 [cart_to_polar] (positive=True, the only use in the package) *)
Definition cart_to_polar (c : v2 T) : T * T :=
  let r := v2norm c in
  let theta := natan2 (snd c) (fst c) in
  let theta := if theta <? 0 then theta + nofZ 2 * ncst C_pi else theta in
  (r, theta).

(** utils.py:85-90 [polar_to_cart] *)
Definition polar_to_cart (r theta : T) : v2 T :=
  (ncos theta * r, nsin theta * r).

(** utils.py:93-96 [cross_2d] *)
Definition cross_2d (a b : v2 T) : T := fst a * snd b - snd a * fst b.

(** utils.py:99-102 [left_orthogonal] *)
Definition left_orthogonal (v : v2 T) : v2 T := (snd v, - fst v).

(** utils.py:105-112 [rotation_matrix], a 2x2 tensor ((r00,r01),(r10,r11)) *)
Definition rotation_matrix (ang : T) : v2 T * v2 T :=
  let s := nsin ang in
  let c := ncos ang in
  ((c, - s), (s, c)).

(** [rot_mat.matmul(v)] *)
Definition rot_apply (m : v2 T * v2 T) (v : v2 T) : v2 T :=
  (v2dot (fst m) v, v2dot (snd m) v).

(** utils.py:54-72 [Recorder].  [rec_files] is the list of frame numbers written so far, in
    the order of writing (it models the directory; creating the directory and the image
    content are not modelled). *)
Record recorder := mkRec {
  rec_dt : T;
  rec_prev_t : T;
  rec_frame : nat;
  rec_files : list nat
}.
(** utils.py:57-64 *)
Definition rec_init (dt : T) : recorder := mkRec dt 0 0 [].
(** utils.py:66-72 *)
Definition rec_record (r : recorder) (t : T) : recorder :=
  if rec_dt r <=? t - rec_prev_t r
  then mkRec (rec_dt r) (rec_prev_t r + rec_dt r) (S (rec_frame r))
             (rec_files r ++ [rec_frame r])
  else r.

(** utils.py:142-150 [get_instance]: a string is looked up in the module, anything else is
    called.  [lookup] is the module's attribute table, classes are constructors. *)
Inductive class_id (C : Type) := ByName (s : nat) | ByClass (c : C).
Arguments ByName {C}. Arguments ByClass {C}.
Definition get_instance {C I : Type} (lookup : nat -> option C) (mk : C -> I)
           (id : class_id C) : res I :=
  match id with
  | ByName s => match lookup s with Some c => Ok (mk c) | None => Err ENone end
  | ByClass c => Ok (mk c)
  end.

End Utils.
Arguments recorder : clear implicits.
