(** Arithmetic interface of the model.

    lcp-physics computes with torch tensors of dtype [Defaults.DTYPE = torch.double]
    (/repo/lcp_physics/physics/utils.py:34).  The model is written once, over a record of
    operations, and instantiated at Coq's reals (exact arithmetic) and at Coq's primitive
    IEEE-754 doubles (executable). *)
From Coq Require Import ZArith Bool List Reals Floats.
From Coq Require Uint63.
Import ListNotations.

(** Decimal literals that occur in the modelled code. *)
Inductive cst :=
| C_0_1      (** 0.1    forces.py:9,16,23 *)
| C_0_999    (** 0.999  pdipm.py:164 *)
| C_1e10     (** 1e10   contacts.py:117,223,257 *)
| C_1e100    (** 1e100  pdipm.py:133 *)
| C_1em12    (** 1e-12  lcp.py:12 *)
| C_1em6     (** 1e-6   utils.py:19 (Defaults.TOL) *)
| C_pi       (** math.pi  utils.py:81 *).

Class Num (T : Type) := mkNum {
  n0 : T; n1 : T;
  nadd : T -> T -> T; nsub : T -> T -> T; nmul : T -> T -> T; ndiv : T -> T -> T;
  nopp : T -> T; nabs : T -> T;
  nsqrt : T -> T; nsin : T -> T; ncos : T -> T; natan2 : T -> T -> T;
  nltb : T -> T -> bool; nleb : T -> T -> bool; neqb : T -> T -> bool;
  nofZ : Z -> T;
  ncst : cst -> T
}.

Declare Scope num_scope.
Delimit Scope num_scope with num.
Notation "x + y" := (nadd x y) : num_scope.
Notation "x - y" := (nsub x y) : num_scope.
Notation "x * y" := (nmul x y) : num_scope.
Notation "x / y" := (ndiv x y) : num_scope.
Notation "- x" := (nopp x) : num_scope.
Notation "0" := n0 : num_scope.
Notation "1" := n1 : num_scope.
Notation "x <? y" := (nltb x y) : num_scope.
Notation "x <=? y" := (nleb x y) : num_scope.
Notation "x =? y" := (neqb x y) : num_scope.

(** ** Reals *)
Definition Ratan2 (y x : R) : R :=
  if Rlt_dec 0 x then atan (y / x)
  else if Rlt_dec x 0 then
         (if Rle_dec 0 y then atan (y / x) + PI else atan (y / x) - PI)%R
  else if Rlt_dec 0 y then (PI / 2)%R
  else if Rlt_dec y 0 then (- (PI / 2))%R
  else 0%R.

Definition Rltb (x y : R) : bool := if Rlt_dec x y then true else false.
Definition Rleb (x y : R) : bool := if Rle_dec x y then true else false.
Definition Reqb (x y : R) : bool := if Req_EM_T x y then true else false.

Definition Rcst (c : cst) : R :=
  match c with
  | C_0_1 => 1 / 10
  | C_0_999 => 999 / 1000
  | C_1e10 => 10 ^ 10
  | C_1e100 => 10 ^ 100
  | C_1em12 => / 10 ^ 12
  | C_1em6 => / 10 ^ 6
  | C_pi => PI
  end%R.

#[global] Instance RNum : Num R := {|
  n0 := 0%R; n1 := 1%R;
  nadd := Rplus; nsub := Rminus; nmul := Rmult; ndiv := Rdiv;
  nopp := Ropp; nabs := Rabs;
  nsqrt := R_sqrt.sqrt; nsin := Rtrigo_def.sin; ncos := Rtrigo_def.cos; natan2 := Ratan2;
  nltb := Rltb; nleb := Rleb; neqb := Reqb;
  nofZ := IZR;
  ncst := Rcst
|}.

(** ** IEEE-754 binary64.  [sin], [cos], [atan2] are libm functions: parameters. *)
Definition float_of_Z (z : Z) : float :=
  match z with
  | Z0 => 0%float
  | Zpos _ => PrimFloat.of_uint63 (Uint63.of_Z z)
  | Zneg p => PrimFloat.opp (PrimFloat.of_uint63 (Uint63.of_Z (Zpos p)))
  end.

Definition Fcst (c : cst) : float :=
  match c with
  | C_0_1 => 0x1.999999999999ap-4
  | C_0_999 => 0x1.ff7ced916872bp-1
  | C_1e10 => 0x1.2a05f2p+33
  | C_1e100 => 0x1.249ad2594c37dp+332
  | C_1em12 => 0x1.19799812dea11p-40
  | C_1em6 => 0x1.0c6f7a0b5ed8dp-20
  | C_pi => 0x1.921fb54442d18p+1
  end%float.

Definition FNum (fsin fcos : float -> float) (fatan2 : float -> float -> float)
  : Num float := {|
  n0 := 0%float; n1 := 1%float;
  nadd := PrimFloat.add; nsub := PrimFloat.sub; nmul := PrimFloat.mul; ndiv := PrimFloat.div;
  nopp := PrimFloat.opp; nabs := PrimFloat.abs;
  nsqrt := PrimFloat.sqrt; nsin := fsin; ncos := fcos; natan2 := fatan2;
  nltb := PrimFloat.ltb; nleb := PrimFloat.leb; neqb := PrimFloat.eqb;
  nofZ := float_of_Z;
  ncst := Fcst
|}.

(** ** Exceptions as values *)
Inductive err :=
| EAssert        (** AssertionError *)
| EValue         (** ValueError *)
| EUnbound       (** UnboundLocalError *)
| EType          (** TypeError, e.g. negating None *)
| EIndex         (** IndexError *)
| EShape         (** RuntimeError: shape mismatch *)
| ESingular      (** RuntimeError: singular matrix *)
| ENone          (** an attribute of None is used *)
| ENotImpl       (** NotImplementedError *)
| EFuel.         (** not an exception: the run has not returned within the fuel *)

Inductive res (A : Type) :=
| Ok (a : A)
| Err (e : err).
Arguments Ok {A} a.
Arguments Err {A} e.

Definition bind {A B} (x : res A) (f : A -> res B) : res B :=
  match x with Ok a => f a | Err e => Err e end.
Notation "'do' x <- m ; k" := (bind m (fun x => k))
  (at level 200, x pattern, m at level 100, k at level 200).

Fixpoint mapM {A B} (f : A -> res B) (l : list A) : res (list B) :=
  match l with
  | [] => Ok []
  | a :: l' => do b <- f a; do bs <- mapM f l'; Ok (b :: bs)
  end.

Definition isOk {A} (x : res A) : bool := match x with Ok _ => true | Err _ => false end.
