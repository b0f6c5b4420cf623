(** Number types.

    The model is written once, over a structure [num] of numbers, and is then
    used at three instances:
    - [Rnum]: Coq's reals, the instance all semantic theorems are stated at;
    - [Qnum]: rationals, executable and exact (tests only);
    - [Fnum]: IEEE binary64 primitive floats, executable (tests, and the
      statements that are about floating-point behaviour).

    /repo/mpopt/mpopt.py works with Python floats, numpy float64 arrays and
    CasADi DM/SX/MX; the model does not distinguish these containers. *)
From Coq Require Import Reals ZArith QArith List Bool Qround.
From Coq Require Import Floats.
Import ListNotations.

Set Implicit Arguments.
Unset Strict Implicit.

Structure num := Num {
  carrier :> Type;
  n0 : carrier;
  n1 : carrier;
  nadd : carrier -> carrier -> carrier;
  nsub : carrier -> carrier -> carrier;
  nmul : carrier -> carrier -> carrier;
  ndiv : carrier -> carrier -> carrier;
  nopp : carrier -> carrier;
  nltb : carrier -> carrier -> bool;
  nleb : carrier -> carrier -> bool;
  neqb : carrier -> carrier -> bool;
  nsqrt : carrier -> carrier;
  ntrunc : carrier -> Z  (* Python's int(x): truncation toward zero *)
}.

Arguments n0 {_}.
Arguments n1 {_}.
Arguments nadd {_} _ _.
Arguments nsub {_} _ _.
Arguments nmul {_} _ _.
Arguments ndiv {_} _ _.
Arguments nopp {_} _.
Arguments nltb {_} _ _.
Arguments nleb {_} _ _.
Arguments neqb {_} _ _.
Arguments nsqrt {_} _.
Arguments ntrunc {_} _.

Declare Scope num_scope.
Delimit Scope num_scope with num.
Bind Scope num_scope with carrier.
Infix "+" := nadd : num_scope.
Infix "-" := nsub : num_scope.
Infix "*" := nmul : num_scope.
Infix "/" := ndiv : num_scope.
Infix "<?" := nltb : num_scope.
Infix "<=?" := nleb : num_scope.
Infix "=?" := neqb : num_scope.
Notation "- x" := (nopp x) : num_scope.

(** Integer literals (exact in binary64 below 2^53). *)
Fixpoint nofpos {N : num} (p : positive) : N :=
  match p with
  | xH => n1
  | xO q => let a := nofpos q in nadd a a
  | xI q => let a := nofpos q in nadd (nadd a a) n1
  end.
Definition nofZ {N : num} (z : Z) : N :=
  match z with
  | Z0 => n0
  | Zpos p => nofpos p
  | Zneg p => nopp (nofpos p)
  end.
Definition nofnat {N : num} (n : nat) : N := nofZ (Z.of_nat n).
(** Decimal literal [a/b]; in binary64 the division of two exact integers is
    the correctly rounded literal. *)
Definition nlit {N : num} (a b : Z) : N := ndiv (nofZ a) (nofZ b).
Definition n2 {N : num} : N := nadd n1 n1.

(** np.abs, max, min on scalars. *)
Definition nabs {N : num} (x : N) : N := if nltb x n0 then nopp x else x.
Definition nmax {N : num} (x y : N) : N := if nltb x y then y else x.
Definition nmin {N : num} (x y : N) : N := if nltb y x then y else x.

(** ** Instances *)

Definition Rltb (x y : R) : bool := if Rlt_dec x y then true else false.
Definition Rleb (x y : R) : bool := if Rle_dec x y then true else false.
Definition Reqb (x y : R) : bool := if Req_EM_T x y then true else false.
Definition Rtrunc (x : R) : Z :=
  if Rle_dec 0 x then Int_part x else Z.opp (Int_part (Ropp x)).
Canonical Rnum : num :=
  @Num R 0%R 1%R Rplus Rminus Rmult Rdiv Ropp Rltb Rleb Reqb R_sqrt.sqrt Rtrunc.

(** [Qnum]: the square root is not needed by the tests and is left as identity. *)
Definition Qtrunc (x : Q) : Z :=
  if Qle_bool 0 x then Qfloor x else Z.opp (Qfloor (Qopp x)).
Canonical Qnum : num :=
  @Num Q 0%Q 1%Q (fun a b => Qred (a + b)) (fun a b => Qred (a - b))
    (fun a b => Qred (a * b)) (fun a b => Qred (a / b)) Qopp
    (fun a b => negb (Qle_bool b a)) Qle_bool Qeq_bool (fun x => x) Qtrunc.

(** Truncation of a binary64 toward zero (0 for nan and infinities). *)
Definition Ftrunc (x : float) : Z :=
  match Prim2SF x with
  | S754_finite s m e =>
      let a := (if (0 <=? e)%Z then Z.pos m * 2 ^ e else Z.pos m / 2 ^ (- e))%Z in
      if s then Z.opp a else a
  | _ => 0%Z
  end.
Canonical Fnum : num :=
  @Num float 0%float 1%float PrimFloat.add PrimFloat.sub PrimFloat.mul PrimFloat.div
    PrimFloat.opp PrimFloat.ltb PrimFloat.leb PrimFloat.eqb PrimFloat.sqrt Ftrunc.
