(** Basis polynomials in the two representations used by class Collocation:
    CasADi expressions in TVAR ("symbolic") and numpy.poly1d ("numerical"). *)
From Coq Require Import List Arith ZArith Bool.
From Verif Require Import Num PyList.
Import ListNotations.
Set Implicit Arguments.
Unset Strict Implicit.

Section Poly.
Context {N : num}.

(** ** CasADi SX expressions in one variable (the part used by the code) *)
Inductive expr :=
| EConst (c : N)
| EVar
| EAdd (a b : expr)
| ESub (a b : expr)
| EMul (a b : expr)
| EDiv (a b : expr).

(** ca.Function("p", [t], [e]) applied to a number *)
Fixpoint eeval (e : expr) (x : N) : N :=
  match e with
  | EConst c => c
  | EVar => x
  | EAdd a b => nadd (eeval a x) (eeval b x)
  | ESub a b => nsub (eeval a x) (eeval b x)
  | EMul a b => nmul (eeval a x) (eeval b x)
  | EDiv a b => ndiv (eeval a x) (eeval b x)
  end.

(** ca.gradient(e, t): modelled by the textbook rules.  CasADi's algorithmic
    differentiation builds a differently shaped, mathematically equal expression. *)
Fixpoint egrad (e : expr) : expr :=
  match e with
  | EConst _ => EConst n0
  | EVar => EConst n1
  | EAdd a b => EAdd (egrad a) (egrad b)
  | ESub a b => ESub (egrad a) (egrad b)
  | EMul a b => EAdd (EMul (egrad a) b) (EMul a (egrad b))
  | EDiv a b => EDiv (ESub (EMul (egrad a) b) (EMul a (egrad b))) (EMul b b)
  end.

(** ** numpy.poly1d, as the list of coefficients from degree 0 upwards
    (numpy stores them from the highest degree downwards) *)
Definition pcoef := list N.
(** np.polyval: Horner *)
Fixpoint pval (p : pcoef) (x : N) : N :=
  match p with
  | [] => n0
  | a :: p' => nadd a (nmul x (pval p' x))
  end.
Definition pscale (c : N) (p : pcoef) : pcoef := map (nmul c) p.
Definition pdivc (p : pcoef) (c : N) : pcoef := map (fun a => ndiv a c) p.
Fixpoint padd (p q : pcoef) : pcoef :=
  match p, q with
  | [], _ => q
  | _, [] => p
  | a :: p', b :: q' => nadd a b :: padd p' q'
  end.
(** np.polymul *)
Fixpoint pmul (p q : pcoef) : pcoef :=
  match p with
  | [] => []
  | a :: p' => padd (pscale a q) (n0 :: pmul p' q)
  end.
(** np.polyder *)
Fixpoint pder_from (k : nat) (p : pcoef) : pcoef :=
  match p with
  | [] => []
  | a :: p' => nmul (nofnat k) a :: pder_from (S k) p'
  end.
Definition pder (p : pcoef) : pcoef :=
  match p with [] => [] | _ :: p' => pder_from 1 p' end.
(** np.polyint, integration constant 0 *)
Fixpoint pint_from (k : nat) (p : pcoef) : pcoef :=
  match p with
  | [] => []
  | a :: p' => ndiv a (nofnat k) :: pint_from (S k) p'
  end.
Definition pint (p : pcoef) : pcoef := n0 :: pint_from 1 p.

(** A basis polynomial as stored in Collocation.polys *)
Inductive poly := PSym (e : expr) | PNum (p : pcoef).

(** class attribute Collocation.D_MATRIX_METHOD: "symbolic" or anything else
    (mpopt.py:3717, 3832, 3868, 3898, 3998) *)
Inductive dmethod := Symbolic | Numerical.

(** Collocation.get_lagrange_polynomials, mpopt.py:3988-4013.
    [i != j] is decided on positions, as in the code. *)
Definition lagrange_sym (roots : list N) (j : nat) : expr :=
  let rj := nth j roots n0 in
  fold_left (fun p '(i, ri) =>
      if Nat.eqb i j then p
      else EMul p (EDiv (ESub EVar (EConst ri)) (EConst (nsub rj ri))))
    (enumerate roots) (EConst n1).
Definition lagrange_num (roots : list N) (j : nat) : pcoef :=
  let rj := nth j roots n0 in
  fold_left (fun p '(i, ri) =>
      if Nat.eqb i j then p
      else pmul p (pdivc [nopp ri; n1] (nsub rj ri)))
    (enumerate roots) [n1].
Definition get_lagrange_polynomials (m : dmethod) (roots : list N) : list poly :=
  map (fun j => match m with
                | Symbolic => PSym (lagrange_sym roots j)
                | Numerical => PNum (lagrange_num roots j)
                end) (seq 0 (List.length roots)).

(** pder of order 1 or 2 evaluated at a point (mpopt.py:3831-3847).  With another
    order the local [pder] is never bound.  A poly1d given to ca.gradient, or an SX
    given to np.polyder, is a type error (only possible when D_MATRIX_METHOD is
    changed between construction and use of one object). *)
Definition poly_der_at (m : dmethod) (order : nat) (p : poly) (x : N) : res N :=
  match m, p with
  | Symbolic, PSym e =>
      if Nat.eqb order 1 then Ok (eeval (egrad e) x)
      else if Nat.eqb order 2 then Ok (eeval (egrad (egrad e)) x)
      else Raise UnboundLocalError
  | Numerical, PNum c =>
      if Nat.eqb order 1 then Ok (pval (pder c) x)
      else if Nat.eqb order 2 then Ok (pval (pder (pder c)) x)
      else Raise UnboundLocalError
  | _, _ => if Nat.eqb order 1 || Nat.eqb order 2 then Raise TypeError else Raise UnboundLocalError
  end.

(** value at a point (mpopt.py:3897-3903) *)
Definition poly_at (m : dmethod) (p : poly) (x : N) : res N :=
  match m, p with
  | Symbolic, PSym e => Ok (eeval e x)
  | Numerical, PNum c => Ok (pval c x)
  | _, _ => Raise TypeError
  end.

(** definite integral (mpopt.py:3867-3880).  [integ f a b] stands for the value
    computed by casadi.integrator("idas") for x' = f(t), x(a) = 0, at t = b. *)
Definition poly_int (m : dmethod) (integ : (N -> N) -> N -> N -> N) (p : poly) (a b : N) : res N :=
  match m, p with
  | Symbolic, PSym e => Ok (integ (eeval e) a b)
  | Numerical, PNum c => Ok (nsub (pval (pint c) b) (pval (pint c) a))
  | _, _ => Raise TypeError
  end.

End Poly.
Arguments expr N : clear implicits.
Arguments poly N : clear implicits.
Arguments pcoef N : clear implicits.
