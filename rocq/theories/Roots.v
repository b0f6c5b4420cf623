(** class CollocationRoots, mpopt.py:4134-4276 *)
From Coq Require Import List Arith ZArith Bool String.
From Verif Require Import Num PyList.
Import ListNotations.
Set Implicit Arguments.
Unset Strict Implicit.

(** External numerical routines used by the package. *)
Record lib (N : num) := Lib {
  l_cos : N -> N;                          (* np.cos *)
  l_pi : N;                                (* np.pi *)
  l_leggauss : nat -> list N;              (* np.polynomial.legendre.leggauss(n)[0], n >= 1 *)
  l_j_roots : nat -> N -> N -> list N;     (* scipy.special.j_roots(n, alpha, beta)[0] *)
  l_integ : (N -> N) -> N -> N -> N        (* ca.integrator: integral of f from a to b *)
}.

Section Roots.
Context {N : num} (L : lib N).

(** tau_min + (tau_max - tau_min) / 2 * (r + 1), elementwise *)
Definition scale_roots (tmin tmax : N) (rs : list N) : list N :=
  map (fun r => nadd tmin (nmul (ndiv (nsub tmax tmin) n2) (nadd r n1))) rs.

(** roots_legendre_gauss, mpopt.py:4190-4205.  leggauss raises ValueError for a
    non-positive number of points. *)
Definition lg_roots (tmin tmax : N) (deg : nat) : res (list N) :=
  if deg <=? 1 then Raise ValueError
  else Ok (scale_roots tmin tmax (nopp n1 :: l_leggauss L (deg - 1))).

(** roots_legendre_gauss_radau, mpopt.py:4207-4231 *)
Definition lgr_roots (tmin tmax : N) (deg : nat) : res (list N) :=
  if 1 <? deg then
    Ok (scale_roots tmin tmax ((nopp n1 :: l_j_roots L (deg - 1) n1 n0) ++ [n1]))
  else if Nat.eqb deg 1 then Ok [tmin; tmax]
  else Ok [n0].

(** roots_legendre_gauss_lobatto, mpopt.py:4233-4259 *)
Definition lgl_roots (tmin tmax : N) (deg : nat) : res (list N) :=
  if 1 <? deg then
    Ok (scale_roots tmin tmax ((nopp n1 :: l_j_roots L (deg - 1) n1 n1) ++ [n1]))
  else if Nat.eqb deg 1 then Ok [tmin; tmax]
  else Ok [n0].

(** roots_chebyshev_gauss_lobatto, mpopt.py:4261-4276.  np.pi * j / 0 is a Python
    float division. *)
Definition cgl_roots (tmin tmax : N) (deg : nat) : res (list N) :=
  if Nat.eqb deg 0 then Raise ZeroDivisionError
  else Ok (scale_roots tmin tmax
             (rev (map (fun j => l_cos L (ndiv (nmul (l_pi L) (nofnat j)) (nofnat deg)))
                       (seq 0 (deg + 1))))).

(** unknown scheme, mpopt.py:4182-4188 *)
Definition unknown_roots (tmin tmax : N) (n_nodes : nat) : res (list N) :=
  if 1 <? n_nodes then Ok (linspace tmin tmax n_nodes) else Ok [tmin; tmax].

(** get_collocation_points, mpopt.py:4157-4188 *)
Definition taus_fn (scheme : string) (tmin tmax : N) (deg : nat) : res (list N) :=
  if String.eqb scheme "LG" then lg_roots tmin tmax deg
  else if String.eqb scheme "LGR" then lgr_roots tmin tmax deg
  else if String.eqb scheme "LGL" then lgl_roots tmin tmax deg
  else if String.eqb scheme "CGL" then cgl_roots tmin tmax deg
  else unknown_roots tmin tmax deg.

End Roots.
