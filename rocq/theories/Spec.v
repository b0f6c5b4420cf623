(** Specification vocabulary: finite sums, polynomials given by their coefficients,
    interpolation, Jacobi roots, assumptions on the external routines.  Nothing here
    uses the functions of the model (only its input types). *)
From Coq Require Import Reals.
From Coquelicot Require Import Coquelicot.
From Coq Require Import String.
From Verif Require Import Num PyList Mat Poly Roots Colloc.
From Coq Require Import List.
Import ListNotations.
Open Scope R_scope.

(** sum of f k for k < n *)
Fixpoint Rsum (n : nat) (f : nat -> R) : R :=
  match n with O => 0 | S k => Rsum k f + f k end.

(** c0 + c1 x + c2 x^2 + ... *)
Fixpoint peval (c : list R) (x : R) : R :=
  match c with [] => 0 | a :: c' => a + x * peval c' x end.

(** product of (x - r) over a list *)
Fixpoint prod_roots (rs : list R) (x : R) : R :=
  match rs with [] => 1 | r :: rs' => (x - r) * prod_roots rs' x end.

(** [c] is a polynomial of degree < length xs with value (ys k) at the k-th node *)
Definition interpolates (c : list R) (xs : list R) (ys : nat -> R) : Prop :=
  (length c <= length xs)%nat /\
  forall k, (k < length xs)%nat -> peval c (nth k xs 0) = ys k.

(** strictly increasing *)
Definition increasing (l : list R) : Prop :=
  forall i j, (i < j < length l)%nat -> nth i l 0 < nth j l 0.

(** [r] are the roots of the Jacobi polynomial of degree n for the weight
    (1-x)^a (1+x)^b: n increasing points inside (-1,1) whose node polynomial is
    orthogonal to all polynomials of lower degree. *)
Definition jacobi_roots (n a b : nat) (r : list R) : Prop :=
  length r = n /\ increasing r /\ (forall x, In x r -> -1 < x < 1) /\
  forall q, (length q <= n)%nat ->
    RInt (fun x => (1 - x) ^ a * (1 + x) ^ b * prod_roots r x * peval q x) (-1) 1 = 0.

(** position of the first node of segment k when segment k has order (nth k orders):
    sum of the first k orders *)
Fixpoint offset (orders : list nat) (k : nat) : nat :=
  match orders, k with
  | p :: ps, S k' => (p + offset ps k')%nat
  | _, _ => 0%nat
  end.
(** number of nodes of the whole phase *)
Definition total_nodes (orders : list nat) : nat := (offset orders (length orders) + 1)%nat.

(** what "collocation points of order p" must be *)
Definition good_nodes (t0 t1 : R) (p : nat) (r : list R) : Prop :=
  length r = S p /\ increasing r /\ nth 0 r 0 = t0 /\ nth p r 0 = t1.

(** segment interpolant: c is a polynomial of order p through the data of segment k *)
Definition seg_interp (orders : list nat) (k : nat) (r : list R) (ys : nat -> R) (c : list R) : Prop :=
  interpolates c r (fun j => ys (offset orders k + j)%nat).

(** the external routines behave as documented: cosine and pi, exact integration of
    continuous functions, and roots of the Jacobi polynomials used by LGR (1,0) and LGL (1,1) *)
Definition integ_exact (ig : (R -> R) -> R -> R -> R) : Prop :=
  forall f a b, (forall x, continuous f x) -> ig f a b = RInt f a b.
Record lib_ok (L : lib Rnum) : Prop := {
  lo_cos : forall x, l_cos L x = cos x;
  lo_pi : l_pi L = PI;
  lo_radau : forall n, (1 <= n)%nat -> jacobi_roots n 1 0 (l_j_roots L n 1 0);
  lo_lobatto : forall n, (1 <= n)%nat -> jacobi_roots n 1 1 (l_j_roots L n 1 1);
  lo_integ : integ_exact (l_integ L)
}.
(** a supported collocation scheme on a non-degenerate interval *)
Record cfg_ok (cf : ccfg Rnum) : Prop := {
  co_lib : lib_ok (cf_lib cf);
  co_scheme : In (cf_scheme cf) ["LGR"; "LGL"; "CGL"]%string;
  co_taus : cf_tau0 cf < cf_tau1 cf
}.

(** the same configuration with the given setting of D_MATRIX_METHOD *)
Definition with_meth (cf : ccfg Rnum) (m : dmethod) : ccfg Rnum :=
  Ccfg (cf_lib cf) m (cf_scheme cf) (cf_tau0 cf) (cf_tau1 cf).

(** calls that register roots under the integer key p *)
Definition overrides {N : num} (p : nat) (c : ccall N) : Prop :=
  match c with CCustom d => In (KDeg p) (map fst d) | _ => False end.
(** calls that set the entry of key k *)
Definition resets {N : num} (k : key) (c : ccall N) : Prop :=
  match c with
  | CCustom d => In k (map fst d)
  | CInit ps => In k (map KDeg ps)
  | _ => False
  end.

(** equality of matrices: same dimensions, same entries inside them *)
Definition mat_eq (A B : mat Rnum) : Prop :=
  nr A = nr B /\ nc A = nc B /\
  forall i j, (i < nr A)%nat -> (j < nc A)%nat -> mget A i j = mget B i j.
(** row i of a matrix applied to data *)
Definition row_dot (M : mat Rnum) (i : nat) (ys : nat -> R) : R :=
  Rsum (nc M) (fun j => mget M i j * ys j).
