(** class Collocation, mpopt.py:3706-4131.

    Two layers.  The pure functions compute every matrix from the configuration
    and the polynomial order.  The stateful functions ([st_...]) model the object
    with its dictionaries [roots] and [polys], which are filled on demand and can
    receive custom roots.  Other parts of the model use the pure layer; that the
    object returns the same results after any history is property C09. *)
From Coq Require Import List Arith ZArith Bool String.
From Verif Require Import Num PyList Mat Poly Roots.
Import ListNotations.
Set Implicit Arguments.
Unset Strict Implicit.

Section Colloc.
Context {N : num}.

(** What a Collocation object captures at construction: the external routines,
    the class attribute D_MATRIX_METHOD, the scheme and CollocationRoots._TAU_MIN,
    _TAU_MAX (mpopt.py:3717, 3739-3742, 4144-4145). *)
Record ccfg := Ccfg {
  cf_lib : lib N;
  cf_meth : dmethod;
  cf_scheme : string;
  cf_tau0 : N;
  cf_tau1 : N
}.

Variable cf : ccfg.
Let m := cf_meth cf.

(** self._taus_fn(degree), mpopt.py:3740, 3801 *)
Definition c_roots (p : nat) : res (list N) :=
  taus_fn (cf_lib cf) (cf_scheme cf) (cf_tau0 cf) (cf_tau1 cf) p.

(** matrix whose (i,j) entry is [f (polys_j) (points_i)]; columns are computed one by one *)
Definition basis_matrix (f : poly N -> N -> res N) (polys : list (poly N)) (pts : list N)
  : res (mat N) :=
  cols <- mapM (fun p => mapM (f p) pts) polys ;;
  Ok (Mat (List.length pts) (List.length polys) (fun i j => nth i (nth j cols []) n0)).

(** Collocation.get_diff_matrix, mpopt.py:3815-3849, on given basis and points *)
Definition diff_matrix_of (polys : list (poly N)) (pts : list N) (order : nat) : res (mat N) :=
  basis_matrix (poly_der_at m order) polys pts.
(** Collocation.get_interpolation_matrix, mpopt.py:3884-3905 *)
Definition interp_matrix_of (polys : list (poly N)) (pts : list N) : res (mat N) :=
  basis_matrix (poly_at m) polys pts.
(** Collocation.get_quadrature_weights, mpopt.py:3851-3882 *)
Definition quad_weights_of (polys : list (poly N)) (a b : N) : res (list N) :=
  mapM (fun p => poly_int m (l_integ (cf_lib cf)) p a b) polys.

(** ** Pure layer *)

Definition diff_matrix (p : nat) (taus : option (list N)) (order : nat) : res (mat N) :=
  r <- c_roots p ;;
  diff_matrix_of (get_lagrange_polynomials m r) (match taus with None => r | Some t => t end) order.
Definition quad_weights (p : nat) (a b : N) : res (list N) :=
  r <- c_roots p ;; quad_weights_of (get_lagrange_polynomials m r) a b.
Definition interp_matrix (taus : list N) (p : nat) : res (mat N) :=
  r <- c_roots p ;; interp_matrix_of (get_lagrange_polynomials m r) taus.

(** assembly of get_composite_differentiation_matrix, mpopt.py:4028-4039 *)
Definition assemble_diff (orders : list nat) (Ds : list (mat N)) : res (mat N) :=
  let n := nsum orders + 1 in
  foldM (fun M '(i, (p, D)) =>
      if Nat.eqb i 0 then set_block M 0 (p + 1) 0 (p + 1) D
      else let start := nsum (firstn i orders) in
           set_block M (start + 1) p start (1 + p) (drop_rows 1 D))
    (enumerate (combine orders Ds)) (zeros n n).
(** get_diff_matrices + get_composite_differentiation_matrix, mpopt.py:3907-3918, 4015-4039.
    The dictionary keyed by distinct orders is modelled by one matrix per segment. *)
Definition comp_diff (orders : list nat) (order : nat) : res (mat N) :=
  Ds <- mapM (fun p => diff_matrix p None order) orders ;;
  assemble_diff orders Ds.

(** assembly of get_composite_quadrature_weights, mpopt.py:4060-4062:
    [quad[p0][0]] + [quad[p][1:] for p in orders] *)
Definition assemble_quad (ws : list (list N)) : res (list N) :=
  w0 <- at_ ws 0 ;;
  a <- at_ w0 0 ;;
  Ok (a :: flat_map (@tl N) ws).
Definition comp_quad (orders : list nat) (a b : N) : res (list N) :=
  ws <- mapM (fun p => quad_weights p a b) orders ;;
  assemble_quad ws.

(** assembly shared by get_composite_interpolation_matrix (mpopt.py:4082-4096) and
    get_composite_interpolation_Dmatrix_at (mpopt.py:4117-4131) *)
Definition assemble_interp (taus : list (list N)) (orders : list nat) (Cs : list (mat N))
  : res (mat N) :=
  let n_taus := map (@List.length N) taus in
  foldM (fun M '(i, (p, C)) =>
      let ni := nth i n_taus 0 in
      if Nat.eqb ni 0 then Ok M
      else set_block M (nsum (firstn i n_taus)) ni (nsum (firstn i orders)) (1 + p) C)
    (enumerate (combine orders Cs)) (zeros (nsum n_taus) (nsum orders + 1)).
Definition comp_interp (taus : list (list N)) (orders : list nat) : res (mat N) :=
  Cs <- mapM (fun '(i, p) => t <- at_ taus i ;; interp_matrix t p) (enumerate orders) ;;
  assemble_interp taus orders Cs.
Definition comp_interpD (taus : list (list N)) (orders : list nat) (order : nat) : res (mat N) :=
  Ds <- mapM (fun '(i, p) => t <- at_ taus i ;; diff_matrix p (Some t) order) (enumerate orders) ;;
  assemble_interp taus orders Ds.

(** ** Stateful layer: one object, any history of calls *)

(** dictionary keys: an order, or a name for custom roots (mpopt.py:3804-3813) *)
Inductive key := KDeg (p : nat) | KStr (s : string).
Definition key_eqb (a b : key) : bool :=
  match a, b with
  | KDeg p, KDeg q => Nat.eqb p q
  | KStr s, KStr t => String.eqb s t
  | _, _ => false
  end.

Record colloc := CollocObj {
  co_orders : list nat;
  co_roots : list (key * list N);
  co_polys : list (key * list (poly N))
}.

(** one iteration of the loops of init_polynomials and
    init_polynomials_with_customized_roots, mpopt.py:3800-3802, 3811-3813 *)
Definition st_set (o : colloc) (k : key) (r : list N) : colloc :=
  CollocObj (co_orders o) (dset key_eqb (co_roots o) k r)
    (dset key_eqb (co_polys o) k (get_lagrange_polynomials m r)).

(** init_polynomials for one key: _taus_fn of a string is a TypeError *)
Definition st_init1 (o : colloc) (k : key) : colloc * res unit :=
  match k with
  | KStr _ => (o, Raise TypeError)
  | KDeg p => match c_roots p with
              | Raise e => (o, Raise e)
              | Ok r => (st_set o k r, Ok tt)
              end
  end.
(** init_polynomials, mpopt.py:3794-3802 *)
Fixpoint st_init (o : colloc) (ks : list key) : colloc * res unit :=
  match ks with
  | [] => (o, Ok tt)
  | k :: ks' => match st_init1 o k with
                | (o', Ok _) => st_init o' ks'
                | (o', Raise e) => (o', Raise e)
                end
  end.
(** Collocation.__init__, mpopt.py:3720-3751 (polynomial_type "lagrange") *)
Definition st_new (orders : list nat) : colloc * res unit :=
  st_init (CollocObj orders [] []) (map KDeg (nodup Nat.eq_dec orders)).
(** init_polynomials_with_customized_roots, mpopt.py:3804-3813 *)
Definition st_custom (o : colloc) (d : list (key * list N)) : colloc :=
  fold_left (fun o '(k, r) => st_set o k r) d o.

(** "if key not in self.roots or key not in self.polys: init_polynomials([key])",
    then read both entries *)
Definition st_basis (o : colloc) (k : key) : colloc * res (list N * list (poly N)) :=
  let '(o', u) := if dmem key_eqb (co_roots o) k && dmem key_eqb (co_polys o) k
                  then (o, Ok tt) else st_init1 o k in
  (o', _ <- u ;; r <- dat key_eqb (co_roots o') k ;; p <- dat key_eqb (co_polys o') k ;; Ok (r, p)).

Definition st_diff_matrix (o : colloc) (k : key) (taus : option (list N)) (order : nat)
  : colloc * res (mat N) :=
  let '(o', b) := st_basis o k in
  (o', '(r, ps) <- b ;; diff_matrix_of ps (match taus with None => r | Some t => t end) order).
Definition st_quad_weights (o : colloc) (k : key) (a b : N) : colloc * res (list N) :=
  let '(o', bs) := st_basis o k in
  (o', '(r, ps) <- bs ;; quad_weights_of ps a b).
Definition st_interp_matrix (o : colloc) (taus : list N) (k : key) : colloc * res (mat N) :=
  let '(o', bs) := st_basis o k in
  (o', '(r, ps) <- bs ;; interp_matrix_of ps taus).

(** threading the object through a list comprehension *)
Fixpoint st_mapM {A B} (f : colloc -> A -> colloc * res B) (o : colloc) (l : list A)
  : colloc * res (list B) :=
  match l with
  | [] => (o, Ok [])
  | a :: l' => match f o a with
               | (o', Raise e) => (o', Raise e)
               | (o', Ok b) => match st_mapM f o' l' with
                               | (o'', Raise e) => (o'', Raise e)
                               | (o'', Ok bs) => (o'', Ok (b :: bs))
                               end
               end
  end.

(** get_composite_differentiation_matrix on the object: a dictionary over the
    distinct orders, then assembly with lookups *)
Definition st_comp_diff (o : colloc) (orders : list nat) (order : nat) : colloc * res (mat N) :=
  let uniq := nodup Nat.eq_dec orders in
  let '(o', r) := st_mapM (fun o p => st_diff_matrix o (KDeg p) None order) o uniq in
  (o', ms <- r ;; Ds <- mapM (fun p => dat Nat.eqb (combine uniq ms) p) orders ;;
       assemble_diff orders Ds).
Definition st_comp_quad (o : colloc) (orders : list nat) (a b : N) : colloc * res (list N) :=
  let uniq := nodup Nat.eq_dec orders in
  let '(o', r) := st_mapM (fun o p => st_quad_weights o (KDeg p) a b) o uniq in
  (o', ms <- r ;; ws <- mapM (fun p => dat Nat.eqb (combine uniq ms) p) orders ;;
       assemble_quad ws).
Definition st_comp_interp (o : colloc) (taus : list (list N)) (orders : list nat)
  : colloc * res (mat N) :=
  let '(o', r) := st_mapM (fun o '(i, p) =>
      match at_ taus i with
      | Raise e => (o, Raise e)
      | Ok t => st_interp_matrix o t (KDeg p)
      end) o (enumerate orders) in
  (o', Cs <- r ;; assemble_interp taus orders Cs).
Definition st_comp_interpD (o : colloc) (taus : list (list N)) (orders : list nat) (order : nat)
  : colloc * res (mat N) :=
  let '(o', r) := st_mapM (fun o '(i, p) =>
      match at_ taus i with
      | Raise e => (o, Raise e)
      | Ok t => st_diff_matrix o (KDeg p) (Some t) order
      end) o (enumerate orders) in
  (o', Cs <- r ;; assemble_interp taus orders Cs).

(** one call on the object, for histories *)
Inductive ccall :=
| CDiff (k : key) (taus : option (list N)) (order : nat)
| CQuad (k : key) (a b : N)
| CInterp (taus : list N) (k : key)
| CCompDiff (orders : list nat) (order : nat)
| CCompQuad (orders : list nat) (a b : N)
| CCompInterp (taus : list (list N)) (orders : list nat)
| CCompInterpD (taus : list (list N)) (orders : list nat) (order : nat)
| CCustom (d : list (key * list N))
| CInit (ks : list nat).
Definition st_call (o : colloc) (c : ccall) : colloc :=
  match c with
  | CDiff k t d => fst (st_diff_matrix o k t d)
  | CQuad k a b => fst (st_quad_weights o k a b)
  | CInterp t k => fst (st_interp_matrix o t k)
  | CCompDiff os d => fst (st_comp_diff o os d)
  | CCompQuad os a b => fst (st_comp_quad o os a b)
  | CCompInterp t os => fst (st_comp_interp o t os)
  | CCompInterpD t os d => fst (st_comp_interpD o t os d)
  | CCustom d => st_custom o d
  | CInit ks => fst (st_init o (map KDeg ks))
  end.
(** the object built for [orders], after the calls [h] *)
Definition run (orders : list nat) (h : list ccall) : colloc :=
  fold_left st_call h (fst (st_new orders)).

End Colloc.
Arguments ccfg N : clear implicits.
Arguments colloc N : clear implicits.
Arguments ccall N : clear implicits.
