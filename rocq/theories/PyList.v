(** Python/numpy list primitives used by the model, and exceptions as values. *)
From Coq Require Import List Arith ZArith Bool String.
From Verif Require Import Num.
Import ListNotations.
Set Implicit Arguments.
Unset Strict Implicit.

(** ** Exceptions *)
Inductive exn :=
| AssertionError | IndexError | KeyError | TypeError | ValueError
| ZeroDivisionError | OverflowError | UnboundLocalError | CasadiError.

Inductive res (A : Type) := Ok (a : A) | Raise (e : exn).
Arguments Ok {A} a.
Arguments Raise {A} e.

Definition bind {A B} (m : res A) (f : A -> res B) : res B :=
  match m with Ok a => f a | Raise e => Raise e end.
Declare Scope res_scope.
Delimit Scope res_scope with res.
Open Scope res_scope.
Notation "x <- m ;; k" := (bind m (fun x => k))
  (at level 61, m at next level, right associativity) : res_scope.
Notation "' p <- m ;; k" := (bind m (fun p => k))
  (at level 61, p pattern, m at next level, right associativity) : res_scope.
Definition assert_ (b : bool) : res unit := if b then Ok tt else Raise AssertionError.

(** Evaluate a list comprehension whose elements may raise, left to right. *)
Fixpoint mapM {A B} (f : A -> res B) (l : list A) : res (list B) :=
  match l with
  | [] => Ok []
  | a :: l' => b <- f a ;; bs <- mapM f l' ;; Ok (b :: bs)
  end.
(** A for loop over a list, with state. *)
Fixpoint foldM {A S} (f : S -> A -> res S) (l : list A) (s : S) : res S :=
  match l with
  | [] => Ok s
  | a :: l' => s' <- f s a ;; foldM f l' s'
  end.

(** ** Indexing *)

(** [l[i]] for a non-negative index *)
Definition at_ {A} (l : list A) (i : nat) : res A :=
  match nth_error l i with Some a => Ok a | None => Raise IndexError end.
(** [l[-1]] *)
Definition last_ {A} (l : list A) : res A :=
  match rev l with [] => Raise IndexError | a :: _ => Ok a end.
(** [l[a:b]] with 0 <= a, b given as a position *)
Definition slice {A} (a b : nat) (l : list A) : list A := firstn (b - a) (skipn a l).
(** [l[:-1]] *)
Definition but_last {A} (l : list A) : list A := firstn (List.length l - 1) l.
(** [l[::2]] *)
Fixpoint every2 {A} (l : list A) : list A :=
  match l with
  | [] => []
  | a :: [] => [a]
  | a :: _ :: l' => a :: every2 l'
  end.
(** enumerate(l) *)
Definition enumerate {A} (l : list A) : list (nat * A) := combine (seq 0 (List.length l)) l.
(** Python's sum() of integers *)
Definition nsum (l : list nat) : nat := fold_left Nat.add l 0.
(** numpy's repeat(l, n): every element n times *)
Definition repeat_each {A} (n : nat) (l : list A) : list A := flat_map (fun a => repeat a n) l.
(** zip/pairwise operations on equally long vectors *)
Fixpoint map2 {A B C} (f : A -> B -> C) (l : list A) (m : list B) : list C :=
  match l, m with
  | a :: l', b :: m' => f a b :: map2 f l' m'
  | _, _ => []
  end.

Section Numeric.
Context {N : num}.

(** Python's sum() / np.sum on a list (left to right) *)
Definition sum_ (l : list N) : N := fold_left nadd l n0.
(** [sum_{k < n} f k], left to right *)
Definition sumf (n : nat) (f : nat -> N) : N := fold_left (fun acc k => nadd acc (f k)) (seq 0 n) n0.
(** np.cumsum *)
Fixpoint cumsum_from (acc : N) (l : list N) : list N :=
  match l with
  | [] => []
  | a :: l' => let s := nadd acc a in s :: cumsum_from s l'
  end.
Definition cumsum (l : list N) : list N :=
  match l with [] => [] | a :: l' => a :: cumsum_from a l' end.
(** np.diff *)
Fixpoint diff_ (l : list N) : list N :=
  match l with
  | a :: ((b :: _) as l') => nsub b a :: diff_ l'
  | _ => []
  end.
(** np.linspace(a, b, n): step (b-a)/(n-1); the last element is set to b *)
Definition linspace (a b : N) (n : nat) : list N :=
  match n with
  | 0 => []
  | 1 => [a]
  | S m => let step := ndiv (nsub b a) (nofnat m) in
           map (fun i => nadd (nmul (nofnat i) step) a) (seq 0 m) ++ [b]
  end.
(** max() of a non-empty list *)
Definition max_ (l : list N) : res N :=
  match l with [] => Raise ValueError | a :: l' => Ok (fold_left nmax l' a) end.
Definition min_ (l : list N) : res N :=
  match l with [] => Raise ValueError | a :: l' => Ok (fold_left nmin l' a) end.
(** np.linalg.norm of a vector (2-norm) *)
Definition norm2 (l : list N) : N := nsqrt (sum_ (map (fun x => nmul x x) l)).

End Numeric.

(** ** Dictionaries (insertion order kept, as in Python >= 3.7) *)
Section Dict.
Context {K V : Type} (eqb : K -> K -> bool).
Fixpoint dget (d : list (K * V)) (k : K) : option V :=
  match d with
  | [] => None
  | (k', v) :: d' => if eqb k k' then Some v else dget d' k
  end.
Fixpoint dset (d : list (K * V)) (k : K) (v : V) : list (K * V) :=
  match d with
  | [] => [(k, v)]
  | (k', v') :: d' => if eqb k k' then (k', v) :: d' else (k', v') :: dset d' k v
  end.
Definition dmem (d : list (K * V)) (k : K) : bool :=
  match dget d k with Some _ => true | None => false end.
(** d[k], raising KeyError *)
Definition dat (d : list (K * V)) (k : K) : res V :=
  match dget d k with Some v => Ok v | None => Raise KeyError end.
End Dict.

(** ** Extended numbers: values of bounds, which may be -inf, inf or nan *)
Inductive ext (T : Type) := NInf | Fin (x : T) | PInf | NaN.
Arguments NInf {T}.
Arguments Fin {T} x.
Arguments PInf {T}.
Arguments NaN {T}.

Section Ext.
Context {N : num}.
(** numpy float64 product of a bound and a (finite) scale: inf times 0 is nan *)
Definition escale (e : ext N) (s : N) : ext N :=
  match e with
  | Fin x => Fin (nmul x s)
  | NaN => NaN
  | PInf => if nltb n0 s then PInf else if nltb s n0 then NInf else NaN
  | NInf => if nltb n0 s then NInf else if nltb s n0 then PInf else NaN
  end.
(** a <= b on floats (false as soon as one is nan) *)
Definition eleb (a b : ext N) : bool :=
  match a, b with
  | NaN, _ | _, NaN => false
  | NInf, _ => true
  | _, PInf => true
  | Fin x, Fin y => nleb x y
  | _, _ => false
  end.
Definition eltb (a b : ext N) : bool :=
  match a, b with
  | NaN, _ | _, NaN => false
  | NInf, NInf => false
  | NInf, _ => true
  | PInf, _ => false
  | _, PInf => true
  | Fin x, Fin y => nltb x y
  | Fin _, NInf => false
  end.
End Ext.
