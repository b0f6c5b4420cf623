(** Dense matrices (numpy 2-d arrays, CasADi DM/SX/MX), as dimensions plus an
    entry function.  Only entries inside the dimensions are meaningful. *)
From Coq Require Import List Arith ZArith Bool.
From Verif Require Import Num PyList.
Import ListNotations.
Set Implicit Arguments.
Unset Strict Implicit.

Record mat (N : num) := Mat { nr : nat; nc : nat; mget : nat -> nat -> N }.
Arguments Mat {N} nr nc mget.
Arguments nr {N} _.
Arguments nc {N} _.
Arguments mget {N} _ _ _.

Section Mat.
Context {N : num}.

Definition zeros (r c : nat) : mat N := Mat r c (fun _ _ => n0).
Definition eye (n : nat) : mat N := Mat n n (fun i j => if Nat.eqb i j then n1 else n0).
(** M[i, :] as a list *)
Definition mrow (m : mat N) (i : nat) : list N := map (mget m i) (seq 0 (nc m)).
Definition mcol (m : mat N) (j : nat) : list N := map (fun i => mget m i j) (seq 0 (nr m)).
Definition mrows (m : mat N) : list (list N) := map (mrow m) (seq 0 (nr m)).
(** CasADi's M[:]: entries in column-major order *)
Definition mvec (m : mat N) : list N := flat_map (mcol m) (seq 0 (nc m)).
(** block assignment A[r0 : r0+h, c0 : c0+w] = B, which fails when B is not h x w *)
Definition set_block (a : mat N) (r0 h c0 w : nat) (b : mat N) : res (mat N) :=
  if Nat.eqb (nr b) h && Nat.eqb (nc b) w then
    Ok (Mat (nr a) (nc a) (fun i j =>
      if (r0 <=? i) && (i <? r0 + h) && (c0 <=? j) && (j <? c0 + w)
      then mget b (i - r0) (j - c0) else mget a i j))
  else Raise CasadiError.
(** rows from index k on: M[k:, :] *)
Definition drop_rows (k : nat) (m : mat N) : mat N :=
  Mat (nr m - k) (nc m) (fun i j => mget m (i + k) j).
(** M[rows, :] *)
Definition take_rows (rows : list nat) (m : mat N) : mat N :=
  Mat (List.length rows) (nc m) (fun i j => mget m (nth i rows 0) j).
Definition mmul (a b : mat N) : mat N :=
  Mat (nr a) (nc b) (fun i j => sumf (nc a) (fun k => nmul (mget a i k) (mget b k j))).
Definition msub (a b : mat N) : mat N :=
  Mat (nr a) (nc a) (fun i j => nsub (mget a i j) (mget b i j)).
(** matrix times column vector, failing on a dimension mismatch *)
Definition mvmul (a : mat N) (v : list N) : res (list N) :=
  if Nat.eqb (nc a) (List.length v) then
    Ok (map (fun i => sumf (nc a) (fun k => nmul (mget a i k) (nth k v n0))) (seq 0 (nr a)))
  else Raise CasadiError.
(** np.kron / ca.kron *)
Definition kron (a b : mat N) : mat N :=
  Mat (nr a * nr b) (nc a * nc b) (fun i j =>
    nmul (mget a (i / nr b) (j / nc b)) (mget b (i mod nr b) (j mod nc b))).
(** stacking rows of equal length (ca.vertcat of row vectors, np.vstack) *)
Definition mat_of_rows (c : nat) (rows : list (list N)) : res (mat N) :=
  if forallb (fun r => Nat.eqb (List.length r) c) rows then
    Ok (Mat (List.length rows) c (fun i j => nth j (nth i rows []) n0))
  else Raise CasadiError.
(** elementwise product of a vector with a diagonal given as a vector *)
Definition vscale (s v : list N) : list N := map2 nmul s v.
(** diag(s)^-1 v, computed by the code as ca.solve(diag(s), eye) times v *)
Definition vunscale (s v : list N) : list N := map2 (fun a b => nmul (ndiv n1 a) b) s v.
Definition vsub (a b : list N) : list N := map2 nsub a b.

End Mat.
