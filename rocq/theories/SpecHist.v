(** Specification of histories of operations: how often the solver may be called, and what the user's objects hold. *)
From Coq Require Import List Arith.
From Verif Require Import Num PyList Mat Roots Colloc Ocp Transcribe Solve Objects.
Import ListNotations.

Section Hist.
Context {N : num}.
(** at most this many solver calls: one per call of mpopt.solve, max_iter per call of mpopt_h_adaptive.solve *)
Fixpoint budget (l : list (op (N := N))) : nat :=
  match l with
  | [] => 0
  | OSolve _ :: l' => 1 + budget l'
  | OHSolve _ n :: l' => n + budget l'
  | OSet _ _ :: l' => budget l'
  end.
(** the same object with other iteration counts *)
Definition recount (s : ost (N := N)) (it : nat) (info : list (nat * option N)) : ost :=
  Ost (st_solver s) (st_sw s) it info (st_calls s) (st_dicts s).
(** what the user last wrote to list [a] or to problem [a], from [x] on *)
Definition list_written (a : nat) (x : list nat) (us : list (ustep N)) : list nat :=
  fold_left (fun x u => match u with USetList i l => if Nat.eqb i a then l else x | _ => x end) us x.
Definition ocp_written (a : nat) (x : ocp_obj N) (us : list (ustep N)) : ocp_obj N :=
  fold_left (fun x u => match u with USetOcp i ob => if Nat.eqb i a then ob else x | _ => x end) us x.
End Hist.
