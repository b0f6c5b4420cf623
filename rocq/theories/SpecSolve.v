(** Specification of solving, independent of the model's methods. *)
From Coq Require Import List Arith ZArith Bool String.
From Verif Require Import Num PyList Mat Poly Roots Colloc Ocp Transcribe Solve.
Import ListNotations.
Open Scope string_scope.
Set Implicit Arguments.
Unset Strict Implicit.

Section Spec.
Context {N : num}.

(** the last entry of a dictionary (in insertion order) whose key is one of [ks] *)
Definition last_entry {V} (d : list (string * V)) (ks : list string) : option V :=
  option_map snd (find (fun e => existsb (String.eqb (fst e)) ks) (rev d)).

(** what the solver must receive, given the user's dictionary and the default guess *)
Definition warm_ok (s : sdict (N := N)) (guess : list N) (r : sdict) : Prop :=
  forall k, dget String.eqb r k =
    if String.eqb k "x0" then Some (match last_entry s ["x"; "x0"] with Some v => v | None => guess end)
    else if String.eqb k "lam_x0" then last_entry s ["lam_x"; "lam_x0"]
    else if String.eqb k "lam_g0" then last_entry s ["lam_g"; "lam_g0"]
    else None.

(** the effective options: the user's, else the defaults for ipopt *)
Definition ipopt_default (k : string) : option (val (N := N)) :=
  if String.eqb k "ipopt.max_iter" then Some (VInt 2000)
  else if String.eqb k "ipopt.acceptable_tol" then Some (VDec 1 10000)
  else if String.eqb k "ipopt.print_level" then Some (VInt 0)
  else if String.eqb k "ipopt.sb" then Some (VStr "yes")
  else if String.eqb k "print_time" then Some (VInt 0)
  else None.
Definition options_ok (solver : string) (user eff : odict (N := N)) : Prop :=
  forall k, dget String.eqb eff k =
    match dget String.eqb user k with
    | Some v => Some v
    | None => if String.eqb solver "ipopt" then ipopt_default k else None
    end.

(** every solver call starts from the result of the one before it; the widths it uses are p *)
Fixpoint chained (mp : mpo N) (init : option sdict) (l : list call) : Prop :=
  match l with
  | [] => True
  | c :: l' =>
      (exists i p, warm_start mp init = Ok i /\ ca_in c = dset String.eqb i "p" p) /\
      match ca_out c with Ok out => chained mp (Some out) l' | Raise _ => l' = [] end
  end.
(** the segment widths a call used *)
Definition used_widths (c : call (N := N)) : option (list N) := dget String.eqb (ca_in c) "p".

(** operations of class mpopt *)
Definition base_op (x : op (N := N)) : Prop := match x with OHSolve _ _ => False | _ => True end.
(** operations that do not ask for a new solver object *)
Definition keeps_solver (x : op (N := N)) : Prop :=
  match x with OSolve a => a_reinit a = false | OHSolve a _ => a_reinit a = false | OSet _ _ => True end.
(** the dictionaries as the user wrote them *)
Fixpoint written (dicts : list (odict (N := N))) (l : list op) : list odict :=
  match l with
  | [] => dicts
  | OSet i d :: l' => written (replace_nth dicts i d) l'
  | _ :: l' => written dicts l'
  end.
Definition no_solve (x : op (N := N)) : Prop := match x with OSet _ _ => True | _ => False end.
End Spec.
