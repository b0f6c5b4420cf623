(** How numbers and lists of numbers are written in labels (vocabulary of C53). *)
From Coq Require Import List Arith String Ascii.
Import ListNotations.
Open Scope nat_scope.

Definition digit (c : ascii) : option nat := let k := nat_of_ascii c in if andb (48 <=? k) (k <=? 57) then Some (k - 48) else None.
(** the number that the digits of [s] stand for, read from the left after [acc] *)
Fixpoint reads (acc : nat) (s : string) : option nat :=
  match s with
  | EmptyString => Some acc
  | String c s => match digit c with Some d => reads (10 * acc + d) s | None => None end
  end.
(** [s] is [n] in decimal digits, without leading zeros *)
Definition written (n : nat) (s : string) : Prop := reads 0 s = Some n /\ (s = "0"%string \/ exists c s', s = String c s' /\ c <> "0"%char).
Fixpoint with_commas (l : list string) : string := match l with [] => ""%string | [a] => a | a :: l => (a ++ ", " ++ with_commas l)%string end.
(** [s] is the list of the numbers [l] as Python writes it *)
Definition listed (l : list nat) (s : string) : Prop := exists parts, Forall2 written l parts /\ s = ("[" ++ with_commas parts ++ "]")%string.
