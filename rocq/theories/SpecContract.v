(** Dissipative state equations and distances of states (vocabulary of C92). *)
From Coq Require Import Reals List Arith.
From Verif Require Import Num PyList Mat Poly Roots Colloc Ocp Transcribe Spec SpecOcp SpecTrack.
Import ListNotations.
Open Scope R_scope.

(** scalar product of differences *)
Definition dotdiff (n : nat) (a a' b b' : nat -> R) : R := Rsum n (fun s => (a s - a' s) * (b s - b' s)).
(** the right sides at two states differ by a vector that does not point from the second to the first *)
Definition dissipative (o : ocp Rnum) (ph : nat) (a : option (list R)) (t0 tf : R) : Prop :=
  forall t u x x', t0 <= t <= tf -> dotdiff (o_nx o) x x' (fun s => nth s (rhs o ph a x u t) 0) (fun s => nth s (rhs o ph a x' u t) 0) <= 0.
(** strictly so for different states *)
Definition strictly_dissipative (o : ocp Rnum) (ph : nat) (a : option (list R)) (t0 tf : R) : Prop :=
  forall t u x x', t0 <= t <= tf -> (exists s, (s < o_nx o)%nat /\ x s <> x' s) -> dotdiff (o_nx o) x x' (fun s => nth s (rhs o ph a x u t) 0) (fun s => nth s (rhs o ph a x' u t) 0) < 0.
(** squared distance of the states at a node *)
Definition gap2 (o : ocp Rnum) (y y' : utraj) (i : nat) : R := dotdiff (o_nx o) (y_x y i) (y_x y' i) (y_x y i) (y_x y' i).
