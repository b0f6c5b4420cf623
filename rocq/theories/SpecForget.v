(** Strongly dissipative state equations (vocabulary of C95). *)
From Coq Require Import Reals List Arith.
From Verif Require Import Num PyList Mat Poly Roots Colloc Ocp Transcribe Spec SpecOcp SpecTrack SpecContract.
Import ListNotations.
Open Scope R_scope.

(** the right sides draw two states together at the rate [mu] or faster *)
Definition strongly_dissipative (o : ocp Rnum) (ph : nat) (a : option (list R)) (t0 tf mu : R) : Prop :=
  forall t u x x', t0 <= t <= tf -> dotdiff (o_nx o) x x' (fun s => nth s (rhs o ph a x u t) 0) (fun s => nth s (rhs o ph a x' u t) 0) <= - (mu * dotdiff (o_nx o) x x' x x').
