(** How fast the state equations drive two states apart (vocabulary of C96). *)
From Coq Require Import Reals List Arith.
From Verif Require Import Num PyList Mat Poly Roots Colloc Ocp Transcribe Spec SpecOcp SpecTrack SpecContract.
Import ListNotations.
Open Scope R_scope.

(** the right sides drive two states apart at the rate [L] or less; [L] may be negative *)
Definition spreading (o : ocp Rnum) (ph : nat) (a : option (list R)) (t0 tf L : R) : Prop :=
  forall t u x x', t0 <= t <= tf -> dotdiff (o_nx o) x x' (fun s => nth s (rhs o ph a x u t) 0) (fun s => nth s (rhs o ph a x' u t) 0) <= L * dotdiff (o_nx o) x x' x x'.
