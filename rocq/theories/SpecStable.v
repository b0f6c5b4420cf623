(** Right sides that are Lipschitz in states and controls (vocabulary of C90). *)
From Coq Require Import Reals List Arith.
From Verif Require Import Num PyList Mat Poly Roots Colloc Ocp Transcribe Spec SpecOcp SpecTrack.
Import ListNotations.
Open Scope R_scope.

(** the right side of phase [ph] is Lipschitz with constant [L] in the states and [M] in the controls, at all times of [t0, tf] *)
Definition lipschitz2 (o : ocp Rnum) (ph : nat) (a : option (list R)) (t0 tf L M : R) : Prop :=
  forall t u u' x x' e d s, t0 <= t <= tf -> (s < o_nx o)%nat -> (forall i, (i < o_nx o)%nat -> Rabs (x i - x' i) <= e) -> (forall c, (c < o_nu o)%nat -> Rabs (u c - u' c) <= d) ->
    Rabs (nth s (rhs o ph a x u t) 0 - nth s (rhs o ph a x' u' t) 0) <= L * e + M * d.
