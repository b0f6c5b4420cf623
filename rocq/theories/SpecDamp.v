(** Equations that damp the distance from a point (vocabulary of C93). *)
From Coq Require Import Reals List Arith.
From Verif Require Import Num PyList Mat Poly Roots Colloc Ocp Transcribe Spec SpecOcp SpecTrack.
Import ListNotations.
Open Scope R_scope.

(** the right sides at states and controls within the bounds of a phase do not point away from [e] *)
Definition damped (o : ocp Rnum) (ph : nat) (a : option (list R)) (t0 tf : R) (e : nat -> R) : Prop :=
  forall t u x, t0 <= t <= tf -> (forall s, (s < o_nx o)%nat -> within (bnd ph (o_lbx o) s) (bnd ph (o_ubx o) s) (x s)) ->
    (forall c, (c < o_nu o)%nat -> within (bnd ph (o_lbu o) c) (bnd ph (o_ubu o) c) (u c)) ->
    Rsum (o_nx o) (fun s => (x s - e s) * nth s (rhs o ph a x u t) 0) <= 0.
(** squared distance of [x] from [e] *)
Definition energy (o : ocp Rnum) (e x : nat -> R) : R := Rsum (o_nx o) (fun s => (x s - e s) * (x s - e s)).
