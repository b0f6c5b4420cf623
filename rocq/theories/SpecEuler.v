(** Convex functions that the state equations do not increase (vocabulary of C94). *)
From Coq Require Import Reals List Arith.
From Verif Require Import Num PyList Mat Poly Roots Colloc Ocp Transcribe Spec SpecOcp SpecTrack.
Import ListNotations.
Open Scope R_scope.

(** [V] is nowhere below its supporting planes, which have the slopes [G] *)
Definition supports (n : nat) (V : (nat -> R) -> R) (G : (nat -> R) -> nat -> R) : Prop :=
  forall x x', V x + Rsum n (fun s => G x s * (x' s - x s)) <= V x'.
(** [V] does not grow in the direction of the right sides at states and controls within the bounds of a phase *)
Definition not_growing (o : ocp Rnum) (ph : nat) (a : option (list R)) (t0 tf : R) (G : (nat -> R) -> nat -> R) : Prop :=
  forall t u x, t0 <= t <= tf -> (forall s, (s < o_nx o)%nat -> within (bnd ph (o_lbx o) s) (bnd ph (o_ubx o) s) (x s)) ->
    (forall c, (c < o_nu o)%nat -> within (bnd ph (o_lbu o) c) (bnd ph (o_ubu o) c) (u c)) ->
    Rsum (o_nx o) (fun s => G x s * nth s (rhs o ph a x u t) 0) <= 0.
