(** Specification of problems with linear equations, and of polynomials that satisfy them at all times. *)
From Coq Require Import Reals List Arith.
From Coquelicot Require Import Coquelicot.
From Verif Require Import Num PyList Mat Poly Roots Colloc Ocp Transcribe Spec SpecOcp SpecExact NumR.
Import ListNotations.
Open Scope R_scope.

(** [v] = A x + B u + C t + D *)
Definition affine (o : ocp Rnum) (A B : nat -> R) (C D : R) (x u : list R) (t : R) : R :=
  Rsum (o_nx o) (fun r => A r * nth r x 0) + Rsum (o_nu o) (fun r => B r * nth r u 0) + C * t + D.
(** the right-hand sides of phase [ph] are linear in states, controls and time, with coefficients that may depend on the
    parameters *)
Definition linear_dyn (o : ocp Rnum) (ph : nat) : Prop :=
  forall a, arg_ok o a -> exists A B C D, forall f x u t d, nth_error (o_dyn o) ph = Some f ->
    length x = o_nx o -> length u = o_nu o -> f x u t a = Ok d -> forall s, (s < o_nx o)%nat -> nth s d 0 = affine o (A s) (B s) (C s) (D s) x u t.
(** so is the running cost *)
Definition linear_run (o : ocp Rnum) (ph : nat) : Prop :=
  forall a, arg_ok o a -> exists A B C D, forall f x u t l, nth_error (o_run o) ph = Some f ->
    length x = o_nx o -> length u = o_nu o -> f x u t a = Ok (Some l) -> l = affine o A B C D x u t.
(** product of the differences to some points *)
Fixpoint vanish (r : list R) (x : R) : R := match r with [] => 1 | a :: r' => (x - a) * vanish r' x end.
(** the polynomials satisfy the differential equation, at every time *)
Definition satisfies (o : ocp Rnum) (ph : nat) (P : ptraj) : Prop :=
  forall t s, (s < o_nx o)%nat -> is_derive (peval (p_x P s)) t (nth s (dyn_val o ph (at_time P t) 0 t) 0).
(** they keep the bounds and path constraints between the nodes too *)
Definition inside (o : ocp Rnum) (ph : nat) (P : ptraj) : Prop :=
  forall t, p_t0 P <= t <= p_tf P ->
    (forall c, In c (path_val o ph (at_time P t) 0 t) -> c <= 0) /\
    (forall s, (s < o_nx o)%nat -> within (bnd ph (o_lbx o) s) (bnd ph (o_ubx o) s) (peval (p_x P s) t)) /\
    (forall c, (c < o_nu o)%nat -> within (bnd ph (o_lbu o) c) (bnd ph (o_ubu o) c) (peval (p_u P c) t)).
(** no bounds of states and controls and no path constraints *)
Definition unbounded (o : ocp Rnum) (npath : nat -> option nat) : Prop :=
  forall ph, (ph < o_nph o)%nat -> npath ph = None /\
    (forall s, (s < o_nx o)%nat -> bnd ph (o_lbx o) s = NInf /\ bnd ph (o_ubx o) s = PInf) /\
    (forall c, (c < o_nu o)%nat -> bnd ph (o_lbu o) c = NInf /\ bnd ph (o_ubu o) c = PInf).
