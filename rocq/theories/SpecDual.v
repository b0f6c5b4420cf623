(** Specification of lower bounds on the cost: functions of time and state, affine in the state, that
    never grow faster than the running cost. *)
From Coq Require Import Reals List Arith.
From Coquelicot Require Import Coquelicot.
From Verif Require Import Num PyList Mat Poly Roots Colloc Ocp Transcribe Spec SpecOcp NumR.
Import ListNotations.
Open Scope R_scope.

(** V(t, x) = c(t) + sum of a_s(t) * x_s; coefficients of the polynomials c and a_s *)
Record vfun := Vfun { v_c : list R; v_a : nat -> list R }.
Definition value (nx : nat) (V : vfun) (t : R) (x : nat -> R) : R := peval (v_c V) t + Rsum nx (fun s => peval (v_a V s) t * x s).

Section Phase.
Variables (o : ocp Rnum) (ph : nat).
(** within the bounds; the first node of phase 0 may be the start values instead *)
Definition allowed_x (x : list R) : Prop :=
  (forall s, (s < o_nx o)%nat -> within (bnd ph (o_lbx o) s) (bnd ph (o_ubx o) s) (nth s x 0)) \/
  ph = O /\ forall s, (s < o_nx o)%nat -> nth s x 0 = nth s (nth 0 (o_x00 o) []) 0.
Definition allowed_u (u : list R) : Prop := forall c, (c < o_nu o)%nat -> within (bnd ph (o_lbu o) c) (bnd ph (o_ubu o) c) (nth c u 0).
Definition allowed_path (x u : list R) (t : R) (a : option (list R)) : Prop :=
  forall k cs c, nth_error (o_path o) ph = Some k -> k x u t a = Ok (Some cs) -> In c cs -> c <= 0.
(** along the state equations V grows at most as fast as the running cost, for times in [ta, tb] *)
Definition slower (ta tb : R) (V : vfun) : Prop :=
  forall f g x u t a d l, nth_error (o_dyn o) ph = Some f -> nth_error (o_run o) ph = Some g ->
    length x = o_nx o -> length u = o_nu o -> arg_ok o a -> ta <= t <= tb ->
    allowed_x x -> allowed_u u -> allowed_path x u t a -> f x u t a = Ok d -> g x u t a = Ok (Some l) ->
    Derive (peval (v_c V)) t + Rsum (o_nx o) (fun s => Derive (peval (v_a V s)) t * nth s x 0 + peval (v_a V s) t * nth s d 0) <= l.
End Phase.
(** terminal cost and growth of V over the phase *)
Definition bound (mp : mpo Rnum) (ph : nat) (y : utraj) (V : vfun) : R :=
  let last := (total_nodes (mp_orders mp) - 1)%nat in
  mayer_val (mp_ocp mp) ph y last + (value (o_nx (mp_ocp mp)) V (y_tf y) (y_x y last) - value (o_nx (mp_ocp mp)) V (y_t0 y) (y_x y 0)).
