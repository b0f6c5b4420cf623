(** Specification of problems whose running cost is a combination of the right-hand sides of the
    state equations and a constant, and of the cost their exact solutions have. *)
From Coq Require Import Reals List Arith.
From Coquelicot Require Import Coquelicot.
From Verif Require Import Num PyList Mat Poly Roots Colloc Ocp Transcribe Spec SpecOcp NumR.
Import ListNotations.
Open Scope R_scope.

(** running cost = sum of [alpha s] * (derivative of state s) + [beta], in phase [ph] *)
Definition cost_rate (o : ocp Rnum) (ph : nat) (alpha : nat -> R) (beta : R) : Prop :=
  forall f g x u t a d l, nth_error (o_dyn o) ph = Some f -> nth_error (o_run o) ph = Some g ->
    length x = o_nx o -> length u = o_nu o -> arg_ok o a -> f x u t a = Ok d -> g x u t a = Ok (Some l) ->
    l = Rsum (o_nx o) (fun s => alpha s * nth s d 0) + beta.

Section Phase.
Variables (mp : mpo Rnum) (rs : list (list R)) (w : nat -> R) (ph : nat) (y : utraj) (alpha : nat -> R) (beta : R).
Let o := mp_ocp mp.
Let last := (total_nodes (mp_orders mp) - 1)%nat.
(** terminal cost, change of the states over the phase, duration *)
Definition balance : R :=
  mayer_val o ph y last + Rsum (o_nx o) (fun s => alpha s * (y_x y last s - y_x y 0 s)) +
  beta * ((y_tf y - y_t0 y) * Rsum (length (mp_orders mp)) w).
(** [c k s] is the polynomial of state s on segment k *)
Definition state_polys (c : nat -> nat -> list R) : Prop :=
  forall k s, (k < length (mp_orders mp))%nat -> (s < o_nx o)%nat ->
    seg_interp (mp_orders mp) k (nth k rs []) (fun i => y_x y i s) (c k s).
(** what the first nodes of all segments but the first would add *)
Definition start_rate (B : nat -> list R) (c : nat -> nat -> list R) : R :=
  Rsum (length (mp_orders mp) - 1) (fun k =>
    RInt (peval (B (S k))) (cf_tau0 (mp_cf mp)) (cf_tau1 (mp_cf mp)) *
    (Rsum (o_nx o) (fun s => alpha s * Derive (peval (c (S k) s)) (cf_tau0 (mp_cf mp))) + beta * seg_h (mp_cf mp) w y (S k))).
End Phase.
