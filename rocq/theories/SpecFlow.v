(** Specification of right sides and running costs for which trajectories exist: Lipschitz in the states, continuous in time. *)
From Coq Require Import Reals List Arith.
From Coquelicot Require Import Coquelicot.
From Coq Require Import List.
From Verif Require Import Num PyList Mat Poly Roots Colloc Ocp Transcribe Spec SpecOcp SpecSmooth SpecTrack SpecReal.
Import ListNotations.
Open Scope R_scope.

(** the right side of phase [ph] is Lipschitz in the states with constant [L], at all times of [t0, tf] and all controls *)
Definition lipschitz (o : ocp Rnum) (ph : nat) (a : option (list R)) (t0 tf L : R) : Prop :=
  forall t u x x' e s, t0 <= t <= tf -> (s < o_nx o)%nat -> (forall i, (i < o_nx o)%nat -> Rabs (x i - x' i) <= e) ->
    Rabs (nth s (rhs o ph a x u t) 0 - nth s (rhs o ph a x' u t) 0) <= L * e.
(** for fixed states and under the control polynomials of each segment, the right side is continuous in time *)
Definition steady (mp : mpo Rnum) (w : nat -> R) (ph : nat) (y : utraj) (cu : nat -> nat -> list R) : Prop :=
  forall k s x t, (k < length (mp_orders mp))%nat -> (s < o_nx (mp_ocp mp))%nat -> seg_start w y k <= t <= seg_start w y (S k) ->
    continuous (fun t => nth s (rhs (mp_ocp mp) ph (a_of (mp_ocp mp) y) x (fun c => peval (cu k c) (local (mp_cf mp) w y k t)) t) 0) t.
(** likewise the running cost *)
Definition run_steady (mp : mpo Rnum) (w : nat -> R) (ph : nat) (y : utraj) (cu : nat -> nat -> list R) : Prop :=
  forall k x t, (k < length (mp_orders mp))%nat -> seg_start w y k <= t <= seg_start w y (S k) ->
    continuous (fun t => run_on (mp_ocp mp) ph (a_of (mp_ocp mp) y) x (fun c => peval (cu k c) (local (mp_cf mp) w y k t)) t) t.
(** starts where the point does *)
Definition begins (mp : mpo Rnum) (y : utraj) (x : nat -> R -> R) : Prop := forall s, (s < o_nx (mp_ocp mp))%nat -> x s (y_t0 y) = y_x y 0 s.
(** times of a phase, whatever the controls and states *)
Definition during (y : utraj) (t : R) (u x : nat -> R) : Prop := y_t0 y <= t <= y_tf y.
