(** Specification of the cost of the trajectory that the controls of a solution really lead to. *)
From Coq Require Import Reals List Arith.
From Coquelicot Require Import Coquelicot.
From Coq Require Import List.
From Verif Require Import Num PyList Mat Poly Roots Colloc Ocp Transcribe Spec SpecOcp SpecSmooth SpecTrack.
Import ListNotations.
Open Scope R_scope.

(** running and terminal cost of phase [ph] at given states and controls *)
Definition run_on (o : ocp Rnum) (ph : nat) (a : option (list R)) (x u : nat -> R) (t : R) : R :=
  match nth_error (o_run o) ph with
  | Some f => match f (vec (o_nx o) x) (vec (o_nu o) u) t a with Ok (Some l) => l | _ => 0 end
  | None => 0
  end.
Definition mayer_on (o : ocp Rnum) (ph : nat) (a : option (list R)) (xf : nat -> R) (tf : R) (x0 : nat -> R) (t0 : R) : R :=
  match nth_error (o_mayer o) ph with
  | Some f => match f (vec (o_nx o) xf) tf (vec (o_nx o) x0) t0 a with Ok (Some l) => l | _ => 0 end
  | None => 0
  end.
(** running cost over time on segment k: along the polynomials, and along [x] *)
Definition run_time (mp : mpo Rnum) (w : nat -> R) (ph : nat) (y : utraj) (cx cu : nat -> nat -> list R) (k : nat) (t : R) : R :=
  let tau := local (mp_cf mp) w y k t in
  run_on (mp_ocp mp) ph (a_of (mp_ocp mp) y) (fun s => peval (cx k s) tau) (fun c => peval (cu k c) tau) t.
Definition run_real (mp : mpo Rnum) (w : nat -> R) (ph : nat) (y : utraj) (cu : nat -> nat -> list R) (x : nat -> R -> R) (k : nat) (t : R) : R :=
  run_on (mp_ocp mp) ph (a_of (mp_ocp mp) y) (fun s => x s t) (fun c => peval (cu k c) (local (mp_cf mp) w y k t)) t.
(** cost of phase [ph] along [x]: terminal cost plus the integral over time of the running cost *)
Definition real_cost (mp : mpo Rnum) (w : nat -> R) (ph : nat) (y : utraj) (cu : nat -> nat -> list R) (x : nat -> R -> R) : R :=
  mayer_on (mp_ocp mp) ph (a_of (mp_ocp mp) y) (fun s => x s (y_tf y)) (y_tf y) (fun s => x s (y_t0 y)) (y_t0 y) +
  Rsum (length (mp_orders mp)) (fun k => RInt (run_real mp w ph y cu x k) (seg_start w y k) (seg_start w y (S k))).
(** Lipschitz conditions in the states, for states in [D] or end states in [E] *)
Definition run_lip (o : ocp Rnum) (ph : nat) (a : option (list R)) (D : R -> (nat -> R) -> (nat -> R) -> Prop) (L : R) : Prop :=
  forall t u x x' e, D t u x -> D t u x' -> (forall s, (s < o_nx o)%nat -> Rabs (x s - x' s) <= e) -> Rabs (run_on o ph a x u t - run_on o ph a x' u t) <= L * e.
Definition mayer_lip (o : ocp Rnum) (ph : nat) (a : option (list R)) (E : (nat -> R) -> Prop) (tf : R) (x0 : nat -> R) (t0 L : R) : Prop :=
  forall x x' e, E x -> E x' -> (forall s, (s < o_nx o)%nat -> Rabs (x s - x' s) <= e) -> Rabs (mayer_on o ph a x tf x0 t0 - mayer_on o ph a x' tf x0 t0) <= L * e.
(** the costs of phase [ph] can be compared: the trajectory starts where the point does, the running cost along it has an integral,
    the costs are Lipschitz with constants [Lr], [Lm], and the running cost is smooth along the polynomials *)
Record comparable (mp : mpo Rnum) (w : nat -> R) (ph : nat) (y : utraj) (cx cu : nat -> nat -> list R) (x : nat -> R -> R)
    (D : R -> (nat -> R) -> (nat -> R) -> Prop) (E : (nat -> R) -> Prop) (Lr Lm : R) (m : nat -> nat) (ML : R) : Prop := {
  cm_start : forall s, (s < o_nx (mp_ocp mp))%nat -> x s (y_t0 y) = y_x y 0 s;
  cm_int : forall k, (k < length (mp_orders mp))%nat -> ex_RInt (run_real mp w ph y cu x k) (seg_start w y k) (seg_start w y (S k));
  cm_D : stays mp w y cx cu x D;
  cm_E : E (y_x y (total_nodes (mp_orders mp) - 1)) /\ E (fun s => x s (y_tf y));
  cm_run : run_lip (mp_ocp mp) ph (a_of (mp_ocp mp) y) D Lr;
  cm_mayer : mayer_lip (mp_ocp mp) ph (a_of (mp_ocp mp) y) E (y_tf y) (y_x y 0) (y_t0 y) Lm;
  cm_smooth : forall k, (k < length (mp_orders mp))%nat ->
    smooth (run_time mp w ph y cx cu k) (seg_start w y k) (seg_start w y (S k)) (m k - 1) ML
}.
