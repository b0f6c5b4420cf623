(** Specification of trajectories of the differential equation that follow the controls of a solution, and of
    their distance to the solution's polynomials. *)
From Coq Require Import Reals List Arith.
From Coquelicot Require Import Coquelicot.
From Verif Require Import Num PyList Mat Poly Roots Colloc Ocp Transcribe Spec SpecOcp SpecResid.
Import ListNotations.
Open Scope R_scope.

(** square of the distance of two vectors *)
Definition dist2 (n : nat) (a b : nat -> R) : R := Rsum n (fun s => (a s - b s) ^ 2).
(** right side of the differential equation of phase [ph] *)
Definition rhs (o : ocp Rnum) (ph : nat) (a : option (list R)) (x u : nat -> R) (t : R) : list R :=
  match nth_error (o_dyn o) ph with
  | Some f => match f (vec (o_nx o) x) (vec (o_nu o) u) t a with Ok d => d | Raise _ => [] end
  | None => []
  end.
(** [x]: states over time that satisfy the differential equation when the controls are the polynomials [cu k] of
    segment k in its local coordinate; at the segment boundaries they are only continuous *)
Record follows (mp : mpo Rnum) (w : nat -> R) (ph : nat) (y : utraj) (cu : nat -> nat -> list R) (x : nat -> R -> R) : Prop := {
  fo_cont : forall s t, (s < o_nx (mp_ocp mp))%nat -> y_t0 y <= t <= y_tf y -> continuous (x s) t;
  fo_eq : forall k tau s, (k < length (mp_orders mp))%nat -> cf_tau0 (mp_cf mp) < tau < cf_tau1 (mp_cf mp) -> (s < o_nx (mp_ocp mp))%nat ->
    let t := seg_time (mp_cf mp) w y k tau in
    is_derive (x s) t (nth s (rhs (mp_ocp mp) ph (a_of (mp_ocp mp) y) (fun s => x s t) (fun c => peval (cu k c) tau) t) 0)
}.
(** one-sided Lipschitz condition with constant [L], for states in [D] (which may depend on time and controls) *)
Definition one_sided (o : ocp Rnum) (ph : nat) (a : option (list R)) (D : R -> (nat -> R) -> (nat -> R) -> Prop) (L : R) : Prop :=
  forall t u x x', D t u x -> D t u x' ->
    Rsum (o_nx o) (fun s => (x s - x' s) * (nth s (rhs o ph a x u t) 0 - nth s (rhs o ph a x' u t) 0)) <= L * dist2 (o_nx o) x x'.
(** both the polynomials and [x] stay in [D] *)
Definition stays (mp : mpo Rnum) (w : nat -> R) (y : utraj) (cx cu : nat -> nat -> list R) (x : nat -> R -> R) (D : R -> (nat -> R) -> (nat -> R) -> Prop) : Prop :=
  forall k tau, (k < length (mp_orders mp))%nat -> cf_tau0 (mp_cf mp) < tau < cf_tau1 (mp_cf mp) ->
    let t := seg_time (mp_cf mp) w y k tau in
    D t (fun c => peval (cu k c) tau) (fun s => peval (cx k s) tau) /\ D t (fun c => peval (cu k c) tau) (fun s => x s t).
(** local coordinate of time [t] in segment k *)
Definition local (cf : ccfg Rnum) (w : nat -> R) (y : utraj) (k : nat) (t : R) : R := cf_tau0 cf + (t - seg_start w y k) / seg_h cf w y k.
(** the dynamics of state s along the polynomials of segment k, as a function of time *)
Definition dyn_time (mp : mpo Rnum) (w : nat -> R) (ph : nat) (y : utraj) (cx cu : nat -> nat -> list R) (k s : nat) (t : R) : R :=
  nth s (dyn_along (mp_ocp mp) ph y (cx k) (cu k) (local (mp_cf mp) w y k t) t) 0.
(** duration of segment k *)
Definition lasts (w : nat -> R) (y : utraj) (k : nat) : R := (y_tf y - y_t0 y) * w k.
(** the path constraints along the polynomials of one segment *)
Definition path_along (o : ocp Rnum) (ph : nat) (y : utraj) (cx cu : nat -> list R) (tau t : R) : list R :=
  match nth_error (o_path o) ph with
  | Some f => match f (vec (o_nx o) (fun s => peval (cx s) tau)) (vec (o_nu o) (fun q => peval (cu q) tau)) t (a_of o y) with
              | Ok (Some l) => l | _ => [] end
  | None => []
  end.
(** [f], a function of the local coordinate of segment k, changes with time at most at rate [M] *)
Definition rate_within (mp : mpo Rnum) (w : nat -> R) (y : utraj) (k : nat) (f : R -> R) (M : R) : Prop :=
  forall tau, cf_tau0 (mp_cf mp) <= tau <= cf_tau1 (mp_cf mp) -> ex_derive f tau /\ Rabs (Derive f tau) <= seg_h (mp_cf mp) w y k * M.
