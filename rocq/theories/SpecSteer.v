(** Which controls feasible points have (vocabulary of C87). *)
From Coq Require Import Reals Arith.
From Coq Require Import List.
From Verif Require Import Num PyList Mat Poly Roots Colloc Ocp Transcribe Spec SpecOcp.
Import ListNotations.
Open Scope R_scope.

(** the derivatives that the state equations give at all nodes of the first segment are, for each state, the values of
    a polynomial of a degree below the order of the segment *)
Definition rates_low (mp : mpo Rnum) (rs : list (list R)) (w : nat -> R) (ph : nat) (y : utraj) : Prop :=
  forall s, (s < o_nx (mp_ocp mp))%nat -> exists c : list R, (length c <= nth 0 (mp_orders mp) 0)%nat /\
    forall j, (j <= nth 0 (mp_orders mp) 0)%nat ->
      peval c (nth j (nth 0 rs []) 0) = nth s (dyn_val (mp_ocp mp) ph y j (seg_time (mp_cf mp) w y 0 (nth j (nth 0 rs []) 0))) 0.
(** one phase; no function of the problem but the costs depends on the states, which are free *)
Record steered (o : ocp Rnum) : Prop := {
  st_one : o_nph o = 1%nat;
  st_dyn : forall f (x x' : list R) u t a, nth_error (o_dyn o) 0 = Some f -> length x = o_nx o -> length x' = o_nx o -> f x u t a = f x' u t a;
  st_path : forall f (x x' : list R) u t a, nth_error (o_path o) 0 = Some f -> length x = o_nx o -> length x' = o_nx o -> f x u t a = f x' u t a;
  st_term : forall f (x x' v v' : list R) t t' a, nth_error (o_term o) 0 = Some f -> length x = o_nx o -> length x' = o_nx o -> length v = o_nx o -> length v' = o_nx o ->
    f x t v t' a = f x' t v' t' a;
  st_free : forall s r, (s < o_nx o)%nat -> within (bnd 0 (o_lbx o) s) (bnd 0 (o_ubx o) s) r
}.
(** the same controls, times and parameters *)
Definition same_steering (mp : mpo Rnum) (y y' : utraj) : Prop :=
  (forall i c, (i < total_nodes (mp_orders mp))%nat -> (c < o_nu (mp_ocp mp))%nat -> y_u y i c = y_u y' i c) /\
  y_t0 y = y_t0 y' /\ y_tf y = y_tf y' /\ (forall i, (i < o_na (mp_ocp mp))%nat -> y_a y i = y_a y' i).
(** the conditions on controls, times and parameters *)
Definition steering_ok (mp : mpo Rnum) (rs : list (list R)) (w : nat -> R) (y : utraj) : Prop :=
  let o := mp_ocp mp in
  (forall i c, (i < total_nodes (mp_orders mp))%nat -> (c < o_nu o)%nat -> within (bnd 0 (o_lbu o) c) (bnd 0 (o_ubu o) c) (y_u y i c)) /\
  within (bnd 0 (o_lbt0 o) 0) (bnd 0 (o_ubt0 o) 0) (y_t0 y) /\ within (bnd 0 (o_lbtf o) 0) (bnd 0 (o_ubtf o) 0) (y_tf y) /\
  (forall i, (i < o_na o)%nat -> within (bnd 0 (o_lba o) i) (bnd 0 (o_uba o) i) (y_a y i)) /\
  path_ok mp rs w 0 y /\ slope_ok mp rs 0 y /\ midu_ok mp rs 0 y /\ ducont_ok mp rs 0 y /\ terminal_ok mp 0 y.
