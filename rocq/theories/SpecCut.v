(** Specification of a phase cut in two linked phases. *)
From Coq Require Import Reals List Arith.
From Coquelicot Require Import Coquelicot.
From Coq Require Import List.
From Verif Require Import Num PyList Mat Poly Roots Colloc Ocp Transcribe Spec SpecOcp NumR.
Import ListNotations.
Open Scope R_scope.

(** [o2] has two phases with the functions and bounds of the only phase of [o], linked without jumps; the terminal conditions and cost,
    which only look at the end, are those of the second phase.  The end time of the first phase and the start time of the second have any
    bounds. *)
Record cut_phase (o o2 : ocp Rnum) : Prop := {
  ct_nph : o_nph o = 1%nat; ct_nph2 : o_nph o2 = 2%nat;
  ct_nx : o_nx o2 = o_nx o; ct_nu : o_nu o2 = o_nu o; ct_na : o_na o2 = o_na o;
  ct_dyn : forall e, (e < 2)%nat -> nth_error (o_dyn o2) e = nth_error (o_dyn o) 0;
  ct_path : forall e, (e < 2)%nat -> nth_error (o_path o2) e = nth_error (o_path o) 0;
  ct_run : forall e, (e < 2)%nat -> nth_error (o_run o2) e = nth_error (o_run o) 0;
  ct_term0 : forall f xf tf x0 t0 a, nth_error (o_term o2) 0 = Some f -> f xf tf x0 t0 a = Ok None;
  ct_mayer0 : forall f xf tf x0 t0 a, nth_error (o_mayer o2) 0 = Some f -> f xf tf x0 t0 a = Ok (Some 0);
  ct_term : forall f f2 xf tf x0 t0 x0' t0' a, nth_error (o_term o) 0 = Some f -> nth_error (o_term o2) 1 = Some f2 ->
    f2 xf tf x0' t0' a = f xf tf x0 t0 a;
  ct_mayer : forall f f2 xf tf x0 t0 x0' t0' a, nth_error (o_mayer o) 0 = Some f -> nth_error (o_mayer o2) 1 = Some f2 ->
    f2 xf tf x0' t0' a = f xf tf x0 t0 a;
  ct_links : o_links o2 = [(0, 1)]%nat;
  ct_event : forall s, (s < o_nx o)%nat -> bnd 0 (o_lbe o2) s = Fin 0 /\ bnd 0 (o_ube o2) s = Fin 0;
  ct_start : nth 0 (o_x00 o2) [] = nth 0 (o_x00 o) [];
  ct_x : forall e, (e < 2)%nat -> nth e (o_lbx o2) [] = nth 0 (o_lbx o) [] /\ nth e (o_ubx o2) [] = nth 0 (o_ubx o) [];
  ct_u : forall e, (e < 2)%nat -> nth e (o_lbu o2) [] = nth 0 (o_lbu o) [] /\ nth e (o_ubu o2) [] = nth 0 (o_ubu o) [];
  ct_a : forall e, (e < 2)%nat -> nth e (o_lba o2) [] = nth 0 (o_lba o) [] /\ nth e (o_uba o2) [] = nth 0 (o_uba o) [];
  ct_t0 : nth 0 (o_lbt0 o2) [] = nth 0 (o_lbt0 o) [] /\ nth 0 (o_ubt0 o2) [] = nth 0 (o_ubt0 o) [];
  ct_tf : nth 1 (o_lbtf o2) [] = nth 0 (o_lbtf o) [] /\ nth 1 (o_ubtf o2) [] = nth 0 (o_ubtf o) [];
  ct_su : o_scale_u o2 = o_scale_u o;
  ct_slope : forall e, (e < 2)%nat -> nth e (o_diff_u o2) false = nth 0 (o_diff_u o) false /\
    nth e (o_lbdu o2) NaN = nth 0 (o_lbdu o) NaN /\ nth e (o_ubdu o2) NaN = nth 0 (o_ubdu o) NaN;
  ct_midu : forall e, (e < 2)%nat -> nth e (o_midu o2) false = nth 0 (o_midu o) false;
  ct_ducont : nth 0 (o_ducont o) false = false /\ forall e, (e < 2)%nat -> nth e (o_ducont o2) false = false
}.
(** point [z] with widths [p] on the mesh of twice the segments is point [z2] with widths [p2]: the values at the nodes and the durations
    of the segments are those of the two phases one after the other *)
Record joined (mp mp2 : mpo Rnum) (z p z2 p2 : list R) : Prop := {
  jn_x : forall e i s, (e < 2)%nat -> (i < total_nodes (mp_orders mp2))%nat -> (s < o_nx (mp_ocp mp))%nat ->
    y_x (user_traj mp z 0) (e * (total_nodes (mp_orders mp2) - 1) + i) s = y_x (user_traj mp2 z2 e) i s;
  jn_u : forall e i s, (e < 2)%nat -> (i < total_nodes (mp_orders mp2))%nat -> (s < o_nu (mp_ocp mp))%nat ->
    y_u (user_traj mp z 0) (e * (total_nodes (mp_orders mp2) - 1) + i) s = y_u (user_traj mp2 z2 e) i s;
  jn_a : forall e s, (e < 2)%nat -> (s < o_na (mp_ocp mp))%nat -> y_a (user_traj mp z 0) s = y_a (user_traj mp2 z2 e) s;
  jn_t0 : y_t0 (user_traj mp z 0) = y_t0 (user_traj mp2 z2 0);
  jn_mid : y_tf (user_traj mp2 z2 0) = y_t0 (user_traj mp2 z2 1);
  jn_tf : y_tf (user_traj mp z 0) = y_tf (user_traj mp2 z2 1);
  jn_w : forall e k, (e < 2)%nat -> (k < mp_nseg mp2)%nat ->
    (y_tf (user_traj mp z 0) - y_t0 (user_traj mp z 0)) * width mp p 0 (e * mp_nseg mp2 + k) =
    (y_tf (user_traj mp2 z2 e) - y_t0 (user_traj mp2 z2 e)) * width mp2 p2 e k
}.
(** the bounds on the time of the cut *)
Definition cut_time_ok (o2 : ocp Rnum) (t : R) : Prop :=
  within (bnd 0 (o_lbtf o2) 0) (bnd 0 (o_ubtf o2) 0) t /\ within (bnd 1 (o_lbt0 o2) 0) (bnd 1 (o_ubt0 o2) 0) t.
(** the conditions at the first node of the second phase that the uncut problem does not have: the state equations, and the bounds on the
    slope of the control, for the polynomials to the right of the cut *)
Definition cut_right_ok (mp2 : mpo Rnum) (r : list R) (w : nat -> R) (y : utraj) : Prop :=
  (forall s c, (s < o_nx (mp_ocp mp2))%nat -> interpolates c r (fun j => y_x y j s) ->
     is_derive (peval c) (nth 0 r 0) (seg_h (mp_cf mp2) w y 0 * nth s (dyn_val (mp_ocp mp2) 1 y 0 (y_t0 y)) 0)) /\
  (nth 1 (o_diff_u (mp_ocp mp2)) false = true -> forall q c, (q < o_nu (mp_ocp mp2))%nat -> interpolates c r (fun j => y_u y j q) ->
     within (nth 1 (o_lbdu (mp_ocp mp2)) NaN) (nth 1 (o_ubdu (mp_ocp mp2)) NaN) (nth q (o_scale_u (mp_ocp mp2)) 0 * Derive (peval c) (nth 0 r 0))).
