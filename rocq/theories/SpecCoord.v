(** Specification of problems written in other coordinates: states, controls, parameters and time of one problem
    are affine functions of those of the other. *)
From Coq Require Import Reals List Arith.
From Verif Require Import Num PyList Mat Poly Roots Colloc Ocp Transcribe Spec SpecOcp NumR.
Import ListNotations.
Open Scope R_scope.

(** M v and M v + c for a matrix of n columns *)
Definition lin (n : nat) (M : nat -> nat -> R) (v : nat -> R) (i : nat) : R := Rsum n (fun j => M i j * v j).
Definition aff (n : nat) (M : nat -> nat -> R) (c : nat -> R) (v : nat -> R) (i : nat) : R := lin n M v i + c i.
Definition inverse (n : nat) (M Mi : nat -> nat -> R) : Prop :=
  forall i j, (i < n)%nat -> (j < n)%nat -> Rsum n (fun k => M i k * Mi k j) = if Nat.eqb i j then 1 else 0.
(** old states, controls, parameters and time from the new ones; with the inverse matrices *)
Record chart := Chart {
  c_X : nat -> nat -> R; c_Xi : nat -> nat -> R; c_x : nat -> R;
  c_U : nat -> nat -> R; c_Ui : nat -> nat -> R; c_u : nat -> R;
  c_A : nat -> nat -> R; c_Ai : nat -> nat -> R; c_a : nat -> R;
  c_T : R; c_t : R
}.
Record chart_ok (h : chart) (nx nu na : nat) : Prop := {
  co_x : inverse nx (c_X h) (c_Xi h); co_xi : inverse nx (c_Xi h) (c_X h);
  co_u : inverse nu (c_U h) (c_Ui h); co_ui : inverse nu (c_Ui h) (c_U h);
  co_a : inverse na (c_A h) (c_Ai h); co_ai : inverse na (c_Ai h) (c_A h);
  co_T : 0 < c_T h
}.
(** a trajectory in old coordinates *)
Definition in_old (h : chart) (nx nu na : nat) (y : utraj) : utraj :=
  Utraj (fun i => aff nx (c_X h) (c_x h) (y_x y i)) (fun i => aff nu (c_U h) (c_u h) (y_u y i))
    (c_T h * y_t0 y + c_t h) (c_T h * y_tf y + c_t h) (aff na (c_A h) (c_a h) (y_a y)).
(** all n values within their bounds *)
Definition box (n : nat) (lo hi : nat -> ext R) (v : nat -> R) : Prop := forall i, (i < n)%nat -> within (lo i) (hi i) (v i).
(** [o'] is [o] in new coordinates *)
Record in_coords (h : chart) (o o' : ocp Rnum) : Prop := {
  ic_nx : o_nx o' = o_nx o; ic_nu : o_nu o' = o_nu o; ic_na : o_na o' = o_na o; ic_nph : o_nph o' = o_nph o;
  ic_links : o_links o' = o_links o;
  ic_dyn : forall ph y i t s, (ph < o_nph o)%nat -> (s < o_nx o)%nat ->
    lin (o_nx o) (c_X h) (fun r => nth r (dyn_val o' ph y i t) 0) s =
    c_T h * nth s (dyn_val o ph (in_old h (o_nx o) (o_nu o) (o_na o) y) i (c_T h * t + c_t h)) 0;
  ic_path : forall ph y i t, (ph < o_nph o)%nat ->
    (forall c, In c (path_val o' ph y i t) -> c <= 0) <->
    (forall c, In c (path_val o ph (in_old h (o_nx o) (o_nu o) (o_na o) y) i (c_T h * t + c_t h)) -> c <= 0);
  ic_term : forall ph y last, (ph < o_nph o)%nat ->
    (forall c, In c (term_val o' ph y last) -> c = 0) <->
    (forall c, In c (term_val o ph (in_old h (o_nx o) (o_nu o) (o_na o) y) last) -> c = 0);
  ic_run : forall ph y i t, (ph < o_nph o)%nat ->
    run_val o' ph y i t = c_T h * run_val o ph (in_old h (o_nx o) (o_nu o) (o_na o) y) i (c_T h * t + c_t h);
  ic_mayer : forall ph y last, (ph < o_nph o)%nat ->
    mayer_val o' ph y last = mayer_val o ph (in_old h (o_nx o) (o_nu o) (o_na o) y) last;
  ic_start : forall s, (s < o_nx o)%nat ->
    nth s (nth 0 (o_x00 o) []) 0 = aff (o_nx o) (c_X h) (c_x h) (fun r => nth r (nth 0 (o_x00 o') []) 0) s;
  ic_bx : forall ph v, (ph < o_nph o)%nat ->
    box (o_nx o) (bnd ph (o_lbx o')) (bnd ph (o_ubx o')) v <-> box (o_nx o) (bnd ph (o_lbx o)) (bnd ph (o_ubx o)) (aff (o_nx o) (c_X h) (c_x h) v);
  ic_bu : forall ph v, (ph < o_nph o)%nat ->
    box (o_nu o) (bnd ph (o_lbu o')) (bnd ph (o_ubu o')) v <-> box (o_nu o) (bnd ph (o_lbu o)) (bnd ph (o_ubu o)) (aff (o_nu o) (c_U h) (c_u h) v);
  ic_ba : forall ph v, (ph < o_nph o)%nat ->
    box (o_na o) (bnd ph (o_lba o')) (bnd ph (o_uba o')) v <-> box (o_na o) (bnd ph (o_lba o)) (bnd ph (o_uba o)) (aff (o_na o) (c_A h) (c_a h) v);
  ic_bt0 : forall ph t, (ph < o_nph o)%nat ->
    within (bnd ph (o_lbt0 o') 0) (bnd ph (o_ubt0 o') 0) t <-> within (bnd ph (o_lbt0 o) 0) (bnd ph (o_ubt0 o) 0) (c_T h * t + c_t h);
  ic_btf : forall ph t, (ph < o_nph o)%nat ->
    within (bnd ph (o_lbtf o') 0) (bnd ph (o_ubtf o') 0) t <-> within (bnd ph (o_lbtf o) 0) (bnd ph (o_ubtf o) 0) (c_T h * t + c_t h);
  (* jumps of the states at the links *)
  ic_be : forall k v, (k < length (o_links o))%nat ->
    box (o_nx o) (bnd k (o_lbe o')) (bnd k (o_ube o')) v <-> box (o_nx o) (bnd k (o_lbe o)) (bnd k (o_ube o)) (lin (o_nx o) (c_X h) v);
  (* slopes of the controls, if they are bounded *)
  ic_diff_u : forall ph, (ph < o_nph o)%nat -> nth ph (o_diff_u o') false = nth ph (o_diff_u o) false;
  ic_bdu : forall ph v, (ph < o_nph o)%nat -> nth ph (o_diff_u o) false = true ->
    box (o_nu o) (fun _ => nth ph (o_lbdu o') NaN) (fun _ => nth ph (o_ubdu o') NaN) (fun c => nth c (o_scale_u o') 0 * v c) <->
    box (o_nu o) (fun _ => nth ph (o_lbdu o) NaN) (fun _ => nth ph (o_ubdu o) NaN) (fun c => nth c (o_scale_u o) 0 * lin (o_nu o) (c_U h) v c);
  ic_midu : forall ph, (ph < o_nph o)%nat -> nth ph (o_midu o') false = nth ph (o_midu o) false;
  ic_ducont : forall ph, (ph < o_nph o)%nat -> nth ph (o_ducont o') false = nth ph (o_ducont o) false
}.
(** the points [z] of [mp] and [z'] of [mp'] stand for the same trajectories *)
Definition same_point (h : chart) (mp mp' : mpo Rnum) (z z' : list R) : Prop :=
  forall ph, (ph < o_nph (mp_ocp mp))%nat ->
    same_traj mp (user_traj mp z ph) (in_old h (o_nx (mp_ocp mp)) (o_nu (mp_ocp mp)) (o_na (mp_ocp mp)) (user_traj mp' z' ph)).
(** [z] is feasible and no feasible point has a lower objective *)
Definition best (mp : mpo Rnum) (p z : list R) : Prop :=
  exists n, nlp_at mp z p = Ok n /\ feasible n /\
    forall (z1 : list R) n1, length z1 = length z -> nlp_at mp z1 p = Ok n1 -> feasible n1 -> n_f n <= n_f n1.
