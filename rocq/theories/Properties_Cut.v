(** Property C68: a phase cut in two. *)
From Coq Require Import String Reals List Arith Lra Lia.
From Coquelicot Require Import Coquelicot.
From Coq Require Import List.
From Verif Require Import Num PyList Ocp Colloc Transcribe Spec SpecOcp SpecHadapt SpecCut NumR CutR ExOcp ExGlide ExCut.
Import ListNotations.
Open Scope R_scope.
Open Scope list_scope.

(** the program of the cut problem is that of the uncut problem on the joined mesh, but for the bounds on the time of the cut and the
    conditions just after it; the objectives differ by the weight of the first node after the cut, which is 0 for LGR points if the first
    segment has order 2 or more *)
Theorem C68_cut : forall (mp2 : mpo Rnum) o npath nterm npath2 nterm2 (z p z2 p2 : list R),
  let mp := Mpo o (2 * mp_nseg mp2) (mp_orders mp2 ++ mp_orders mp2) (mp_cf mp2) in
  input_ok mp npath nterm z p -> input_ok mp2 npath2 nterm2 z2 p2 -> cut_phase o (mp_ocp mp2) -> joined mp mp2 z p z2 p2 ->
  Rsum (mp_nseg mp2) (width mp2 p2 0) = 1 ->
  exists r n n2, c_roots (mp_cf mp2) (nth 0 (mp_orders mp2) 0%nat) = Ok r /\ nlp_at mp z p = Ok n /\ nlp_at mp2 z2 p2 = Ok n2 /\
    (feasible n2 <-> feasible n /\ cut_time_ok (mp_ocp mp2) (y_t0 (user_traj mp2 z2 1)) /\ cut_right_ok mp2 r (width mp2 p2 1) (user_traj mp2 z2 1)) /\
    (exists b, interpolates b r (fun j => if Nat.eqb j 0 then 1 else 0)) /\
    (forall b, interpolates b r (fun j => if Nat.eqb j 0 then 1 else 0) ->
       n_f n2 = n_f n + seg_h (mp_cf mp2) (width mp2 p2 1) (user_traj mp2 z2 1) 0 * RInt (peval b) (cf_tau0 (mp_cf mp2)) (cf_tau1 (mp_cf mp2)) *
                        run_val (mp_ocp mp2) 1 (user_traj mp2 z2 1) 0 (y_t0 (user_traj mp2 z2 1))) /\
    (cf_scheme (mp_cf mp2) = "LGR"%string -> (2 <= nth 0 (mp_orders mp2) 0)%nat -> n_f n2 = n_f n).
Proof. exact cut_thm. Qed.
Print Assumptions C68_cut.
(** feasible points of the cut problem can be joined *)
Theorem C68_join_exists : forall (mp2 : mpo Rnum) o npath nterm npath2 nterm2 (z2 p2 : list R) n2,
  let mp := Mpo o (2 * mp_nseg mp2) (mp_orders mp2 ++ mp_orders mp2) (mp_cf mp2) in
  input_ok mp2 npath2 nterm2 z2 p2 -> ocp_ok o npath nterm -> scales_pos o -> cut_phase o (mp_ocp mp2) -> widths_ok (mp_nseg mp2) 2 p2 ->
  nlp_at mp2 z2 p2 = Ok n2 -> feasible n2 ->
  (forall e, (e < 2)%nat -> y_t0 (user_traj mp2 z2 e) < y_tf (user_traj mp2 z2 e)) ->
  (forall s, (s < o_na o)%nat -> y_a (user_traj mp2 z2 0) s = y_a (user_traj mp2 z2 1) s) ->
  exists z p, input_ok mp npath nterm z p /\ widths_ok (2 * mp_nseg mp2) 1 p /\ joined mp mp2 z p z2 p2.
Proof. exact join_exists. Qed.
Print Assumptions C68_join_exists.
(** all points of the uncut problem can be cut *)
Theorem C68_cut_exists : forall (mp2 : mpo Rnum) o npath nterm npath2 nterm2 (z p : list R),
  let mp := Mpo o (2 * mp_nseg mp2) (mp_orders mp2 ++ mp_orders mp2) (mp_cf mp2) in
  input_ok mp npath nterm z p -> mpo_ok mp2 -> ocp_ok (mp_ocp mp2) npath2 nterm2 -> scales_pos (mp_ocp mp2) -> cut_phase o (mp_ocp mp2) ->
  widths_ok (2 * mp_nseg mp2) 1 p ->
  exists z2 p2, input_ok mp2 npath2 nterm2 z2 p2 /\ widths_ok (mp_nseg mp2) 2 p2 /\ joined mp mp2 z p z2 p2.
Proof. exact cut_exists. Qed.
Print Assumptions C68_cut_exists.
(** but they are not always feasible then, even if the time of the cut is free *)
Theorem C68_same_program_refuted : exists (mp2 : mpo Rnum) o npath nterm npath2 nterm2 z p z2 p2 n n2,
  let mp := Mpo o (2 * mp_nseg mp2) (mp_orders mp2 ++ mp_orders mp2) (mp_cf mp2) in
  input_ok mp npath nterm z p /\ input_ok mp2 npath2 nterm2 z2 p2 /\ cut_phase o (mp_ocp mp2) /\ joined mp mp2 z p z2 p2 /\ widths_ok (mp_nseg mp2) 2 p2 /\
  (forall t, cut_time_ok (mp_ocp mp2) t) /\ nlp_at mp z p = Ok n /\ nlp_at mp2 z2 p2 = Ok n2 /\ feasible n /\ ~ feasible n2.
Proof. exact push_stuck. Qed.
Print Assumptions C68_same_program_refuted.
(** a problem and its cut version, with feasible points of the latter on all meshes with orders of at least 3 *)
Example C68_case : cut_phase glide glide2 /\ ocp_ok glide2 glide_npath glide2_nterm /\ scales_pos glide2.
Proof. split; [exact glide2_cut|]. split; [exact glide2_ok|exact glide2_scales]. Qed.
Example C68_case_points : forall cf K orders p, let mp2 := Mpo glide2 K orders cf in mpo_ok mp2 -> widths_ok K 2 p -> (forall q, In q orders -> (3 <= q)%nat) ->
  exists (z2 : list R) n2, input_ok mp2 glide_npath glide2_nterm z2 p /\ nlp_at mp2 z2 p = Ok n2 /\ feasible n2 /\
    forall e, (e < 2)%nat -> y_t0 (user_traj mp2 z2 e) < y_tf (user_traj mp2 z2 e).
Proof. intros cf K orders p mp2 Hm Hw Hq. apply (trip_point cf K orders p (1 / 3) Hm Hw Hq). lra. Qed.
