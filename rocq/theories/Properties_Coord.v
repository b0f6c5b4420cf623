(** C70: problems written in other coordinates *)
From Coq Require Import Reals Arith String.
From Coquelicot Require Import Coquelicot.
From Coq Require Import List.
From Verif Require Import Num PyList Mat Poly Roots Colloc Ocp Transcribe Spec SpecOcp SpecHadapt SpecCoord NumR ExOcp ExGlide ExTrack CoordR ExCoord.
Import ListNotations.
Open Scope R_scope.

(** points that stand for the same trajectories are feasible together and have the same objective, whatever
    the scales of the two problems *)
Theorem C70_coordinates : forall (mp mp' : mpo Rnum) h npath nterm npath' nterm' z z' p,
  input_ok mp npath nterm z p -> input_ok mp' npath' nterm' z' p ->
  mp_nseg mp' = mp_nseg mp -> mp_orders mp' = mp_orders mp -> mp_cf mp' = mp_cf mp ->
  chart_ok h (o_nx (mp_ocp mp)) (o_nu (mp_ocp mp)) (o_na (mp_ocp mp)) -> in_coords h (mp_ocp mp) (mp_ocp mp') ->
  same_point h mp mp' z z' ->
  exists n n', nlp_at mp z p = Ok n /\ nlp_at mp' z' p = Ok n' /\ (feasible n <-> feasible n') /\ n_f n = n_f n'.
Proof. exact coord_thm. Qed.
Print Assumptions C70_coordinates.
(** every point of either program has one in the other *)
Theorem C70_exists : forall (mp mp' : mpo Rnum) h npath nterm npath' nterm' (p : list R),
  mpo_ok mp -> ocp_ok (mp_ocp mp) npath nterm -> scales_pos (mp_ocp mp) ->
  ocp_ok (mp_ocp mp') npath' nterm' -> scales_pos (mp_ocp mp') -> length p = (o_nph (mp_ocp mp) * mp_nseg mp)%nat ->
  mp_nseg mp' = mp_nseg mp -> mp_orders mp' = mp_orders mp -> mp_cf mp' = mp_cf mp ->
  chart_ok h (o_nx (mp_ocp mp)) (o_nu (mp_ocp mp)) (o_na (mp_ocp mp)) -> in_coords h (mp_ocp mp) (mp_ocp mp') ->
  (forall z, input_ok mp npath nterm z p -> exists z', input_ok mp' npath' nterm' z' p /\ same_point h mp mp' z z') /\
  (forall z', input_ok mp' npath' nterm' z' p -> exists z, input_ok mp npath nterm z p /\ same_point h mp mp' z z').
Proof. exact coord_exists. Qed.
Print Assumptions C70_exists.
(** so they have the same solutions *)
Theorem C70_best : forall (mp mp' : mpo Rnum) h npath nterm npath' nterm' z z' p,
  input_ok mp npath nterm z p -> input_ok mp' npath' nterm' z' p ->
  mp_nseg mp' = mp_nseg mp -> mp_orders mp' = mp_orders mp -> mp_cf mp' = mp_cf mp ->
  chart_ok h (o_nx (mp_ocp mp)) (o_nu (mp_ocp mp)) (o_na (mp_ocp mp)) -> in_coords h (mp_ocp mp) (mp_ocp mp') ->
  same_point h mp mp' z z' ->
  best mp p z <-> best mp' p z'.
Proof. exact coord_best. Qed.
Print Assumptions C70_best.
(** false for coordinates that are not affine: one program has a feasible point, the other none, on every mesh of
    K equal segments of order 1 *)
Theorem C70_curved_refuted : forall K, (1 <= K)%nat -> exists (o o' : ocp Rnum) (phi phi' : R -> R),
  let mp := Mpo o K (repeat 1%nat K) (demo_cf "LGR") in let mp' := Mpo o' K (repeat 1%nat K) (demo_cf "LGR") in
  (forall z, length z = nvars mp -> input_ok mp (fun _ => None) (fun _ => None) z (swing_p K)) /\
  (forall z, length z = nvars mp' -> input_ok mp' (fun _ => None) (fun _ => None) z (swing_p K)) /\
  (forall w, is_derive phi w (phi' w)) /\ (forall w, 0 < phi' w) /\
  (exists d d', o = ramp (phi 0) d /\ o' = ramp 0 d' /\ forall w, phi' w * d' w = d (phi w)) /\
  (exists z n, length z = nvars mp /\ nlp_at mp z (swing_p K) = Ok n /\ feasible n) /\
  (forall (z : list R) n, length z = nvars mp' -> nlp_at mp' z (swing_p K) = Ok n -> ~ feasible n).
Proof. exact curved_thm. Qed.
Print Assumptions C70_curved_refuted.

(** moving a cart with least effort: states swapped, turned round and in other units, another origin of the controls,
    another unit of time, other scales *)
Example C70_case : chart_ok tilt (o_nx glide) (o_nu glide) (o_na glide) /\ in_coords tilt glide tilted /\
  ocp_ok glide glide_npath glide_nterm /\ scales_pos glide /\ ocp_ok tilted tilted_npath tilted_nterm /\ scales_pos tilted.
Proof. exact (conj tilt_ok (conj tilted_coords (conj glide_ok (conj glide_scales (conj tilted_ok tilted_scales))))). Qed.
(** a point of its program that is feasible, on any LGR mesh of orders at least 4; so the other program has one of
    the same cost *)
Example C70_feasible_case : forall cf K orders p, cfg_ok cf -> (1 <= K)%nat -> length orders = K -> (forall q, In q orders -> (4 <= q)%nat) ->
  widths_ok K 1 p -> cf_scheme cf = "LGR"%string ->
  exists (z' : list R) n', nlp_at (Mpo tilted K orders cf) z' p = Ok n' /\ feasible n' /\ n_f n' = 12.
Proof. exact tilted_point. Qed.
