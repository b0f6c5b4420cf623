(** Property C77: problems moved to the unit interval, with start and end time as parameters. *)
From Coq Require Import String Reals List Arith Lia Lra.
From Verif Require Import Num PyList Ocp Colloc Transcribe Spec SpecOcp SpecHadapt SpecCoord SpecUnit NumR UnitR ExLander ExUnit.
Import ListNotations.
Open Scope R_scope.
Open Scope list_scope.

(** * C77 *)
(** the moved problem is well formed *)
Theorem C77_shape : forall (mp : mpo Rnum) npath nterm, mpo_ok mp -> ocp_ok (mp_ocp mp) npath nterm -> scales_pos (mp_ocp mp) ->
  mpo_ok (unit_mpo mp) /\ ocp_ok (mp_ocp (unit_mpo mp)) npath nterm /\ scales_pos (mp_ocp (unit_mpo mp)).
Proof. exact unit_input. Qed.
Print Assumptions C77_shape.
(** one phase: corresponding points are feasible together and have the same objective *)
Theorem C77_points : forall (mp : mpo Rnum) npath nterm (z z' p : list R), input_ok mp npath nterm z p -> o_nph (mp_ocp mp) = 1%nat ->
  length z' = nvars (unit_mpo mp) -> on_unit mp z z' ->
  exists n n', nlp_at mp z p = Ok n /\ nlp_at (unit_mpo mp) z' p = Ok n' /\ (feasible n <-> feasible n') /\ n_f n = n_f n'.
Proof. exact unit_thm. Qed.
Print Assumptions C77_points.
(** every point has a corresponding one on the unit interval, every feasible point there corresponds to one *)
Theorem C77_all : forall (mp : mpo Rnum) npath nterm (p : list R), mpo_ok mp -> ocp_ok (mp_ocp mp) npath nterm -> scales_pos (mp_ocp mp) ->
  length p = (o_nph (mp_ocp mp) * mp_nseg mp)%nat ->
  (forall z : list R, exists z' : list R, length z' = (o_nph (mp_ocp mp) * nvars (unit_mpo mp))%nat /\ on_unit mp z z') /\
  (forall (z' : list R) n', length z' = (o_nph (mp_ocp mp) * nvars (unit_mpo mp))%nat -> nlp_at (unit_mpo mp) z' p = Ok n' -> feasible n' ->
     exists z : list R, length z = (o_nph (mp_ocp mp) * nvars mp)%nat /\ on_unit mp z z').
Proof. exact unit_exists. Qed.
Print Assumptions C77_all.
(** one phase: a point solves the problem if and only if the corresponding one solves the moved problem *)
Theorem C77_solutions : forall (mp : mpo Rnum) npath nterm (z z' p : list R), input_ok mp npath nterm z p -> o_nph (mp_ocp mp) = 1%nat ->
  length z' = nvars (unit_mpo mp) -> on_unit mp z z' -> best mp p z <-> best (unit_mpo mp) p z'.
Proof. exact unit_best. Qed.
Print Assumptions C77_solutions.
(** several phases: links ask the start 0 of a phase to be the end 1 of another; no point of the moved problem is feasible *)
Theorem C77_links : forall (mp : mpo Rnum) npath nterm (p z' : list R) n', mpo_ok mp -> ocp_ok (mp_ocp mp) npath nterm -> scales_pos (mp_ocp mp) ->
  length p = (o_nph (mp_ocp mp) * mp_nseg mp)%nat -> (1 < o_nph (mp_ocp mp))%nat ->
  length z' = (o_nph (mp_ocp mp) * nvars (unit_mpo mp))%nat -> nlp_at (unit_mpo mp) z' p = Ok n' -> ~ feasible n'.
Proof. exact unit_links. Qed.
Print Assumptions C77_links.
(** so the correspondence of feasible points does not carry over to several phases *)
Theorem C77_phases_refuted : exists (mp : mpo Rnum) npath nterm (p z : list R) n, input_ok mp npath nterm z p /\ nlp_at mp z p = Ok n /\ feasible n /\
  forall (z' : list R) n', length z' = (o_nph (mp_ocp mp) * nvars (unit_mpo mp))%nat -> nlp_at (unit_mpo mp) z' p = Ok n' -> ~ feasible n'.
Proof. exact hop_unit. Qed.
Print Assumptions C77_phases_refuted.
(** the moon lander, whose flight time is free between 3 and 5, on any mesh of orders at least 4: a feasible point and its
    counterpart on the unit interval, both with objective 19 / 2 *)
Example C77_case : forall cf K orders (p : list R), cfg_ok cf -> (1 <= K)%nat -> length orders = K -> cf_scheme cf = "LGR"%string ->
  widths_ok K 1 p -> (forall q, In q orders -> (4 <= q)%nat) -> let mp := Mpo lander K orders cf in
  exists (z z' : list R) n n', input_ok mp (fun _ => None) lander_nterm z p /\ length z' = nvars (unit_mpo mp) /\ on_unit mp z z' /\
    nlp_at mp z p = Ok n /\ nlp_at (unit_mpo mp) z' p = Ok n' /\ feasible n /\ feasible n' /\ n_f n = 19 / 2 /\ n_f n' = 19 / 2.
Proof. exact lander_unit. Qed.
(** its new parameters: start time 0 and end time between 3 and 5; its equations of motion, times the duration *)
Example C77_case_data : o_lba (unit_time lander) = [[Fin 0; Fin 3]] /\ o_uba (unit_time lander) = [[Fin 0; Fin 5]] /\
  exists f, o_dyn (unit_time lander) = [f] /\ forall h v u s t0 tf, f [h; v] [u] s (Some [t0; tf]) = Ok [(tf - t0) * v; (tf - t0) * (u - 3 / 2)].
Proof. split; [reflexivity|]. split; [reflexivity|]. eexists. split; reflexivity. Qed.
