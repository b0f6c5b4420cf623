(** Property C67: a running cost turned into a state. *)
From Coq Require Import String Reals List Arith Lra Lia.
From Verif Require Import Num PyList Ocp Colloc Transcribe Spec SpecOcp SpecHadapt SpecMayer NumR MayerR ExOcp ExGlide ExMayer.
Import ListNotations.
Open Scope R_scope.
Open Scope list_scope.

(** every feasible point of the form with the extra state gives a feasible point of the problem, of equal objective on LGR meshes with
    orders of at least 2 after the first segment and on meshes with one segment *)
Theorem C67_mayer_form : forall (mp : mpo Rnum) o' npath nterm npath' nterm' (z z' p : list R),
  let mp' := Mpo o' (mp_nseg mp) (mp_orders mp) (mp_cf mp) in
  input_ok mp npath nterm z p -> input_ok mp' npath' nterm' z' p -> mayer_form (mp_ocp mp) o' -> same_motion mp mp' z z' ->
  exists n n', nlp_at mp z p = Ok n /\ nlp_at mp' z' p = Ok n' /\
    (feasible n' -> feasible n /\
      (cf_scheme (mp_cf mp) = "LGR"%string /\ (forall q, In q (tl (mp_orders mp)) -> (2 <= q)%nat) \/ length (mp_orders mp) = 1%nat -> n_f n = n_f n')).
Proof. exact mayer_thm. Qed.
Print Assumptions C67_mayer_form.
Theorem C67_motion_exists : forall (mp mp' : mpo Rnum) npath nterm (z' : list R),
  mpo_ok mp -> ocp_ok (mp_ocp mp) npath nterm -> scales_pos (mp_ocp mp) ->
  exists z, length z = (o_nph (mp_ocp mp) * nvars mp)%nat /\ same_motion mp mp' z z'.
Proof. exact motion_exists. Qed.
Print Assumptions C67_motion_exists.
(** the points of the problem that come from such points, if the extra state is free: those whose running cost on the first segment is a
    polynomial of a degree below its order *)
Theorem C67_back : forall (mp : mpo Rnum) o' npath nterm npath' nterm' (z p : list R),
  let mp' := Mpo o' (mp_nseg mp) (mp_orders mp) (mp_cf mp) in
  input_ok mp npath nterm z p -> ocp_ok o' npath' nterm' -> scales_pos o' -> mayer_form (mp_ocp mp) o' -> free_last (mp_ocp mp) o' ->
  widths_ok (mp_nseg mp) (o_nph (mp_ocp mp)) p ->
  (forall ph, (ph < o_nph (mp_ocp mp))%nat -> y_t0 (user_traj mp z ph) < y_tf (user_traj mp z ph)) ->
  exists rs n, mapM (c_roots (mp_cf mp)) (mp_orders mp) = Ok rs /\ nlp_at mp z p = Ok n /\
    (feasible n ->
      ((exists z' n', length z' = (o_nph o' * nvars mp')%nat /\ same_motion mp mp' z z' /\ nlp_at mp' z' p = Ok n' /\ feasible n') <->
       forall ph, (ph < o_nph (mp_ocp mp))%nat -> cost_low mp rs (width mp p ph) ph (user_traj mp z ph))).
Proof. exact mayer_back. Qed.
Print Assumptions C67_back.
(** so not every feasible point of the problem comes from one *)
Theorem C67_converse_refuted : exists (mp : mpo Rnum) o' npath nterm (z p : list R) n,
  input_ok mp npath nterm z p /\ ocp_ok o' npath nterm /\ scales_pos o' /\ mayer_form (mp_ocp mp) o' /\ free_last (mp_ocp mp) o' /\
  nlp_at mp z p = Ok n /\ feasible n /\
  let mp' := Mpo o' (mp_nseg mp) (mp_orders mp) (mp_cf mp) in
  forall z' n', length z' = (o_nph o' * nvars mp')%nat -> same_motion mp mp' z z' -> nlp_at mp' z' p = Ok n' -> ~ feasible n'.
Proof. exact idle_stuck. Qed.
Print Assumptions C67_converse_refuted.
(** a problem and its form with the extra state; feasible points of the latter exist on all meshes with orders of at least 3 *)
Example C67_case : mayer_form glide charged /\ ocp_ok charged glide_npath glide_nterm /\ scales_pos charged.
Proof. split; [exact charged_form|]. split; [exact charged_ok|exact charged_scales]. Qed.
Example C67_case_points : forall cf K orders p, let mp := Mpo charged K orders cf in mpo_ok mp -> widths_ok K 1 p -> (forall q, In q orders -> (3 <= q)%nat) ->
  exists (z : list R) n, input_ok mp glide_npath glide_nterm z p /\ nlp_at mp z p = Ok n /\ feasible n.
Proof. exact charged_point. Qed.
Example C67_case_free : mayer_form idle idle' /\ free_last idle idle' /\ input_ok idle_mp (fun _ => None) (fun _ => None) idle_z [1].
Proof. split; [exact idle_form|]. split; [exact idle_free|exact idle_input]. Qed.
