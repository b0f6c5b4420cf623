(** Property C87: which controls feasible points have. *)
From Coq Require Import Reals Arith Lia Lra String List.
From Verif Require Import Num PyList Mat Poly Roots Colloc Ocp Transcribe Spec SpecOcp SpecHadapt SpecSteer NumR SteerR ExOcp ExSteer.
Import ListNotations.
Open Scope R_scope.
Open Scope list_scope.

(** * C87 *)
(** at the nodes of the first segment of a phase, which is one more than its order, a feasible point makes the state equations give values of polynomials of a degree below the order *)
Theorem C87_first : forall (mp : mpo Rnum) npath nterm (z p : list R) n ph, input_ok mp npath nterm z p -> widths_ok (mp_nseg mp) (o_nph (mp_ocp mp)) p -> nlp_at mp z p = Ok n -> feasible n ->
  (ph < o_nph (mp_ocp mp))%nat -> y_t0 (user_traj mp z ph) < y_tf (user_traj mp z ph) ->
  exists rs, mapM (c_roots (mp_cf mp)) (mp_orders mp) = Ok rs /\ rates_low mp rs (width mp p ph) ph (user_traj mp z ph).
Proof. exact first_thm. Qed.
Print Assumptions C87_first.
(** when the states are free and only the costs depend on them, that is all: controls, times and parameters that meet the conditions on themselves
    are those of a feasible point if and only if this holds *)
Theorem C87_steer : forall (mp : mpo Rnum) npath nterm (z p : list R), input_ok mp npath nterm z p -> widths_ok (mp_nseg mp) (o_nph (mp_ocp mp)) p -> steered (mp_ocp mp) ->
  let y := user_traj mp z 0 in y_t0 y < y_tf y -> exists rs, mapM (c_roots (mp_cf mp)) (mp_orders mp) = Ok rs /\
  ((exists (z' : list R) n', length z' = length z /\ nlp_at mp z' p = Ok n' /\ feasible n' /\ same_steering mp y (user_traj mp z' 0)) <->
   steering_ok mp rs (width mp p 0) y /\ rates_low mp rs (width mp p 0) 0 y).
Proof. exact steer_thm. Qed.
Print Assumptions C87_steer.
(** so controls cannot be chosen freely on the first segment, even where they are not bounded: x' = u with speeds 0, 1 and 1 at the three nodes of two linear segments *)
Theorem C87_free_refuted : exists (mp : mpo Rnum) npath nterm (z p : list R) rs, input_ok mp npath nterm z p /\ widths_ok (mp_nseg mp) (o_nph (mp_ocp mp)) p /\ steered (mp_ocp mp) /\
  y_t0 (user_traj mp z 0) < y_tf (user_traj mp z 0) /\ mapM (c_roots (mp_cf mp)) (mp_orders mp) = Ok rs /\ steering_ok mp rs (width mp p 0) (user_traj mp z 0) /\
  forall (z' : list R) n', length z' = length z -> nlp_at mp z' p = Ok n' -> same_steering mp (user_traj mp z 0) (user_traj mp z' 0) -> ~ feasible n'.
Proof.
  exists cart_mp, (fun _ => None), (fun _ => None), (cart_z 0 1 1), [1 / 2; 1 / 2], [[-1; 1]; [-1; 1]]. split; [exact (cart_in (cart_z 0 1 1) eq_refl)|]. split; [exact cart_halves|]. split; [exact cart_steered|].
  split; [cbn; lra|]. split; [reflexivity|]. split; [exact (cart_own 0 1 1)|]. intros z' n' Lz En HS Hf. assert (0 = 1) by (apply (cart_steer 0 1 1); exists z', n'; auto). lra.
Qed.
Print Assumptions C87_free_refuted.
(** speeds 0, 0 and 5 meet the hypotheses of C87_steer and are those of a feasible point *)
Example C87_case : input_ok cart_mp (fun _ => None) (fun _ => None) (cart_z 0 0 5) [1 / 2; 1 / 2] /\ widths_ok (mp_nseg cart_mp) (o_nph (mp_ocp cart_mp)) [1 / 2; 1 / 2] /\ steered (mp_ocp cart_mp) /\
  y_t0 (user_traj cart_mp (cart_z 0 0 5) 0) < y_tf (user_traj cart_mp (cart_z 0 0 5) 0) /\
  exists (z' : list R) n', length z' = length (cart_z 0 0 5) /\ nlp_at cart_mp z' [1 / 2; 1 / 2] = Ok n' /\ feasible n' /\ same_steering cart_mp (user_traj cart_mp (cart_z 0 0 5) 0) (user_traj cart_mp z' 0).
Proof.
  split; [exact (cart_in (cart_z 0 0 5) eq_refl)|]. split; [exact cart_halves|]. split; [exact cart_steered|]. split; [cbn; lra|]. apply (cart_steer 0 0 5). reflexivity.
Qed.
