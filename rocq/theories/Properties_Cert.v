(** Property C57: the error recorded by mpopt_h_adaptive.solve. *)
From Coq Require Import String Reals List Arith.
From Verif Require Import Num PyList Ocp Transcribe Solve Hadapt Resid Refine SpecSolve SpecHadapt SpecResid SpecLoop NumR RefineR LoopR CertR ExResid ExCert.
Import ListNotations.
Open Scope R_scope.
Open Scope list_scope.

(** * C57 *)
(** whatever the solver returns: the last recorded error is the largest residual, at the residual points, of
    the returned solution on the remembered widths *)
Theorem C57_recorded_error : forall rc (mp : mpo Rnum) tol lbh ubh threshold method sub E mute a n s s' sol,
  let H := refine_cfg rc mp tol lbh ubh threshold method sub in
  a_nopts a <> a_mopts a -> (a_mopts a < length (st_dicts s))%nat -> mp_nseg mp <> 1%nat -> refines (call_options H a s) ->
  h_solve E mp mute H a n s = (s', Ok sol) ->
  exists w z ts res e pre, st_sw s' = Some w /\ dget String.eqb sol "x"%string = Some z /\
    dynamics_residuals rc mp w z None None false = Ok (ts, res) /\ largest (concat (map entries res)) e /\
    st_info s' = pre ++ [(st_iter s', Some e)].
Proof. exact reported_error. Qed.
Print Assumptions C57_recorded_error.
(** below every tolerance: so is every residual of the returned solution *)
Theorem C57_tolerance : forall rc (mp : mpo Rnum) tol lbh ubh threshold method sub E mute a n s s' sol,
  let H := refine_cfg rc mp tol lbh ubh threshold method sub in
  a_nopts a <> a_mopts a -> (a_mopts a < length (st_dicts s))%nat -> mp_nseg mp <> 1%nat -> refines (call_options H a s) ->
  h_solve E mp mute H a n s = (s', Ok sol) -> forall pre k e, st_info s' = pre ++ [(k, e)] -> converged tol e ->
  exists w z ts res, st_sw s' = Some w /\ dget String.eqb sol "x"%string = Some z /\
    dynamics_residuals rc mp w z None None false = Ok (ts, res) /\
    forall rs r t, In rs res -> In r (entries rs) -> In t tol -> Rabs r < t.
Proof. exact tolerance_met. Qed.
Print Assumptions C57_tolerance.
Example C57_case : exists z t s' sol pre k e,
  let H := refine_cfg still_rc still_mp [t] [1 / 100] [1] (1 / 2) "residual" "merge_split" in
  mp_nseg still_mp = 2%nat /\ refines (call_options H still_args (fresh [[]; []])) /\
  h_solve (still_env z) still_mp true H still_args 1 (fresh [[]; []]) = (s', Ok sol) /\ st_info s' = pre ++ [(k, e)] /\ converged [t] e.
Proof. exact still_met. Qed.
