(** Property C51: when the refinement of segment widths ends. *)
From Coq Require Import String Reals List Arith.
From Verif Require Import Num PyList Poly Roots Colloc Ocp Transcribe Solve SpecSolve NumR RefineR SpecLoop LoopR ExSolve ExLoop.
Import ListNotations.
Open Scope string_scope.
Open Scope list_scope.
Open Scope R_scope.

(** * C51 *)
(** whatever the solver and the refinement rules do *)
Theorem C51_stopping : forall (E : env) (mp : mpo Rnum) mute H a n s s' sol,
  a_nopts a <> a_mopts a -> (a_mopts a < List.length (st_dicts s))%nat ->
  h_solve E mp mute H a n s = (s', Ok sol) ->
  let options := call_options H a s in
  exists w e, start mp H options (st_sw s) (a_init a) = Ok (w, e) /\
  ((converged (h_tol H) e /\ a_init a = Some sol /\ st_calls s' = st_calls s /\ st_info s' = [(0%nat, e)] /\
      st_iter s' = 0%nat /\ st_sw s' = Some (match st_sw s with Some v => v | None => even mp end)) \/
   (~ converged (h_tol H) e /\ exists l new, refinement (rule mp H options) (h_tol H) n w l /\
      st_calls s' = st_calls s ++ new /\
      Forall2 (fun x c => used_widths c = Some (rd_widths x) /\ ca_out c = Ok (rd_sol x)) l new /\
      st_info s' = combine (seq 1 (List.length l)) (map rd_err l) /\
      st_iter s' = List.length l /\ exists pre x, l = pre ++ [x] /\ sol = rd_sol x /\ st_sw s' = Some (rd_widths x))).
Proof. exact solve_stops. Qed.
Print Assumptions C51_stopping.
(** a run of two rounds that ends because the error is small enough; errors of which the last
    is within 5% of the mean *)
Example C51_case : forall (o : ocp Rnum) (cf : ccfg Rnum) n,
  (exists s' sol, h_solve count_env (ex_mp o cf) true two_cfg first_args (S (S n)) (fresh [[]; []]) = (s', Ok sol) /\
    List.length (st_calls s') = 2%nat /\ map snd (st_info s') = [Some (1 / 2); Some (1 / 100)]) /\
  settled [None; Some 1; Some (101 / 100); Some 1; Some (99 / 100)].
Proof. intros o cf n. split; [exact (two_runs o cf n)|exact settled_case]. Qed.

(** a run that is not stopped by its limit has not always met the tolerance *)
Theorem C51_tolerance_refuted : forall (o : ocp Rnum) (cf : ccfg Rnum) n, exists (E : env (N := Rnum)) mp H a s s' sol e,
  h_solve E mp true H a (S (S n)) s = (s', Ok sol) /\ st_info s' = [(1%nat, e)] /\ ~ converged (h_tol H) e.
Proof.
  intros o cf n. destruct (same_runs o cf n) as (s' & sol & H1 & H2).
  exists count_env, (ex_mp o cf), same_cfg, first_args, (fresh [[]; []]), s', sol, (Some 1). exact (conj H1 (conj H2 not_converged)).
Qed.
Print Assumptions C51_tolerance_refuted.
