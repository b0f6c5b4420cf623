(** Property C52: the module function solve. *)
From Coq Require Import String Reals List Arith.
From Verif Require Import Num PyList Mat Poly Roots Colloc Ocp Transcribe Solve Hadapt Resid Adaptive Post Top
  Spec SpecOcp SpecSolve SpecHadapt SpecResid SpecLoop SpecAdapt SpecPost SpecTop NumR TopR ExOcp ExResid ExTop.
Import ListNotations.
Open Scope R_scope.
Open Scope list_scope.

(** * C52 *)
(** a run that returns has called the solver once, and the returned object holds what it returned *)
Theorem C52_once : forall rc (E : mpo Rnum -> env) mute o n po cf plots a rx rdx s s' mp post,
  top_solve rc E mute o n po cf plots a rx rdx s = (s', Ok (mp, post)) ->
  built o n po cf mp /\ exists c sol x p, st_calls s' = st_calls s ++ [c] /\
  made_solver (a_solver a) (dict_at s (a_nopts a)) (ca_solver c) /\ chained mp (a_init a) [c] /\
  used_widths c = Some p /\ chosen mp (dict_at s (a_mopts a)) p /\
  ca_out c = Ok sol /\ dget String.eqb sol "x"%string = Some x /\
  forall npath nterm, input_ok mp npath nterm x p -> made_by_mpopt mp false plots (width mp p) (user_traj mp x) post.
Proof. exact top_once. Qed.
Print Assumptions C52_once.
(** the data retrieved are a solution of the discretised problem just when the solver's point is
    feasible *)
Theorem C52_solution : forall rc (E : mpo Rnum -> env) mute o n po cf plots a rx rdx s s' mp post,
  top_solve rc E mute o n po cf plots a rx rdx s = (s', Ok (mp, post)) ->
  exists c sol x p, st_calls s' = st_calls s ++ [c] /\ ca_out c = Ok sol /\ dget String.eqb sol "x"%string = Some x /\
  used_widths c = Some p /\ forall npath nterm, input_ok mp npath nterm x p -> phases_ok mp (nth 0 plots []) ->
  exists rs nl d, mapM (c_roots (mp_cf mp)) (mp_orders mp) = Ok rs /\ nlp_at mp x p = Ok nl /\ get_data post [] false = Ok d /\
    nodal_data mp rs false (width mp p) (user_traj mp x) (nth 0 plots []) d /\
    (feasible nl <-> (forall ph, (ph < o_nph (mp_ocp mp))%nat ->
        bounds_ok mp ph (user_traj mp x ph) /\ phase_ok mp rs (width mp p ph) ph (user_traj mp x ph)) /\
       links_ok mp (user_traj mp x)).
Proof. exact top_solution. Qed.
Print Assumptions C52_solution.
(** well-formed arguments and a solver that returns: so does solve *)
Theorem C52_total : forall rc (E : mpo Rnum -> env) mute o n po cf plots a rx rdx s mp npath nterm p,
  built o n po cf mp -> mpo_ok mp -> ocp_ok o npath nterm -> scales_pos o -> plots <> [] ->
  chosen mp (dict_at s (a_mopts a)) p -> widths_ok n (o_nph o) p -> solver_total (E mp) mp ->
  (forall ph, (ph < o_nph o)%nat -> exists g, nth_error (r_grid rc) ph = Some g /\ grid_known g) ->
  exists s' post, top_solve rc E mute o n po cf plots a rx rdx s = (s', Ok (mp, post)).
Proof. exact top_total. Qed.
Print Assumptions C52_total.
Theorem C52_refuses : forall rc (E : mpo Rnum -> env) mute o n l cf plots a rx rdx s, length l <> n ->
  top_solve rc E mute o n (OList l) cf plots a rx rdx s = (s, Raise AssertionError).
Proof. exact top_refuses. Qed.
Print Assumptions C52_refuses.
(** an exception of the solver is the caller's *)
Theorem C52_raises : forall rc (E : mpo Rnum -> env) mute o n po cf plots a rx rdx s s' c e,
  (exists r, top_solve rc E mute o n po cf plots a rx rdx s = (s', r) /\ st_calls s' = st_calls s ++ [c] /\ ca_out c = Raise e) ->
  top_solve rc E mute o n po cf plots a rx rdx s = (s', Raise e).
Proof. exact top_raises. Qed.
Print Assumptions C52_raises.
(** one phase, default widths and a feasible point; two phases, given widths *)
Example C52_case : exists z s' post, input_ok still_mp (fun _ => None) (fun _ => None) z (even still_mp) /\
  (exists n, nlp_at still_mp z (even still_mp) = Ok n /\ feasible n) /\
  top_solve still_rc (fun _ => still_env z) true (mp_ocp still_mp) 2 (OInt 1) (mp_cf still_mp) [[0%nat]] still_args false true (fresh [[]; []])
    = (s', Ok (still_mp, post)).
Proof. exact still_run. Qed.
Example C52_two_phases : exists s' post,
  top_solve (Rcfg 9 ["spectral"; "mid-points"]%string) (fun _ => rich_env) false (mp_ocp rich_mp) 3 (OList (mp_orders rich_mp)) (mp_cf rich_mp) [[0; 1]%nat]
    (Sargs (N := Rnum) None false "ipopt" 0 1) true true (fresh [[]; [("nlp_sw_params", VNums rich_p)]]%string) = (s', Ok (rich_mp, post)) /\
  input_ok rich_mp rich_npath rich_nterm (repeat 1 (2 * nvars rich_mp)) rich_p /\ phases_ok rich_mp [0; 1]%nat.
Proof. exact rich_run. Qed.
