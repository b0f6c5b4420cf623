(** Properties of class mpopt_adaptive, whose segment widths are decision variables (C39, C40).

    z is a decision vector: for each phase the variables of class mpopt followed by the widths;
    [ad_traj], [ad_width] are the trajectory and the widths it describes. *)
From Coq Require Import String.
From Coq Require Import Reals.
From Coquelicot Require Import Coquelicot.
From Coq Require Import List Lia Lra Bool Arith.
From Verif Require Import Num PyList Mat Poly Roots Colloc Ocp Transcribe Solve Adaptive Spec SpecOcp SpecSolve SpecHadapt SpecResid SpecAdapt
  ExOcp ExAdapt AdaptThm AdaptMain.
Import ListNotations.
Open Scope R_scope.

(** * C39 *)
Theorem C39_feasible : forall ac mp npath nterm z, ad_input_ok ac mp npath nterm z ->
  let o := mp_ocp mp in
  exists rs n, mapM (c_roots (mp_cf mp)) (mp_orders mp) = Ok rs /\ a_nlp_at ac mp z = Ok n /\ c_g (n_x n) = z /\
  (feasible n <-> (forall ph, (ph < o_nph o)%nat -> let w := ad_width mp z ph in let y := ad_traj mp z ph in
                     bounds_ok mp ph y /\ width_bounds_ok ac mp w ph /\ ad_phase_ok ac mp rs w ph y) /\
                  links_ok mp (ad_traj mp z)).
Proof. exact ad_feasible. Qed.
Print Assumptions C39_feasible.
(** unless the attributes are changed: widths between 1/10000 and 1, defects at the mid points at most 1/1000 *)
Theorem C39_defaults : forall mp npath nterm z, mpo_ok mp -> ocp_ok (mp_ocp mp) npath nterm -> scales_pos (mp_ocp mp) ->
  length z = (o_nph (mp_ocp mp) * ad_nvars mp)%nat ->
  let o := mp_ocp mp in
  exists rs n, mapM (c_roots (mp_cf mp)) (mp_orders mp) = Ok rs /\ a_nlp_at (default_acfg (N := Rnum) (o_nph o)) mp z = Ok n /\
  (feasible n <-> (forall ph, (ph < o_nph o)%nat -> let w := ad_width mp z ph in let y := ad_traj mp z ph in
     bounds_ok mp ph y /\ (forall k, (k < length (mp_orders mp))%nat -> 1 / 10000 <= w k <= 1) /\
     dynamics_ok mp rs w ph y /\ path_ok mp rs w ph y /\ slope_ok mp rs ph y /\ terminal_ok mp ph y /\ width_sum_ok mp w /\
     mid_controls_ok mp rs ph y /\ mid_states_ok mp rs ph y /\
     (forall k p j s cx cu, nth_error (mp_orders mp) k = Some p -> (j < p)%nat -> (s < o_nx o)%nat -> seg_polys mp rs y k cx cu ->
       Rabs (w k * (nth s (o_scale_x o) 0 * defect mp w ph y k cx cu s (middle rs k j))) <= 1 / 1000)) /\
   links_ok mp (ad_traj mp z)).
Proof. exact ad_defaults. Qed.
Print Assumptions C39_defaults.
Example C39_case : exists z, ad_input_ok (default_acfg (N := Rnum) 2) rich_mp rich_npath rich_nterm z.
Proof. exact rich_ad_input. Qed.
(** a feasible point, whatever the control values *)
Example C39_case_feasible : forall u, exists z n, ad_input_ok rest_ac (rest_mp false) (fun _ => None) (fun _ => None) z /\
  a_nlp_at rest_ac (rest_mp false) z = Ok n /\ feasible n /\ same_traj (rest_mp false) (ad_traj (rest_mp false) z 0) (rest u 0 1).
Proof. intros u. destruct (rest_point false u) as (z & n & H1 & H2 & H3 & _ & H5 & _). exists z, n. auto. Qed.
Theorem C39_sizes : forall ac mp npath nterm z, ad_input_ok ac mp npath nterm z ->
  let o := mp_ocp mp in
  exists n, a_nlp_at ac mp z = Ok n /\ length (c_g (n_x n)) = (o_nph o * ad_nvars mp)%nat /\
  balanced (n_x n) /\ balanced (n_g n) /\
  length (c_g (n_g n)) = (fold_right Nat.add 0%nat (map (fun ph => ad_rows ac mp ph npath nterm) (seq 0 (o_nph o))) + link_rows o)%nat.
Proof. exact ad_sizes. Qed.
Print Assumptions C39_sizes.
(** against class mpopt with its widths set to those of the point: same objective; same
    feasibility but for the constraints on widths and mid points (without du_continuity) *)
Theorem C39_fixed_widths : forall ac mp npath nterm z, ad_input_ok ac mp npath nterm z ->
  let o := mp_ocp mp in
  forall z0 p, length z0 = (o_nph o * nvars mp)%nat -> length p = (o_nph o * mp_nseg mp)%nat ->
  (forall ph, (ph < o_nph o)%nat -> same_traj mp (ad_traj mp z ph) (user_traj mp z0 ph) /\
     forall k, (k < mp_nseg mp)%nat -> ad_width mp z ph k = width mp p ph k) ->
  exists rs n n0, mapM (c_roots (mp_cf mp)) (mp_orders mp) = Ok rs /\ a_nlp_at ac mp z = Ok n /\ nlp_at mp z0 p = Ok n0 /\ n_f n = n_f n0 /\
    ((forall ph, (ph < o_nph o)%nat -> nth ph (o_ducont o) false = false) ->
     (feasible n <-> feasible n0 /\
       forall ph, (ph < o_nph o)%nat -> let w := ad_width mp z ph in let y := ad_traj mp z ph in
         width_sum_ok mp w /\ width_bounds_ok ac mp w ph /\ mid_controls_ok mp rs ph y /\ mid_states_ok mp rs ph y /\ mid_defects_ok ac mp rs w ph y)).
Proof. exact ad_vs_fixed. Qed.
Print Assumptions C39_fixed_widths.
(** such z0, p exist for every z, and such z for all z0, p *)
Theorem C39_fixed_partner : forall mp z, length z = (o_nph (mp_ocp mp) * ad_nvars mp)%nat -> exists z0 p,
  length z0 = (o_nph (mp_ocp mp) * nvars mp)%nat /\ length p = (o_nph (mp_ocp mp) * mp_nseg mp)%nat /\
  forall ph, (ph < o_nph (mp_ocp mp))%nat -> same_traj mp (ad_traj mp z ph) (user_traj mp z0 ph) /\
    forall k, (k < mp_nseg mp)%nat -> ad_width mp z ph k = width mp p ph k.
Proof. exact ad_split. Qed.
Print Assumptions C39_fixed_partner.
Theorem C39_variable_partner : forall mp z0 p, length z0 = (o_nph (mp_ocp mp) * nvars mp)%nat -> length p = (o_nph (mp_ocp mp) * mp_nseg mp)%nat ->
  exists z, length z = (o_nph (mp_ocp mp) * ad_nvars mp)%nat /\
  forall ph, (ph < o_nph (mp_ocp mp))%nat -> same_traj mp (ad_traj mp z ph) (user_traj mp z0 ph) /\
    forall k, (k < mp_nseg mp)%nat -> ad_width mp z ph k = width mp p ph k.
Proof. exact ad_join. Qed.
Print Assumptions C39_variable_partner.
(** a successful solve: one solver call without parameters, from the warm start; the widths of
    its result are stored phase by phase *)
Theorem C39_solve : forall (E : env (N := Rnum)) mp a s s' sol, a_solve mp E a s = (s', Ok sol) ->
  exists c x ws, st_calls s' = (st_calls s ++ [c])%list /\ ca_out c = Ok sol /\ a_warm_start mp (a_init a) = Ok (ca_in c) /\
    st_solver s' = Some (ca_solver c) /\ st_dicts s' = st_dicts s /\
    ca_solver c = match st_solver s with
                  | Some v => if a_reinit a then Nlpsol (a_solver a) (solver_options (a_solver a) (dict_at s (a_nopts a))) else v
                  | None => Nlpsol (a_solver a) (solver_options (a_solver a) (dict_at s (a_nopts a))) end /\
    dget String.eqb sol "x"%string = Some x /\ st_sw s' = Some ws /\
    length x = (o_nph (mp_ocp mp) * ad_nvars mp)%nat /\ length ws = (o_nph (mp_ocp mp) * mp_nseg mp)%nat /\
    forall ph k, (ph < o_nph (mp_ocp mp))%nat -> (k < mp_nseg mp)%nat -> width mp ws ph k = ad_width mp x ph k.
Proof. exact a_solve_ok. Qed.
Print Assumptions C39_solve.
Example C39_case_solve : forall z, length z = 10%nat -> exists s',
  a_solve (rest_mp false) (rest_env z) (Sargs (N := Rnum) (Some [("x", z)]%string) false "ipopt" 0 1) (fresh [[]; []])
  = (s', Ok [("x", z); ("f", [0])]%string).
Proof. exact rest_solves. Qed.
Theorem C39_warm_start : forall (N : num) (mp : mpo N) (s : sdict) r, a_warm_start mp (Some s) = Ok r ->
  exists g, (last_entry s ["x"; "x0"]%string = None -> a_initialize_solution mp = Ok g) /\ warm_ok s g r.
Proof. intros N. exact a_warm_spec. Qed.
Print Assumptions C39_warm_start.
Theorem C39_no_solution : forall (N : num) (mp : mpo N) r,
  a_warm_start mp None = Ok r <-> exists z, a_initialize_solution mp = Ok z /\ r = [("x0"%string, z)].
Proof. intros N. exact a_warm_none. Qed.
Print Assumptions C39_no_solution.
(** the initial guess is that of class mpopt and equal widths *)
Theorem C39_guess : forall mp, mpo_ok mp -> shapes_ok (mp_ocp mp) -> exists z z0,
  a_initialize_solution mp = Ok z /\ initialize_solution mp = Ok z0 /\ length z = (o_nph (mp_ocp mp) * ad_nvars mp)%nat /\
  forall ph, (ph < o_nph (mp_ocp mp))%nat -> same_traj mp (ad_traj mp z ph) (user_traj mp z0 ph) /\
    forall k, (k < mp_nseg mp)%nat -> ad_width mp z ph k = 1 / INR (mp_nseg mp).
Proof. exact a_guess_ok. Qed.
Print Assumptions C39_guess.
Example C39_case_guess : mpo_ok rich_mp /\ shapes_ok (mp_ocp rich_mp).
Proof. split; [exact rich_mp_ok|exact rich_shapes]. Qed.
(** trajectories: the values of the point, and node times that use its widths *)
Theorem C39_trajectories : forall ac mp npath nterm z, ad_input_ok ac mp npath nterm z -> forall ph, (ph < o_nph (mp_ocp mp))%nat ->
  exists rs tr, mapM (c_roots (mp_cf mp)) (mp_orders mp) = Ok rs /\ a_trajectories mp ph z = Ok tr /\
    traj_scaled mp tr (ad_traj mp z ph) /\
    tr_t0 tr = y_t0 (ad_traj mp z ph) /\ tr_tf tr = y_tf (ad_traj mp z ph) /\
    length (tr_t tr) = total_nodes (mp_orders mp) /\
    (forall i k j, owned (mp_orders mp) i k j -> nth i (tr_t tr) 0 =
       node_time (mp_cf mp) (ad_width mp z ph) (ad_traj mp z ph) k (nth j (nth k rs []) 0)).
Proof. exact a_trajectories_ok. Qed.
Print Assumptions C39_trajectories.

(** * C40 *)
(** class mpopt, and mpopt_h_adaptive which uses its program *)
Theorem C40_mpopt_partial : forall mp npath nterm z p, input_ok mp npath nterm z p -> exists rs n,
  mapM (c_roots (mp_cf mp)) (mp_orders mp) = Ok rs /\ nlp_at mp z p = Ok n /\
  (feasible n -> forall ph, (ph < o_nph (mp_ocp mp))%nat ->
     slope_ok mp rs ph (user_traj mp z ph) /\ midu_ok mp rs ph (user_traj mp z ph) /\ ducont_ok mp rs ph (user_traj mp z ph)).
Proof. exact base_switches. Qed.
Print Assumptions C40_mpopt_partial.
Example C40_case : exists z, input_ok rich_mp rich_npath rich_nterm z rich_p.
Proof. eexists. exact rich_input. Qed.
Theorem C40_adaptive_partial : forall ac mp npath nterm z, ad_input_ok ac mp npath nterm z -> exists rs n,
  mapM (c_roots (mp_cf mp)) (mp_orders mp) = Ok rs /\ a_nlp_at ac mp z = Ok n /\
  (feasible n -> forall ph, (ph < o_nph (mp_ocp mp))%nat -> slope_ok mp rs ph (ad_traj mp z ph) /\ midu_ok mp rs ph (ad_traj mp z ph)).
Proof. exact a_switches. Qed.
Print Assumptions C40_adaptive_partial.
(** mpopt_adaptive ignores du_continuity: a feasible point with two equal segments and a kink *)
Theorem C40_adaptive_refuted : exists ac mp npath nterm z n rs, ad_input_ok ac mp npath nterm z /\
  mapM (c_roots (mp_cf mp)) (mp_orders mp) = Ok rs /\ a_nlp_at ac mp z = Ok n /\ feasible n /\
  nth 0 (o_ducont (mp_ocp mp)) false = true /\ ~ ducont_ok mp rs 0 (ad_traj mp z 0) /\
  (forall k, (k < mp_nseg mp)%nat -> ad_width mp z 0 k = 1 / 2).
Proof. exact ducont_ignored. Qed.
Print Assumptions C40_adaptive_refuted.
