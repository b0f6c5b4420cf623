(** Residuals of class mpopt_adaptive (C50), whose methods use the widths stored by the last solve.

    z is a decision vector; [ad_traj], [ad_width] are the trajectory and the widths it describes;
    [own_widths mp z p] says that the stored widths p are those of z. *)
From Coq Require Import String.
From Coq Require Import Reals.
From Coquelicot Require Import Coquelicot.
From Coq Require Import List Lia Lra Bool Arith.
From Verif Require Import Num PyList Mat Poly Roots Colloc Ocp Transcribe Solve Hadapt Resid Adaptive Post
  Spec SpecOcp SpecSolve SpecHadapt SpecResid SpecAdapt SpecPost
  ExOcp ExResid AdResid ExAdResid.
Import ListNotations.
Open Scope R_scope.
Open Scope list_scope.

(** * C50 *)
(** after a successful solve the stored widths are those of the solution *)
Theorem C50_after_solve : forall (E : env (N := Rnum)) (mp : mpo Rnum) a s s' sol, a_solve mp E a s = (s', Ok sol) ->
  exists x ws, dget String.eqb sol "x"%string = Some x /\ st_sw s' = Some ws /\ own_widths mp x ws.
Proof. exact solve_stores. Qed.
Print Assumptions C50_after_solve.
(** the residuals of that solution are the defects of its polynomials *)
Theorem C50_values_partial : forall rc ac mp npath nterm z p nodes gt, ad_input_ok ac mp npath nterm z -> own_widths mp z p ->
  length nodes = o_nph (mp_ocp mp) -> (forall taus, In taus nodes -> length taus = length (mp_orders mp)) ->
  exists rs ts res, mapM (c_roots (mp_cf mp)) (mp_orders mp) = Ok rs /\
    a_dynamics_residuals rc mp p z (Some nodes) gt false = Ok (ts, res) /\
    length ts = o_nph (mp_ocp mp) /\ length res = o_nph (mp_ocp mp) /\
    forall ph, (ph < o_nph (mp_ocp mp))%nat -> let w := ad_width mp z ph in let y := ad_traj mp z ph in
      length (nth ph ts []) = length (mp_orders mp) /\ length (nth ph res []) = length (mp_orders mp) /\
      (forall k, (k < length (mp_orders mp))%nat -> exists cx cu, seg_polys mp rs y k cx cu) /\
      forall k pts cx cu, nth_error (nth ph nodes []) k = Some pts -> seg_polys mp rs y k cx cu ->
        nth_error (nth ph ts []) k = Some (map (seg_time (mp_cf mp) w y k) pts) /\
        nth_error (nth ph res []) k = Some (match pts with [] => None | _ => Some (state_rows mp (defect mp w ph y k cx cu) pts) end).
Proof. exact own_defects. Qed.
Print Assumptions C50_values_partial.
(** 0 at collocation points iff the dynamics constraints hold *)
Theorem C50_zero_at_nodes_partial : forall rc ac mp npath nterm z p nodes gt, ad_input_ok ac mp npath nterm z -> own_widths mp z p ->
  length nodes = o_nph (mp_ocp mp) -> (forall taus, In taus nodes -> length taus = length (mp_orders mp)) ->
  exists rs ts res, mapM (c_roots (mp_cf mp)) (mp_orders mp) = Ok rs /\
    a_dynamics_residuals rc mp p z (Some nodes) gt false = Ok (ts, res) /\
    forall ph, (ph < o_nph (mp_ocp mp))%nat ->
      (dynamics_ok mp rs (ad_width mp z ph) ph (ad_traj mp z ph) ->
       forall k rows pts i x row v, nth_error (nth ph res []) k = Some (Some rows) -> nth_error (nth ph nodes []) k = Some pts ->
         nth_error pts i = Some x -> In x (own_points rs k) -> nth_error rows i = Some row -> In v row -> v = 0) /\
      (nth ph nodes [] = map (own_points rs) (seq 0 (length (mp_orders mp))) ->
       (forall rows row v, In (Some rows) (nth ph res []) -> In row rows -> In v row -> v = 0) ->
       dynamics_ok mp rs (ad_width mp z ph) ph (ad_traj mp z ph)).
Proof. exact own_zero. Qed.
Print Assumptions C50_zero_at_nodes_partial.
Theorem C50_feasible_partial : forall rc ac mp npath nterm z p n nodes gt, ad_input_ok ac mp npath nterm z -> own_widths mp z p ->
  a_nlp_at ac mp z = Ok n -> feasible n ->
  length nodes = o_nph (mp_ocp mp) -> (forall taus, In taus nodes -> length taus = length (mp_orders mp)) ->
  exists rs ts res, mapM (c_roots (mp_cf mp)) (mp_orders mp) = Ok rs /\
    a_dynamics_residuals rc mp p z (Some nodes) gt false = Ok (ts, res) /\
    forall ph k rows pts i x row v, (ph < o_nph (mp_ocp mp))%nat -> nth_error (nth ph res []) k = Some (Some rows) -> nth_error (nth ph nodes []) k = Some pts ->
      nth_error pts i = Some x -> In x (own_points rs k) -> nth_error rows i = Some row -> In v row -> v = 0.
Proof. exact feasible_zero. Qed.
Print Assumptions C50_feasible_partial.
(** integrated states and second derivatives *)
Theorem C50_states_partial : forall rc ac mp npath nterm z p nodes phases, ad_input_ok ac mp npath nterm z -> own_widths mp z p ->
  length nodes = o_nph (mp_ocp mp) ->
  (forall taus, In taus nodes -> length taus = length (mp_orders mp) /\ forall pts, In pts taus -> NoDup pts) ->
  (forall ph, In ph phases -> (ph < o_nph (mp_ocp mp))%nat) ->
  exists rs res, mapM (c_roots (mp_cf mp)) (mp_orders mp) = Ok rs /\
    a_states_residuals rc mp p z (Some phases) (Some nodes) false = Ok res /\ map fst res = phases /\
    forall ph segs, In (ph, segs) res -> let w := ad_width mp z ph in let y := ad_traj mp z ph in
      length segs = length (mp_orders mp) /\
      (forall k, (k < length (mp_orders mp))%nat -> exists cx cu, seg_polys mp rs y k cx cu) /\
      (forall k pts cx cu, nth_error (nth ph nodes []) k = Some pts -> exists cq, dyn_interp mp w ph y k cx cu cq pts) /\
      forall k pts cx cu cq, nth_error (nth ph nodes []) k = Some pts -> seg_polys mp rs y k cx cu -> dyn_interp mp w ph y k cx cu cq pts ->
        nth_error segs k = Some (match pts with
          | [] => None
          | _ => Some (Segstate (N := Rnum) (state_rows mp (integrated mp w y k cq) pts)
                   (control_rows mp (fun q tau => peval (cu q) tau) pts) (map (seg_time (mp_cf mp) w y k) pts)
                   (state_rows mp (fun s tau => peval (cx s) tau - integrated mp w y k cq s tau) pts))
          end).
Proof. exact own_states_values. Qed.
Print Assumptions C50_states_partial.
Theorem C50_second_derivatives_partial : forall rc ac mp npath nterm z p gt nodes, ad_input_ok ac mp npath nterm z -> own_widths mp z p ->
  length nodes = o_nph (mp_ocp mp) -> (forall taus, In taus nodes -> length taus = length (mp_orders mp)) ->
  exists rs res, mapM (c_roots (mp_cf mp)) (mp_orders mp) = Ok rs /\
    a_second_derivative rc mp p z gt (Some nodes) = Ok res /\ length res = o_nph (mp_ocp mp) /\
    forall ph, (ph < o_nph (mp_ocp mp))%nat -> let w := ad_width mp z ph in let y := ad_traj mp z ph in
      length (nth ph res []) = length (mp_orders mp) /\
      forall k pts cx cu, nth_error (nth ph nodes []) k = Some pts -> seg_polys mp rs y k cx cu ->
        nth_error (nth ph res []) k = Some (match pts with
          | [] => None
          | _ => Some (Segdd (N := Rnum) (map (seg_time (mp_cf mp) w y k) pts)
                   (state_rows mp (fun s tau => Derive_n (peval (cx s)) 2 tau) pts)
                   (control_rows mp (fun s tau => Derive_n (peval (cu s)) 2 tau) pts))
          end).
Proof. exact own_second_values. Qed.
Print Assumptions C50_second_derivatives_partial.
(** the same numbers as class mpopt gives for the same trajectory and widths, also on its own grids *)
Theorem C50_as_fixed_partial : forall rc ac mp npath nterm z z0 p, ad_input_ok ac mp npath nterm z ->
  length z0 = (o_nph (mp_ocp mp) * nvars mp)%nat -> own_widths mp z p ->
  (forall ph, (ph < o_nph (mp_ocp mp))%nat -> same_traj mp (ad_traj mp z ph) (user_traj mp z0 ph)) ->
  (forall nodes gt rel, a_dynamics_residuals rc mp p z nodes gt rel = dynamics_residuals rc mp p z0 nodes gt rel) /\
  (forall phases nodes rel, (forall ph, In ph phases -> (ph < o_nph (mp_ocp mp))%nat) ->
     a_states_residuals rc mp p z (Some phases) nodes rel = states_residuals rc mp p z0 (Some phases) nodes rel) /\
  (forall nodes rel, a_states_residuals rc mp p z None nodes rel = states_residuals rc mp p z0 None nodes rel) /\
  (forall gt nodes, a_second_derivative rc mp p z gt nodes = second_derivative rc mp p z0 gt nodes).
Proof. exact own_as_fixed. Qed.
Print Assumptions C50_as_fixed_partial.
(** with any widths stored: the times are those of the solution, but the dynamics are multiplied by
    the stored width of the segment *)
Theorem C50_stored_widths : forall rc ac mp npath nterm z sw nodes gt, ad_input_ok ac mp npath nterm z ->
  length sw = (o_nph (mp_ocp mp) * mp_nseg mp)%nat ->
  length nodes = o_nph (mp_ocp mp) -> (forall taus, In taus nodes -> length taus = length (mp_orders mp)) ->
  let cf := mp_cf mp in
  exists rs ts res, mapM (c_roots cf) (mp_orders mp) = Ok rs /\
    a_dynamics_residuals rc mp sw z (Some nodes) gt false = Ok (ts, res) /\
    length ts = o_nph (mp_ocp mp) /\ length res = o_nph (mp_ocp mp) /\
    forall ph, (ph < o_nph (mp_ocp mp))%nat -> let w := ad_width mp z ph in let y := ad_traj mp z ph in
      length (nth ph ts []) = length (mp_orders mp) /\ length (nth ph res []) = length (mp_orders mp) /\
      (forall k, (k < length (mp_orders mp))%nat -> exists cx cu, seg_polys mp rs y k cx cu) /\
      forall k pts cx cu, nth_error (nth ph nodes []) k = Some pts -> seg_polys mp rs y k cx cu ->
        nth_error (nth ph ts []) k = Some (map (seg_time cf w y k) pts) /\
        nth_error (nth ph res []) k = Some (match pts with [] => None | _ => Some (state_rows mp (fun s tau => Derive (peval (cx s)) tau -
          (y_tf y - y_t0 y) * width mp sw ph k / (cf_tau1 cf - cf_tau0 cf) * nth s (dyn_along (mp_ocp mp) ph y cx cu tau (seg_time cf w y k tau)) 0) pts) end).
Proof. exact stored_values. Qed.
Print Assumptions C50_stored_widths.
(** so a feasible point has residuals other than 0 at collocation points when another was solved for after it *)
Theorem C50_earlier_solution_refuted : exists ac mp npath nterm z z' n n' sw nodes ts res, ad_input_ok ac mp npath nterm z /\ ad_input_ok ac mp npath nterm z' /\
  a_nlp_at ac mp z = Ok n /\ feasible n /\ a_nlp_at ac mp z' = Ok n' /\ feasible n' /\ own_widths mp z' sw /\
  mapM (c_roots (mp_cf mp)) (mp_orders mp) = Ok [[-1; 1]; [-1; 1]] /\ nodes = [[[-1; 1]; [1]]] /\
  (forall rc gt, a_dynamics_residuals rc mp sw z (Some nodes) gt false = Ok (ts, res)) /\
  res = [[Some [[- (1 / 8)]; [- (1 / 8)]]; Some [[1 / 8]]]].
Proof. exact stale_residuals. Qed.
Print Assumptions C50_earlier_solution_refuted.
(** the stored widths of a feasible point are usable *)
Theorem C50_feasible_widths : forall ac mp npath nterm z p n, ad_input_ok ac mp npath nterm z -> own_widths mp z p ->
  (forall b, In b (ac_lbh ac) -> exists h, b = Fin h /\ 0 < h) ->
  a_nlp_at ac mp z = Ok n -> feasible n -> widths_ok (mp_nseg mp) (o_nph (mp_ocp mp)) p.
Proof. exact feasible_widths. Qed.
Print Assumptions C50_feasible_widths.
(** a feasible point of unequal segments *)
Example C50_case : exists z n, ad_input_ok rise_ac rise_mp (fun _ => None) (fun _ => None) z /\
  a_nlp_at rise_ac rise_mp z = Ok n /\ feasible n /\ own_widths rise_mp z [1 / 4; 1 - 1 / 4] /\
  (forall b, In b (ac_lbh rise_ac) -> exists h, b = Fin h /\ 0 < h) /\
  length [[[-1; 0]; [1]]] = o_nph (mp_ocp rise_mp) /\ (forall taus, In taus [[[-1; 0]; [1]]] -> length taus = length (mp_orders rise_mp)).
Proof.
  destruct (rise_point (1 / 4) ltac:(lra)) as (z & n & H1 & H2 & H3 & H4 & _). exists z, n. do 4 (split; [assumption|]).
  split; [exact rise_lbh|]. split; [reflexivity|]. intros taus [<-|[]]. reflexivity.
Qed.
Example C50_case_fixed : exists z z0, ad_input_ok rise_ac rise_mp (fun _ => None) (fun _ => None) z /\
  length z0 = (o_nph (mp_ocp rise_mp) * nvars rise_mp)%nat /\ own_widths rise_mp z [1 / 4; 1 - 1 / 4] /\
  (forall ph, (ph < o_nph (mp_ocp rise_mp))%nat -> same_traj rise_mp (ad_traj rise_mp z ph) (user_traj rise_mp z0 ph)).
Proof. exact rise_fixed. Qed.

(** * C34, C38, C49 for this class *)
Theorem C34_bounded_adaptive : forall rc (mp : mpo Rnum) sw z nodes gt ts rs, a_dynamics_residuals rc mp sw z nodes gt true = Ok (ts, rs) ->
  forall r m row v, In r rs -> In (Some m) r -> In row m -> In v row -> -1 <= v <= 1.
Proof. intros rc mp. exact (ResidMain.residuals_bounded rc mp (own_trajectories mp)). Qed.
Print Assumptions C34_bounded_adaptive.
Theorem C38_of_adaptive_solution : forall rc (mp : mpo Rnum) sw z nodes g rel ts rs, a_dynamics_residuals rc mp sw z nodes g rel = Ok (ts, rs) ->
  length ts = o_nph (mp_ocp mp) /\ length rs = o_nph (mp_ocp mp) /\
  forall ph, (ph < o_nph (mp_ocp mp))%nat -> length (nth ph ts []) = mp_nseg mp /\ matching (nth ph ts []) (nth ph rs []).
Proof. intros rc mp. exact (PostMain.residuals_match rc mp (own_trajectories mp)). Qed.
Print Assumptions C38_of_adaptive_solution.
Theorem C49_total_adaptive : forall rc ac (mp : mpo Rnum) npath nterm z p n plots sc rx rdx, ad_input_ok ac mp npath nterm z -> own_widths mp z p ->
  (forall b, In b (ac_lbh ac) -> exists h, b = Fin h /\ 0 < h) -> a_nlp_at ac mp z = Ok n -> feasible n -> plots <> [] ->
  (forall ph, (ph < o_nph (mp_ocp mp))%nat -> exists g, nth_error (r_grid rc) ph = Some g /\ grid_known g) ->
  exists po, a_process_results rc mp plots p z sc rx rdx = Ok po.
Proof. exact feasible_process. Qed.
Print Assumptions C49_total_adaptive.
Theorem C49_residuals_adaptive_partial : forall rc (mp : mpo Rnum) plots p z sc rx po, a_process_results rc mp plots p z sc rx true = Ok po -> exists r dx,
  po_resid po = Some r /\ a_dynamics_residuals rc mp p z None None false = Ok dx /\ rd_dx r = Some dx /\
  if rx then exists sx, a_states_residuals rc mp p z None None false = Ok sx /\ rd_x r = Some (map snd sx) else rd_x r = None.
Proof. intros rc mp. exact (PostMain.residuals_thm rc mp (own_trajectories mp)). Qed.
Print Assumptions C49_residuals_adaptive_partial.
Theorem C49_states_only_adaptive : forall rc (mp : mpo Rnum) plots p z sc rx po, a_process_results rc mp plots p z sc rx false = Ok po -> po_resid po = None.
Proof. intros rc mp. exact (PostMain.residuals_none rc mp (own_trajectories mp)). Qed.
Print Assumptions C49_states_only_adaptive.
Example C49_adaptive_case : forall rx rdx, exists z po, ad_input_ok rise_ac rise_mp (fun _ => None) (fun _ => None) z /\
  a_process_results (Rcfg 9 ["fixed"]%string) rise_mp [[0]%nat] [1 / 4; 1 - 1 / 4] z false rx rdx = Ok po.
Proof. exact rise_process. Qed.
