(** Properties C30-C35, C46-C48 and C55: interpolation grids, residuals and the refinement loop
    (classes mpopt and mpopt_h_adaptive). *)
From Coq Require Import String.
From Coq Require Import Reals List Lia Lra Arith Permutation.
From Coquelicot Require Import Coquelicot.
From Verif Require Import Num PyList Mat Colloc Ocp Transcribe Solve Hadapt Resid Refine.
From Verif Require Import Spec SpecOcp SpecSolve SpecHadapt SpecResid ExOcp GridR GridThm ResidThm ResidMain ResidOne RefineR RefineThm SlopeThm TotalR ExResid.
Import ListNotations.
Open Scope list_scope.
Open Scope R_scope.

(** * C30 *)
Theorem C30_requested_nodes : forall nodes ws tau0 tau1, tau0 < tau1 -> (forall w, In w ws -> 0 <= w) -> total ws = 1 ->
  exists ts, interpolation_taus (N := Rnum) nodes ws tau0 tau1 = Ok ts /\ length ts = length ws /\
    (forall l x, In l ts -> In x l -> tau0 < x <= tau1) /\
    Permutation (positions tau0 tau1 ws ts) (map (frac tau0 tau1) (part tau0 tau1 nodes)) /\
    (sorted nodes -> positions tau0 tau1 ws ts = map (frac tau0 tau1) (part tau0 tau1 nodes)).
Proof. exact taus_thm. Qed.
Print Assumptions C30_requested_nodes.
Theorem C30_wrong_sum_raises : forall nodes ws tau0 tau1, 1 / 1000000 <= Rabs (total ws - 1) ->
  interpolation_taus (N := Rnum) nodes ws tau0 tau1 = Raise AssertionError.
Proof. exact taus_raise. Qed.
Print Assumptions C30_wrong_sum_raises.
(** within the tolerance the phase ends at the sum of the widths *)
Theorem C30_tolerated_sum : forall nodes ws tau0 tau1, tau0 < tau1 -> (forall w, In w ws -> 0 <= w) -> Rabs (total ws - 1) < 1 / 1000000 ->
  exists ts, interpolation_taus (N := Rnum) nodes ws tau0 tau1 = Ok ts /\ length ts = length ws /\
    (forall l x, In l ts -> In x l -> tau0 < x <= tau1) /\
    Permutation (positions tau0 tau1 ws ts) (part 0 (total ws) (map (frac tau0 tau1) nodes)).
Proof. exact taus_tol_thm. Qed.
Print Assumptions C30_tolerated_sum.
Theorem C30_tolerated_sum_refuted : exists ws ts, (forall w, In w ws -> 0 < w) /\ Rabs (total ws - 1) < 1 / 1000000 /\
  interpolation_taus (N := Rnum) [-1; 0; 1] ws (-1) 1 = Ok ts /\ ~ In 1 (positions (-1) 1 ws ts) /\ length (positions (-1) 1 ws ts) = 1%nat.
Proof. exact short_widths_lose. Qed.
Print Assumptions C30_tolerated_sum_refuted.
Example C30_case : -1 < 1 /\ (forall w, In w [1 / 4; 3 / 4] -> 0 <= w) /\ total [1 / 4; 3 / 4] = 1 /\ sorted [-1; -1 / 2; 0; 1].
Proof.
  split; [lra|]. split; [intros w [<-|[<-|[]]]; lra|]. split; [cbn; lra|].
  intros i j Hij. cbn in Hij. destruct i as [|[|[|[|i]]]]; destruct j as [|[|[|[|j]]]]; cbn; try lra; lia.
Qed.
Example C30_raises_case : 1 / 1000000 <= Rabs (total [1 / 2; 1 / 4] - 1).
Proof. cbn. rewrite Rabs_left; lra. Qed.

(** * C31 *)
Theorem C31_mid_points : forall rc mp sw ph, mpo_ok mp ->
  exists ts, residual_grid rc mp sw ph (Some "mid-points"%string) = Ok (Some ts) /\
    map (@length R) ts = mp_orders mp /\
    forall l x, In l ts -> In x l -> cf_tau0 (mp_cf mp) < x < cf_tau1 (mp_cf mp).
Proof. exact mid_grid_thm. Qed.
Print Assumptions C31_mid_points.
Theorem C31_spectral : forall rc mp sw ph, mpo_ok mp ->
  exists ts, residual_grid rc mp sw ph (Some "spectral"%string) = Ok (Some ts) /\
    map (@length R) ts = map (fun _ => S (r_points rc)) (mp_orders mp) /\
    forall l x, In l ts -> In x l -> cf_tau0 (mp_cf mp) < x < cf_tau1 (mp_cf mp).
Proof. exact spectral_grid_thm. Qed.
Print Assumptions C31_spectral.
Theorem C31_fixed_single : forall rc mp sw ph, mpo_ok mp -> mp_nseg mp = 1%nat -> partition 1 (phase_part 1 ph sw) ->
  let cf := mp_cf mp in
  exists l, residual_grid rc mp sw ph (Some "fixed"%string) = Ok (Some [l]) /\
    forall x, In x l -> cf_tau0 cf < x < cf_tau1 cf.
Proof. exact fixed_grid_single. Qed.
Print Assumptions C31_fixed_single.
(** points inside the segments are inside the phase *)
Theorem C31_inside : forall tau0 tau1 ws k x n, tau0 < tau1 -> partition n ws -> (k < n)%nat -> tau0 < x < tau1 ->
  0 < position tau0 tau1 ws k x < 1.
Proof. intros tau0 tau1 ws k x n H1 H2 H3 H4. exact (position_inside tau0 tau1 ws n k x H1 H2 H3 H4). Qed.
Print Assumptions C31_inside.
(** "fixed": of the n inner and end points of an equally spaced grid the last one of the first
    segment is missing; with several segments the end of the phase is still there *)
Theorem C31_fixed_partial : forall rc mp sw ph, mpo_ok mp ->
  let ws := phase_part (mp_nseg mp) ph sw in partition (mp_nseg mp) ws ->
  let cf := mp_cf mp in let n := (fixed_count rc mp - 1)%nat in
  exists ts m, residual_grid rc mp sw ph (Some "fixed"%string) = Ok (Some ts) /\ length ts = mp_nseg mp /\
    (forall l x, In l ts -> In x l -> cf_tau0 cf < x <= cf_tau1 cf) /\
    (m <= n)%nat /\ (forall i, (1 <= i <= n)%nat -> ((i <= m)%nat <-> INR i / INR n <= nth 0 ws 0)) /\
    positions (cf_tau0 cf) (cf_tau1 cf) ws ts = map (fun i => INR i / INR n) (seq 1 (m - 1) ++ seq (S m) (n - m)).
Proof. exact fixed_grid_thm. Qed.
Print Assumptions C31_fixed_partial.
Theorem C31_fixed_refuted : exists rc mp sw ph ts, mpo_ok mp /\ widths_ok (mp_nseg mp) (o_nph (mp_ocp mp)) sw /\ (ph < o_nph (mp_ocp mp))%nat /\
  residual_grid rc mp sw ph (Some "fixed"%string) = Ok (Some ts) /\
  In 1 (positions (cf_tau0 (mp_cf mp)) (cf_tau1 (mp_cf mp)) (phase_part (mp_nseg mp) ph sw) ts).
Proof. exact fixed_contains_end. Qed.
Print Assumptions C31_fixed_refuted.
Example C31_case : mpo_ok rich_mp /\ mp_nseg rich_mp = 3%nat /\ partition 3 (phase_part 3 1 rich_p) /\ mpo_ok still_mp.
Proof. split; [exact rich_mp_ok|]. split; [reflexivity|]. split; [exact (proj2 rich_widths 1%nat ltac:(lia))|]. destruct still_z as (z & H & _). apply H. Qed.

(** * C32 *)
(** the residuals returned for given points are the defects of the solution's polynomials there *)
Theorem C32_values : forall rc mp npath nterm z p nodes gt, input_ok mp npath nterm z p ->
  length nodes = o_nph (mp_ocp mp) -> (forall taus, In taus nodes -> length taus = length (mp_orders mp)) ->
  exists rs ts res, mapM (c_roots (mp_cf mp)) (mp_orders mp) = Ok rs /\
    dynamics_residuals rc mp p z (Some nodes) gt false = Ok (ts, res) /\
    length ts = o_nph (mp_ocp mp) /\ length res = o_nph (mp_ocp mp) /\
    forall ph, (ph < o_nph (mp_ocp mp))%nat -> let w := width mp p ph in let y := user_traj mp z ph in
      length (nth ph ts []) = length (mp_orders mp) /\ length (nth ph res []) = length (mp_orders mp) /\
      (forall k, (k < length (mp_orders mp))%nat -> exists cx cu, seg_polys mp rs y k cx cu) /\
      forall k pts cx cu, nth_error (nth ph nodes []) k = Some pts -> seg_polys mp rs y k cx cu ->
        nth_error (nth ph ts []) k = Some (map (seg_time (mp_cf mp) w y k) pts) /\
        nth_error (nth ph res []) k = Some (match pts with [] => None | _ => Some (state_rows mp (defect mp w ph y k cx cu) pts) end).
Proof. exact residuals_all. Qed.
Print Assumptions C32_values.
(** they are 0 at collocation points iff the dynamics constraints hold *)
Theorem C32_zero_at_nodes : forall rc mp npath nterm z p nodes gt, input_ok mp npath nterm z p ->
  length nodes = o_nph (mp_ocp mp) -> (forall taus, In taus nodes -> length taus = length (mp_orders mp)) ->
  exists rs n ts res, mapM (c_roots (mp_cf mp)) (mp_orders mp) = Ok rs /\ nlp_at mp z p = Ok n /\
    dynamics_residuals rc mp p z (Some nodes) gt false = Ok (ts, res) /\
    forall ph, (ph < o_nph (mp_ocp mp))%nat ->
      (sat (g_block mp npath nterm n ph 0) ->
       forall k rows pts i x row v, nth_error (nth ph res []) k = Some (Some rows) -> nth_error (nth ph nodes []) k = Some pts ->
         nth_error pts i = Some x -> In x (own_points rs k) -> nth_error rows i = Some row -> In v row -> v = 0) /\
      (nth ph nodes [] = map (own_points rs) (seq 0 (length (mp_orders mp))) ->
       (forall rows row v, In (Some rows) (nth ph res []) -> In row rows -> In v row -> v = 0) ->
       sat (g_block mp npath nterm n ph 0)).
Proof. exact residuals_feasible. Qed.
Print Assumptions C32_zero_at_nodes.
(** without given points, the grid of every phase has the type asked for, or that of phase 0 *)
Theorem C32_one_grid_partial : forall rc mp sw z gt rel g (G : nat -> list (list R)),
  match gt with Some x => x = g | None => nth_error (r_grid rc) 0 = Some g end ->
  (forall ph, (ph < o_nph (mp_ocp mp))%nat -> residual_grid rc mp sw ph (Some g) = Ok (Some (G ph))) ->
  dynamics_residuals rc mp sw z None gt rel = dynamics_residuals rc mp sw z (Some (map G (seq 0 (o_nph (mp_ocp mp))))) gt rel.
Proof. exact residuals_one_grid. Qed.
Print Assumptions C32_one_grid_partial.
Theorem C32_grid_per_phase_refuted : exists rc mp npath nterm z p ts res own, input_ok mp npath nterm z p /\ widths_ok (mp_nseg mp) (o_nph (mp_ocp mp)) p /\
  dynamics_residuals rc mp p z None None false = Ok (ts, res) /\
  nth_error (r_grid rc) 1 = Some "mid-points"%string /\ residual_grid rc mp p 1 (Some "mid-points"%string) = Ok (Some own) /\
  map (@length R) (nth 1 ts []) <> map (@length R) own.
Proof. exact grid_type_ignored. Qed.
Print Assumptions C32_grid_per_phase_refuted.
Example C32_case : input_ok rich_mp rich_npath rich_nterm (repeat 1 (2 * nvars rich_mp)) rich_p /\
  length [[[0]; []; [1 / 2; 1]]; [[-1]; [0]; [0]]] = o_nph (mp_ocp rich_mp) /\
  (forall taus, In taus [[[0]; []; [1 / 2; 1]]; [[-1]; [0]; [0]]] -> length taus = length (mp_orders rich_mp)) /\
  exists ts, residual_grid (Rcfg 9 ["mid-points"; "fixed"]%string) rich_mp rich_p 1 (Some "fixed"%string) = Ok (Some ts).
Proof.
  split; [exact rich_input|]. split; [reflexivity|]. split; [intros taus [<-|[<-|[]]]; reflexivity|].
  destruct (grid_ok (Rcfg 9 ["mid-points"; "fixed"]%string) rich_mp rich_p 1 "fixed" rich_mp_ok (proj2 rich_widths 1%nat ltac:(lia)) ltac:(cbn; auto)) as (ts & E & _). eauto.
Qed.
(** a feasible point *)
Example C32_feasible_case : exists z n, input_ok still_mp (fun _ => None) (fun _ => None) z [1 / 2; 1 / 2] /\ nlp_at still_mp z [1 / 2; 1 / 2] = Ok n /\ feasible n.
Proof. destruct still_z as (z & H & _ & n & E & F). exists z, n. auto. Qed.

(** * C33 *)
Theorem C33_integrated_states : forall rc mp npath nterm z p nodes phases, input_ok mp npath nterm z p ->
  length nodes = o_nph (mp_ocp mp) ->
  (forall taus, In taus nodes -> length taus = length (mp_orders mp) /\ forall pts, In pts taus -> NoDup pts) ->
  (forall ph, In ph phases -> (ph < o_nph (mp_ocp mp))%nat) ->
  exists rs res, mapM (c_roots (mp_cf mp)) (mp_orders mp) = Ok rs /\
    states_residuals rc mp p z (Some phases) (Some nodes) false = Ok res /\ map fst res = phases /\
    forall ph segs, In (ph, segs) res -> let w := width mp p ph in let y := user_traj mp z ph in
      length segs = length (mp_orders mp) /\
      (forall k, (k < length (mp_orders mp))%nat -> exists cx cu, seg_polys mp rs y k cx cu) /\
      (forall k pts cx cu, nth_error (nth ph nodes []) k = Some pts -> exists cq, dyn_interp mp w ph y k cx cu cq pts) /\
      forall k pts cx cu cq, nth_error (nth ph nodes []) k = Some pts -> seg_polys mp rs y k cx cu -> dyn_interp mp w ph y k cx cu cq pts ->
        nth_error segs k = Some (match pts with
          | [] => None
          | _ => Some (Segstate (N := Rnum) (state_rows mp (integrated mp w y k cq) pts)
                   (control_rows mp (fun q tau => peval (cu q) tau) pts) (map (seg_time (mp_cf mp) w y k) pts)
                   (state_rows mp (fun s tau => peval (cx s) tau - integrated mp w y k cq s tau) pts))
          end).
Proof. exact states_all. Qed.
Print Assumptions C33_integrated_states.
Theorem C33_zero_if_exact : forall rc mp npath nterm z p ph taus, input_ok mp npath nterm z p -> (ph < o_nph (mp_ocp mp))%nat ->
  length taus = length (mp_orders mp) -> (forall pts, In pts taus -> NoDup pts) ->
  let cf := mp_cf mp in let w := width mp p ph in let y := user_traj mp z ph in
  (forall pts x, In pts taus -> In x pts -> cf_tau0 cf <= x <= cf_tau1 cf) ->
  exists rs segs, mapM (c_roots cf) (mp_orders mp) = Ok rs /\ integrate_phase rc mp p z ph (Some taus) = Ok segs /\
  forall k cx cu q pts seg, seg_polys mp rs y k cx cu -> nth_error taus k = Some pts -> nth_error segs k = Some (Some seg) ->
    (forall s, (s < o_nx (mp_ocp mp))%nat -> (length (q s) <= length pts)%nat /\
       forall x, cf_tau0 cf <= x <= cf_tau1 cf -> is_derive (peval (cx s)) x (rate mp w ph y k cx cu s x) /\
         nth s (dyn_along (mp_ocp mp) ph y cx cu x (seg_time cf w y k x)) 0 = peval (q s) x) ->
    forall row v, In row (ss_r seg) -> In v row -> v = 0.
Proof. exact states_residual_zero. Qed.
Print Assumptions C33_zero_if_exact.
(** without nodes, the residuals of a phase are those of integrating that phase, on its own grid *)
Theorem C33_one_phase : forall rc (mp : mpo Rnum) sw z ph segs,
  states_residuals rc mp sw z (Some [ph]) None false = Ok [(ph, segs)] <-> integrate_phase rc mp sw z ph None = Ok segs.
Proof. exact one_phase_thm. Qed.
Print Assumptions C33_one_phase.
(** relative residuals are the residuals divided by the largest value of the integrated state in the phase *)
Theorem C33_relative : forall rc (mp : mpo Rnum) sw z phases nodes res, states_residuals rc mp sw z phases nodes false = Ok res ->
  exists res', states_residuals rc mp sw z phases nodes true = Ok res' /\ map fst res' = map fst res /\
  forall i ph segs, nth_error res i = Some (ph, segs) -> exists segs' mx, nth_error res' i = Some (ph, segs') /\
    length mx = o_nx (mp_ocp mp) /\ (forall j, (j < o_nx (mp_ocp mp))%nat -> column_max (map (option_map (@ss_x Rnum)) segs) j (nth j mx 0)) /\
    length segs' = length segs /\
    forall k, match nth_error segs k, nth_error segs' k with
      | Some (Some s), Some (Some s') => ss_x s' = ss_x s /\ ss_u s' = ss_u s /\ ss_t s' = ss_t s /\ length (ss_r s') = length (ss_r s) /\
          forall q j, 0 < nth j mx 0 -> nth j (nth q (ss_r s') []) 0 = nth j (nth q (ss_r s) []) 0 / nth j mx 0
      | Some None, r => r = Some None
      | None, r => r = None
      | _, _ => False
      end.
Proof. exact states_relative_thm. Qed.
Print Assumptions C33_relative.
Example C33_relative_case : forall rc, exists z res, states_residuals rc still_mp [1 / 2; 1 / 2] z (Some [0%nat]) (Some still_nodes) false = Ok res.
Proof. exact still_states. Qed.
Example C33_case : forall z, same_traj still_mp (user_traj still_mp z 0) (rest (fun _ _ => 0) 0 1) ->
  forall k cx cu, (k < 2)%nat -> seg_polys still_mp [[-1; 1]; [-1; 1]] (user_traj still_mp z 0) k cx cu ->
  forall s, (s < 1)%nat -> (length ([] : list R) <= 1)%nat /\ forall x, -1 <= x <= 1 ->
    is_derive (peval (cx s)) x (rate still_mp (width still_mp [1 / 2; 1 / 2] 0) 0 (user_traj still_mp z 0) k cx cu s x) /\
    nth s (dyn_along (mp_ocp still_mp) 0 (user_traj still_mp z 0) cx cu x (seg_time (mp_cf still_mp) (width still_mp [1 / 2; 1 / 2] 0) (user_traj still_mp z 0) k x)) 0 = peval [] x.
Proof. exact still_exact. Qed.

(** * C34 *)
Theorem C34_bounded : forall rc (mp : mpo Rnum) sw z nodes gt ts rs, dynamics_residuals rc mp sw z nodes gt true = Ok (ts, rs) ->
  forall r m row v, In r rs -> In (Some m) r -> In row m -> In v row -> -1 <= v <= 1.
Proof. intros rc mp. exact (residuals_bounded rc mp (trajectories mp)). Qed.
Print Assumptions C34_bounded.
(** when they are returned and what they are *)
Theorem C34_relative : forall rc mp npath nterm z p nodes gt, input_ok mp npath nterm z p ->
  length nodes = o_nph (mp_ocp mp) -> (forall taus, In taus nodes -> length taus = length (mp_orders mp)) ->
  exists S, (forall ph taus, nth_error nodes ph = Some taus -> dyn_residuals_phase rc mp p z ph (Some taus) = Ok (S ph)) /\
  dynamics_residuals rc mp p z (Some nodes) gt false = Ok (map (fun ph => map (@sr_t Rnum) (S ph)) (seq 0 (o_nph (mp_ocp mp))),
     map (fun ph => map (@sr_r Rnum) (S ph)) (seq 0 (o_nph (mp_ocp mp)))) /\
  ((forall ph, (ph < o_nph (mp_ocp mp))%nat -> phase_relative mp (S ph)) ->
   exists ts rs, dynamics_residuals rc mp p z (Some nodes) gt true = Ok (ts, rs) /\
     ts = map (fun ph => map (@sr_t Rnum) (S ph)) (seq 0 (o_nph (mp_ocp mp))) /\ length rs = o_nph (mp_ocp mp) /\
     forall ph k seg, (ph < o_nph (mp_ocp mp))%nat -> nth_error (S ph) k = Some seg ->
       exists mx, (forall j, (j < o_nx (mp_ocp mp))%nat -> column_max (map (@sr_f Rnum) (S ph)) j (nth j mx 0)) /\
         nth_error (nth ph rs []) k = Some (option_map (map (fun row => vec (o_nx (mp_ocp mp)) (fun j => nth j row 0 / nth j mx 0))) (sr_r seg))) /\
  (~ (forall ph, (ph < o_nph (mp_ocp mp))%nat -> phase_relative mp (S ph)) ->
   dynamics_residuals rc mp p z (Some nodes) gt true = Raise AssertionError).
Proof. exact residuals_relative. Qed.
Print Assumptions C34_relative.
(** they are not always returned, not even at a feasible point *)
Theorem C34_returned_refuted : exists mp npath nterm z p nodes n, input_ok mp npath nterm z p /\ widths_ok (mp_nseg mp) (o_nph (mp_ocp mp)) p /\
  length nodes = o_nph (mp_ocp mp) /\ (forall taus, In taus nodes -> length taus = length (mp_orders mp)) /\
  nlp_at mp z p = Ok n /\ feasible n /\
  forall rc gt, (exists out, dynamics_residuals rc mp p z (Some nodes) gt false = Ok out) /\
                dynamics_residuals rc mp p z (Some nodes) gt true = Raise AssertionError.
Proof. exact relative_fails. Qed.
Print Assumptions C34_returned_refuted.

(** * C35 *)
Theorem C35_time_grid : forall (t : list R) (taus : list (list R)) (orders : list nat) tau0 tau1, tau0 <> tau1 ->
  length t = total_nodes orders -> length taus = length orders ->
  time_grid (N := Rnum) t taus orders tau0 tau1
  = Ok (concat (map (fun k => map (time_at tau0 tau1 t orders k) (nth k taus [])) (seq 0 (length orders)))).
Proof. exact time_grid_thm. Qed.
Print Assumptions C35_time_grid.
Theorem C35_ends : forall tau0 tau1 t orders k, tau0 <> tau1 ->
  time_at tau0 tau1 t orders k tau0 = nth (offset orders k) t 0 /\ time_at tau0 tau1 t orders k tau1 = nth (offset orders (S k)) t 0.
Proof. exact time_at_ends. Qed.
Print Assumptions C35_ends.
Theorem C35_increasing : forall tau0 tau1 t orders k x x', tau0 < tau1 -> nth (offset orders k) t 0 < nth (offset orders (S k)) t 0 -> x < x' ->
  time_at tau0 tau1 t orders k x < time_at tau0 tau1 t orders k x'.
Proof. exact time_at_mono. Qed.
Print Assumptions C35_increasing.
Theorem C35_segments_in_order : forall tau0 tau1 t orders k k' x x', tau0 < tau1 ->
  (forall j, nth (offset orders j) t 0 <= nth (offset orders (S j)) t 0) ->
  (k < k')%nat -> x <= tau1 -> tau0 <= x' ->
  time_at tau0 tau1 t orders k x <= time_at tau0 tau1 t orders k' x'.
Proof. exact time_at_mono_segments. Qed.
Print Assumptions C35_segments_in_order.
(** points requested anywhere in a phase get the time of that place *)
Theorem C35_requested_times : forall rc mp npath nterm z p ph nodes, input_ok mp npath nterm z p -> (ph < o_nph (mp_ocp mp))%nat ->
  partition (mp_nseg mp) (phase_part (mp_nseg mp) ph p) -> sorted nodes ->
  let cf := mp_cf mp in let y := user_traj mp z ph in
  exists taus it, interpolation_taus nodes (widths_of mp p ph) (cf_tau0 cf) (cf_tau1 cf) = Ok taus /\
    interpolate_phase rc mp p z ph (Some taus) = Ok it /\
    i_t it = map (fun x => y_t0 y + (y_tf y - y_t0 y) * frac (cf_tau0 cf) (cf_tau1 cf) x) (part (cf_tau0 cf) (cf_tau1 cf) nodes).
Proof. exact requested_times. Qed.
Print Assumptions C35_requested_times.
Example C35_case : length [0; 1; 2; 4; 6; 8; 9] = total_nodes [3; 1; 2]%nat /\
  (forall j, nth (offset [3; 1; 2]%nat j) [0; 1; 2; 4; 6; 8; 9] 0 <= nth (offset [3; 1; 2]%nat (S j)) [0; 1; 2; 4; 6; 8; 9] 0) /\
  time_at (-1) 1 [0; 1; 2; 4; 6; 8; 9] [3; 1; 2]%nat 2 0 = 15 / 2 /\
  input_ok rich_mp rich_npath rich_nterm (repeat 1 (2 * nvars rich_mp)) rich_p /\ partition 3 (phase_part 3 1 rich_p).
Proof.
  split; [reflexivity|]. split; [intros [|[|[|j]]]; cbn; try lra; destruct j; cbn; lra|]. split; [unfold time_at, frac; cbn; lra|].
  split; [exact rich_input|exact (proj2 rich_widths 1%nat ltac:(lia))].
Qed.

(** * C46 *)
Theorem C46_second_derivatives : forall rc mp npath nterm z p gt nodes, input_ok mp npath nterm z p ->
  length nodes = o_nph (mp_ocp mp) -> (forall taus, In taus nodes -> length taus = length (mp_orders mp)) ->
  exists rs res, mapM (c_roots (mp_cf mp)) (mp_orders mp) = Ok rs /\
    second_derivative rc mp p z gt (Some nodes) = Ok res /\ length res = o_nph (mp_ocp mp) /\
    forall ph, (ph < o_nph (mp_ocp mp))%nat -> let w := width mp p ph in let y := user_traj mp z ph in
      length (nth ph res []) = length (mp_orders mp) /\
      forall k pts cx cu, nth_error (nth ph nodes []) k = Some pts -> seg_polys mp rs y k cx cu ->
        nth_error (nth ph res []) k = Some (match pts with
          | [] => None
          | _ => Some (Segdd (N := Rnum) (map (seg_time (mp_cf mp) w y k) pts)
                   (state_rows mp (fun s tau => Derive_n (peval (cx s)) 2 tau) pts)
                   (control_rows mp (fun s tau => Derive_n (peval (cu s)) 2 tau) pts))
          end).
Proof. exact second_all. Qed.
Print Assumptions C46_second_derivatives.
Example C46_case : input_ok rich_mp rich_npath rich_nterm (repeat 1 (2 * nvars rich_mp)) rich_p /\
  (forall taus, In taus [[[0]; []; [1 / 2; 1]]; [[-1]; [0]; [0]]] -> length taus = length (mp_orders rich_mp)).
Proof. split; [exact rich_input|]. intros taus [<-|[<-|[]]]; reflexivity. Qed.

(** * C47 *)
(** one refinement step *)
Theorem C47_refine_by_residual : forall rc mp npath nterm z sw, input_ok mp npath nterm z sw ->
  widths_ok (mp_nseg mp) (o_nph (mp_ocp mp)) sw -> (1 <= o_nx (mp_ocp mp))%nat ->
  forall g, nth_error (r_grid rc) 0 = Some g -> grid_known g ->
  forall tol method, (o_nph (mp_ocp mp) <= length tol)%nat -> method <> "equal_area"%string ->
  let n := mp_nseg mp in
  exists ws e, refine_by_residual rc mp tol method sw z = Ok (ws, e) /\ widths_ok n (o_nph (mp_ocp mp)) ws /\
  exists ts res, dynamics_residuals rc mp sw z None None false = Ok (ts, res) /\ largest (concat (map entries res)) e /\
    forall ph, (ph < o_nph (mp_ocp mp))%nat ->
      (within_tol (nth ph tol 0) (nth ph res []) -> phase_part n ph ws = phase_part n ph sw) /\
      (~ within_tol (nth ph tol 0) (nth ph res []) ->
        (method = "merge_split"%string -> exists mx, segment_maxima (nth ph res []) mx /\
           merge_split (N := Rnum) mx (phase_part n ph sw) (nth ph tol 0) = Ok (phase_part n ph ws)) /\
        (method <> "merge_split"%string -> phase_part n ph ws = phase_part n ph sw)).
Proof. exact refine_residual_ok. Qed.
Print Assumptions C47_refine_by_residual.
(** "equal_area" gives widths that can sum to less than 1 (C26, C28) *)
Theorem C26_solution_area_partial : forall rc mp npath nterm z sw, input_ok mp npath nterm z sw ->
  widths_ok (mp_nseg mp) (o_nph (mp_ocp mp)) sw -> (1 <= o_nx (mp_ocp mp))%nat ->
  forall g, nth_error (r_grid rc) 0 = Some g -> grid_known g ->
  forall tol, (o_nph (mp_ocp mp) <= length tol)%nat -> (2 <= mp_nseg mp)%nat ->
  (forall ph, (ph < o_nph (mp_ocp mp))%nat -> 0 < nth ph tol 0) ->
  let n := mp_nseg mp in
  exists ws e ts res, refine_by_residual rc mp tol "equal_area" sw z = Ok (ws, e) /\ length ws = (n * o_nph (mp_ocp mp))%nat /\
    dynamics_residuals rc mp sw z None None false = Ok (ts, res) /\ largest (concat (map entries res)) e /\
    forall ph, (ph < o_nph (mp_ocp mp))%nat -> let part := phase_part n ph ws in
      (forall w, In w part -> 0 < w) /\ 6 / 10 < total part <= 1 /\
      (within_tol (nth ph tol 0) (nth ph res []) -> part = phase_part n ph sw) /\
      (~ within_tol (nth ph tol 0) (nth ph res []) -> let r := point_norms (nth ph res []) in
         (exists new, equal_area (N := Rnum) r n = Ok new /\
            forall k, (k < n)%nat -> nth k part 0 = 4 / 10 * nth k new 0 + 6 / 10 * nth k (phase_part n ph sw) 0) /\
         (total part = 1 <-> 0 < nth (length r - 2) r 0 + nth (length r - 1) r 0)).
Proof. exact refine_area_ok. Qed.
Print Assumptions C26_solution_area_partial.
Theorem C47_refine_by_slope : forall rc mp npath nterm z sw, input_ok mp npath nterm z sw ->
  widths_ok (mp_nseg mp) (o_nph (mp_ocp mp)) sw -> (1 <= o_nx (mp_ocp mp))%nat ->
  forall g, nth_error (r_grid rc) 0 = Some g -> grid_known g ->
  forall tol lbh ubh threshold, (o_nph (mp_ocp mp) <= length tol)%nat ->
  (forall ph, (ph < o_nph (mp_ocp mp))%nat -> exists g', nth_error (r_grid rc) ph = Some g' /\ grid_known g') ->
  (o_nph (mp_ocp mp) <= length lbh)%nat -> (o_nph (mp_ocp mp) <= length ubh)%nat ->
  (forall x, In x lbh -> 0 < x) -> (forall x, In x ubh -> 0 < x) -> (2 <= mp_nseg mp)%nat ->
  (forall ph, (ph < o_nph (mp_ocp mp))%nat -> y_t0 (user_traj mp z ph) < y_tf (user_traj mp z ph)) ->
  let n := mp_nseg mp in
  exists ws e ts res, refine_by_slope rc mp tol lbh ubh threshold sw z = Ok (ws, e) /\ widths_ok n (o_nph (mp_ocp mp)) ws /\
  dynamics_residuals rc mp sw z None None false = Ok (ts, res) /\ largest (concat (map entries res)) e /\
  forall ph, (ph < o_nph (mp_ocp mp))%nat -> let y := user_traj mp z ph in
    (within_tol (nth ph tol 0) (nth ph res []) -> phase_part n ph ws = phase_part n ph sw) /\
    (~ within_tol (nth ph tol 0) (nth ph res []) -> exists rs ts du, mapM (c_roots (mp_cf mp)) (mp_orders mp) = Ok rs /\
       node_times mp rs (width mp sw ph) y ts /\ local_slopes mp rs y du /\
       widths_by_slope (N := Rnum) (phase_part n ph sw) ts du threshold (y_t0 y) (y_tf y) (nth ph lbh 0) (nth ph ubh 0) n = Ok (phase_part n ph ws)).
Proof. exact refine_slope_ok. Qed.
Print Assumptions C47_refine_by_slope.
(** all solver calls of the loop *)
Theorem C47_loop_widths : forall rc (mp : mpo Rnum) npath nterm tol lbh ubh threshold method sub E mute a n s s' r,
  let nph := o_nph (mp_ocp mp) in let H := refine_cfg rc mp tol lbh ubh threshold method sub in
  mpo_ok mp -> ocp_ok (mp_ocp mp) npath nterm -> scales_pos (mp_ocp mp) -> (1 <= o_nx (mp_ocp mp))%nat -> (1 <= nph)%nat ->
  (forall ph, (ph < nph)%nat -> exists g, nth_error (r_grid rc) ph = Some g /\ grid_known g) ->
  (nph <= length tol)%nat -> (nph <= length lbh)%nat -> (nph <= length ubh)%nat ->
  (forall x, In x (lbh ++ ubh) -> 0 < x) ->
  (forall calls v i out, e_run E calls v i = Ok out -> timed_solution mp out) ->
  (forall x, a_init a = Some x -> timed_solution mp x) ->
  (forall v, st_sw s = Some v -> widths_ok (mp_nseg mp) nph v) ->
  a_nopts a <> a_mopts a -> (a_mopts a < length (st_dicts s))%nat -> no_equal_area (call_options H a s) ->
  h_solve E mp mute H a n s = (s', r) ->
  exists new, st_calls s' = st_calls s ++ new /\
    forall c, In c new -> exists w, used_widths c = Some w /\ widths_ok (mp_nseg mp) nph w.
Proof. exact loop_widths. Qed.
Print Assumptions C47_loop_widths.

(** * C48 *)
Theorem C48_loop_succeeds : forall rc (mp : mpo Rnum) npath nterm tol lbh ubh threshold method sub E mute a n s,
  let nph := o_nph (mp_ocp mp) in let H := refine_cfg rc mp tol lbh ubh threshold method sub in
  mpo_ok mp -> ocp_ok (mp_ocp mp) npath nterm -> scales_pos (mp_ocp mp) -> (1 <= o_nx (mp_ocp mp))%nat -> (1 <= nph)%nat ->
  (forall ph, (ph < nph)%nat -> exists g, nth_error (r_grid rc) ph = Some g /\ grid_known g) ->
  (nph <= length tol)%nat -> (nph <= length lbh)%nat -> (nph <= length ubh)%nat ->
  (forall x, In x (lbh ++ ubh) -> 0 < x) ->
  e_build E = Ok tt -> (forall name opts, e_nlpsol E name opts = Ok tt) ->
  (forall calls v i, exists out, e_run E calls v i = Ok out /\ full_solution mp out) ->
  (forall x, a_init a = Some x -> full_solution mp x) ->
  (forall v, st_sw s = Some v -> widths_ok (mp_nseg mp) nph v) ->
  a_nopts a <> a_mopts a -> (a_mopts a < length (st_dicts s))%nat -> no_equal_area (call_options H a s) -> n <> 0%nat ->
  exists s' sol, h_solve E mp mute H a n s = (s', Ok sol) /\ full_solution mp sol.
Proof. exact solve_succeeds. Qed.
Print Assumptions C48_loop_succeeds.
(** both on the system at rest, starting without a solution *)
Example C47_case : exists z s' sol c l,
  h_solve (still_env z) still_mp true (refine_cfg still_rc still_mp [1 / 100] [1 / 100] [1] (1 / 2) "residual" "merge_split") still_args 5 (fresh [[]; []]) = (s', Ok sol) /\
  st_calls s' = c :: l /\ exists w, used_widths c = Some w /\ widths_ok 2 1 w.
Proof. exact still_loop. Qed.
Example C47_slope_case : exists z, input_ok still_mp (fun _ => None) (fun _ => None) z [1 / 2; 1 / 2] /\ widths_ok 2 1 [1 / 2; 1 / 2] /\
  y_t0 (user_traj still_mp z 0) < y_tf (user_traj still_mp z 0).
Proof. exact still_slope. Qed.

(** * C55 *)
(** the slope that ranks node i is its slope in time multiplied by the (scaled) length of its segment *)
Theorem C55_local_slope : forall mp npath nterm z sw ph, input_ok mp npath nterm z sw -> (ph < o_nph (mp_ocp mp))%nat ->
  (forall k, (k < mp_nseg mp)%nat -> 0 < width mp sw ph k) -> y_t0 (user_traj mp z ph) < y_tf (user_traj mp z ph) ->
  forall rs du i k j v, mapM (c_roots (mp_cf mp)) (mp_orders mp) = Ok rs -> local_slopes mp rs (user_traj mp z ph) du ->
  owned (mp_orders mp) i k j -> time_slope mp rs (width mp sw ph) (user_traj mp z ph) k j v ->
  slope du i = seg_h (mp_cf mp) (width mp sw ph) (user_traj mp z ph) k * v.
Proof. exact local_slope_thm. Qed.
Print Assumptions C55_local_slope.
(** nodes in segments of the same width are ranked by their slopes in time *)
Theorem C55_same_width_partial : forall mp npath nterm z sw ph, input_ok mp npath nterm z sw -> (ph < o_nph (mp_ocp mp))%nat ->
  let y := user_traj mp z ph in let w := width mp sw ph in
  (forall k, (k < mp_nseg mp)%nat -> 0 < w k) -> y_t0 y < y_tf y ->
  forall rs du i k j v i' k' j' v', mapM (c_roots (mp_cf mp)) (mp_orders mp) = Ok rs -> local_slopes mp rs y du ->
  owned (mp_orders mp) i k j -> owned (mp_orders mp) i' k' j' -> time_slope mp rs w y k j v -> time_slope mp rs w y k' j' v' -> w k = w k' ->
  (slope du i <= slope du i' <-> v <= v').
Proof. exact same_width_order. Qed.
Print Assumptions C55_same_width_partial.
Example C55_case : exists z du, input_ok ramp_mp (fun _ => None) (fun _ => None) z ramp_w /\
  (forall k, (k < mp_nseg ramp_mp)%nat -> 0 < width ramp_mp ramp_w 0 k) /\ y_t0 (user_traj ramp_mp z 0) < y_tf (user_traj ramp_mp z 0) /\
  exists rs, mapM (c_roots (mp_cf ramp_mp)) (mp_orders ramp_mp) = Ok rs /\ local_slopes ramp_mp rs (user_traj ramp_mp z 0) du /\
    exists v v', time_slope ramp_mp rs (width ramp_mp ramp_w 0) (user_traj ramp_mp z 0) 0 1 v /\
      time_slope ramp_mp rs (width ramp_mp ramp_w 0) (user_traj ramp_mp z 0) 2 1 v' /\ width ramp_mp ramp_w 0 0 = width ramp_mp ramp_w 0 2.
Proof. exact ramp_case. Qed.
(** node 1 is steeper in time (4) than node 2 (3); the new mesh has a boundary at node 2 and none at node 1 *)
Theorem C55_steepest_in_time_refuted : exists rc mp npath nterm z sw rs tol lbh ubh threshold ws e,
  input_ok mp npath nterm z sw /\ widths_ok (mp_nseg mp) 1 sw /\ o_nph (mp_ocp mp) = 1%nat /\ mapM (c_roots (mp_cf mp)) (mp_orders mp) = Ok rs /\
  let y := user_traj mp z 0 in let w := width mp sw 0 in
  owned (mp_orders mp) 1 0 1 /\ owned (mp_orders mp) 2 1 1 /\ time_slope mp rs w y 0 1 4 /\ time_slope mp rs w y 1 1 3 /\
  refine_by_slope rc mp tol lbh ubh threshold sw z = Ok (ws, e) /\
  (forall k, (k <= mp_nseg mp)%nat -> boundary (y_t0 y) (y_tf y) ws k <> node_time (mp_cf mp) w y 0 (nth 1 (nth 0 rs []) 0)) /\
  exists k, (1 <= k < mp_nseg mp)%nat /\ boundary (y_t0 y) (y_tf y) ws k = node_time (mp_cf mp) w y 1 (nth 1 (nth 1 rs []) 0).
Proof. exact steeper_left_out. Qed.
Print Assumptions C55_steepest_in_time_refuted.
