(** Properties C26-C29 and C45: refinement of segment widths (class mpopt_h_adaptive). *)
From Coq Require Import String Reals List Lia Lra Arith.
From Verif Require Import Num PyList Hadapt Spec SpecHadapt MergeR AreaR SlopeR ClampR HadaptR ExHadapt.
Import ListNotations.
Open Scope list_scope.
Open Scope R_scope.

(** * C26 *)
(** every residual method except "equal_area": "merge_split" and unknown names *)
Theorem C26_residual_partition : forall method n nph sw tol residuals, (1 <= n)%nat -> widths_ok n nph sw ->
  residuals_ok n nph residuals -> points_ok residuals -> (nph <= length tol)%nat -> method <> "equal_area"%string ->
  exists ws e, widths_by_residual (N := Rnum) method n nph sw tol residuals = Ok (ws, e) /\ widths_ok n nph ws /\
    (forall ph, (ph < nph)%nat -> within_tol (nth ph tol 0) (nth ph residuals []) -> phase_part n ph ws = phase_part n ph sw) /\
    (forall ph, (ph < nph)%nat -> ~ within_tol (nth ph tol 0) (nth ph residuals []) ->
       (method = "merge_split"%string -> exists mx, segment_maxima (nth ph residuals []) mx /\
          merge_split (N := Rnum) mx (phase_part n ph sw) (nth ph tol 0) = Ok (phase_part n ph ws)) /\
       (method <> "merge_split"%string -> phase_part n ph ws = phase_part n ph sw)) /\
    largest (concat (map entries residuals)) e.
Proof. exact by_residual_ok. Qed.
Print Assumptions C26_residual_partition.
(** "equal_area": the sum of a phase is 1 unless the last two residual points of the phase are 0 *)
Theorem C26_equal_area_partial : forall n nph sw tol residuals, (2 <= n)%nat -> widths_ok n nph sw ->
  residuals_ok n nph residuals -> points_ok residuals -> (nph <= length tol)%nat -> (forall ph, (ph < nph)%nat -> 0 < nth ph tol 0) ->
  exists ws e, widths_by_residual (N := Rnum) "equal_area" n nph sw tol residuals = Ok (ws, e) /\ length ws = (n * nph)%nat /\
    (forall ph, (ph < nph)%nat -> let below := within_tol (nth ph tol 0) (nth ph residuals []) in
       (forall w, In w (phase_part n ph ws) -> 0 < w) /\ 6 / 10 < total (phase_part n ph ws) <= 1 /\
       (below -> phase_part n ph ws = phase_part n ph sw) /\
       (~ below -> let r := point_norms (nth ph residuals []) in
          (exists new, equal_area (N := Rnum) r n = Ok new /\
             forall k, (k < n)%nat -> nth k (phase_part n ph ws) 0 = 4 / 10 * nth k new 0 + 6 / 10 * nth k (phase_part n ph sw) 0) /\
          (total (phase_part n ph ws) = 1 <-> 0 < nth (length r - 2) r 0 + nth (length r - 1) r 0))) /\
    largest (concat (map entries residuals)) e.
Proof.
  intros n nph sw tol residuals Hn Hs Hr Hp Ht Htp.
  exact (by_area_ok "equal_area" n nph sw tol residuals ltac:(lia) Hs Hr Hp Ht eq_refl Hn Htp).
Qed.
Print Assumptions C26_equal_area_partial.
Theorem C26_equal_area_refuted : exists n nph sw tol residuals ws e, widths_ok n nph sw /\ residuals_ok n nph residuals /\ points_ok residuals /\
  (forall ph, (ph < nph)%nat -> 0 < nth ph tol 0) /\
  widths_by_residual (N := Rnum) "equal_area" n nph sw tol residuals = Ok (ws, e) /\ ~ widths_ok n nph ws.
Proof. exact area_phase_short. Qed.
Print Assumptions C26_equal_area_refuted.
(** "control_slope", one phase: [t] the node times, [du] the control slopes *)
Theorem C26_slope_partition : forall old t du thr t0 tf lo hi n, (2 <= n)%nat -> 0 < lo -> 0 < hi -> partition n old ->
  length du = length t -> NoDup t -> (forall i, (1 <= i < length t - 1)%nat -> t0 < nth i t 0 < tf) ->
  exists ws, widths_by_slope (N := Rnum) old t du thr t0 tf lo hi n = Ok ws /\ partition n ws.
Proof. exact by_slope_ok. Qed.
Print Assumptions C26_slope_partition.
Example C26_case : widths_ok 3 1 ex_third /\ residuals_ok 3 1 ex_res /\ points_ok ex_res /\ (1 <= length [1/2])%nat /\ "merge_split"%string <> "equal_area"%string.
Proof. split; [exact ex_third_ok|]. split; [apply ex_res_ok|]. split; [apply ex_res_ok|]. split; [cbn; lia|discriminate]. Qed.
Example C26_slope_case : partition 2 [1/2; 1/2] /\ length ex_du = length ex_t /\ NoDup ex_t /\ (forall i, (1 <= i < length ex_t - 1)%nat -> 0 < nth i ex_t 0 < 3).
Proof.
  split; [split; [reflexivity|split; [intros w [<-|[<-|[]]]; lra|cbn; lra]]|]. split; [reflexivity|]. split.
  - unfold ex_t. repeat constructor; cbn; intros H; repeat (destruct H as [H|H]; [lra|]); exact H.
  - intros i Hi. cbn in Hi. assert (C : (i = 1 \/ i = 2)%nat) by lia. destruct C; subst; cbn; lra.
Qed.

(** * C27 *)
Theorem C27_merge_split : forall tol res sw, (length sw <= length res)%nat ->
  exists ws, merge_split (N := Rnum) res sw tol = Ok ws /\
  length ws = length sw /\ total ws = total sw /\
  ((forall w, In w sw -> 0 < w) -> forall w, In w ws -> 0 < w) /\
  (forall i, (i < length sw)%nat -> side_change tol res i -> exists j, (j <= length ws)%nat /\ total (firstn j ws) = total (firstn i sw)) /\
  exists gs, maximal_runs tol res sw gs /\
    ((length gs = length sw \/ (forall g, In g gs -> fst g = true)) -> ws = sw) /\
    (length gs <> length sw -> (exists g, In g gs /\ fst g = false) ->
     exists news k, length news = length gs /\ ws = concat news /\
       forall i g new, nth_error gs i = Some g -> nth_error news i = Some new ->
         exists ki, run_result g ki new /\
           (fst g = false -> (k <= ki)%nat /\ ((exists j g', (i < j)%nat /\ nth_error gs j = Some g' /\ fst g' = false) -> ki = k))).
Proof. exact merge_split_ok. Qed.
Print Assumptions C27_merge_split.
(** five segments, the second and third above tolerance: one, three and one new segments *)
Example C27_case : (length [1/5; 1/5; 1/5; 1/5; 1/5] <= length [0; 2; 2; 0; 0])%nat /\
  merge_split (N := Rnum) [0; 2; 2; 0; 0] [(1/5)%R; (1/5)%R; (1/5)%R; (1/5)%R; (1/5)%R] 1 =
  Ok [0 + 1/5; (0 + 1/5 + 1/5) / nofnat (N := Rnum) 3; (0 + 1/5 + 1/5) / nofnat (N := Rnum) 3; (0 + 1/5 + 1/5) / nofnat (N := Rnum) 3; 0 + 1/5 + 1/5]%R.
Proof.
  split; [cbn; lia|]. apply (merge_case Rnum 1 0 2 (1/5)%R); [apply NumR.Rltb_true; cbn; lra|apply NumR.Rltb_false; cbn; lra].
Qed.

(** * C28 *)
Theorem C28_equal_area_partial : forall r n, (2 <= length r)%nat -> (1 <= n)%nat -> (forall x, In x r -> 0 <= x) -> 0 < area r (length r - 1) ->
  exists ws, equal_area (N := Rnum) r n = Ok ws /\ length ws = n /\ (forall w, In w ws -> 0 < w) /\
  (forall i, (i <= n)%nat -> area_at r (total (firstn i ws) * (INR (length r) - 1)) (INR i / INR n * area r (length r - 1))) /\
  total ws <= 1 /\ (total ws = 1 <-> 0 < nth (length r - 2) r 0 + nth (length r - 1) r 0).
Proof. exact equal_area_ok. Qed.
Print Assumptions C28_equal_area_partial.
Theorem C28_sum_refuted : exists r n ws, (2 <= length r)%nat /\ (forall x, In x r -> 0 <= x) /\ 0 < area r (length r - 1) /\
  equal_area (N := Rnum) r n = Ok ws /\ total ws <> 1.
Proof. exact area_short. Qed.
Print Assumptions C28_sum_refuted.
Example C28_case : (2 <= length [1; 3; 2])%nat /\ (forall x, In x [1; 3; 2] -> 0 <= x) /\ 0 < area [1; 3; 2] (length [1; 3; 2] - 1) /\
  0 < nth (length [1; 3; 2] - 2) [1; 3; 2] 0 + nth (length [1; 3; 2] - 1) [1; 3; 2] 0.
Proof. split; [cbn; lia|]. split; [intros x Hx; repeat (destruct Hx as [<-|Hx]; [lra|]); destruct Hx|]. cbn. lra. Qed.

(** * C29 *)
(** the candidates are the interior nodes with slope at least the threshold, flattest first *)
Theorem C29_candidates_partial : forall (t : list R) du thr, length du = length t ->
  exists is, NoDup is /\ (forall i, In i is <-> (1 <= i < length t - 1)%nat /\ thr <= slope du i) /\
    time_at_max (N := Rnum) t du thr = map (fun i => nth i t 0) is /\
    (forall a b, (a < b < length is)%nat -> slope du (nth a is 0%nat) <= slope du (nth b is 0%nat)).
Proof. exact time_at_max_ok. Qed.
Print Assumptions C29_candidates_partial.
Theorem C29_steepest_refuted : exists t du thr is ws, length du = length t /\ NoDup t /\
  time_at_max (N := Rnum) t du thr = map (fun i => nth i t 0) is /\
  widths_by_slope (N := Rnum) [(1/2)%R; (1/2)%R] t du thr 0 3 (1/100000)%R 1 2 = Ok ws /\
  is = [1; 2]%nat /\ slope du 1 < slope du 2 /\ boundary 0 3 ws 1 = nth 1 t 0 /\ boundary 0 3 ws 1 <> nth 2 t 0.
Proof. exact flattest_chosen. Qed.
Print Assumptions C29_steepest_refuted.
Theorem C29_boundaries : forall times n t0 tf, (2 <= n)%nat -> NoDup times -> (forall s, In s times -> t0 < s < tf) -> times <> [] ->
  exists ws, widths_at_times (N := Rnum) times n t0 tf = Ok ws /\ partition n ws /\
  ((n - 1 <= length times)%nat -> forall i, (1 <= i < n)%nat -> In (boundary t0 tf ws i) (firstn n times)) /\
  ((length times <= n - 1)%nat -> forall s, In s times -> exists i, (1 <= i < n)%nat /\ boundary t0 tf ws i = s).
Proof. exact widths_at_times_ok. Qed.
Print Assumptions C29_boundaries.
Example C29_boundaries_case : NoDup [2; 1] /\ (forall s, In s [2; 1] -> 0 < s < 3).
Proof. split; [repeat constructor; cbn; intros H; repeat (destruct H as [H|H]; [lra|]); exact H|intros s [<-|[<-|[]]]; lra]. Qed.
Theorem C29_clamp_partition : forall lo hi n ws, 0 < lo -> 0 < hi -> partition n ws -> partition n (clamp_widths (N := Rnum) lo hi ws).
Proof. exact clamp_ok. Qed.
Print Assumptions C29_clamp_partition.
Theorem C29_limits_partial : forall lo hi n ws, partition n ws -> (forall w, In w ws -> lo <= w <= hi) -> clamp_widths (N := Rnum) lo hi ws = ws.
Proof. exact clamp_keeps. Qed.
Print Assumptions C29_limits_partial.
(** each width is cut off at the limits, then all are multiplied by one number: the largest is at most
    hi/lo times the smallest, and the order of sizes is kept *)
Theorem C29_limits : forall lo hi n ws, 0 < lo -> lo <= hi -> partition n ws ->
  exists k, 0 < k /\ forall i, (i < n)%nat -> nth i (clamp_widths (N := Rnum) lo hi ws) 0 = k * Rmin hi (Rmax lo (nth i ws 0)).
Proof. exact clamp_shape. Qed.
Print Assumptions C29_limits.
Theorem C29_ratio : forall lo hi n ws, 0 < lo -> lo <= hi -> partition n ws ->
  let out := clamp_widths (N := Rnum) lo hi ws in
  (forall i j, (i < n)%nat -> (j < n)%nat -> lo * nth i out 0 <= hi * nth j out 0) /\
  (forall i j, (i < n)%nat -> (j < n)%nat -> nth i ws 0 <= nth j ws 0 -> nth i out 0 <= nth j out 0).
Proof. exact clamp_ratio. Qed.
Print Assumptions C29_ratio.
Theorem C29_limits_refuted : exists lo hi ws, 0 < lo /\ lo <= hi /\ partition 2 ws /\ exists w, In w (clamp_widths (N := Rnum) lo hi ws) /\ w < lo.
Proof. exact clamp_outside. Qed.
Print Assumptions C29_limits_refuted.
Example C29_limits_case : partition 2 [1/3; 2/3] /\ (forall w, In w [1/3; 2/3] -> 1/100000 <= w <= 1).
Proof. split; [split; [reflexivity|split; [intros w [<-|[<-|[]]]; lra|cbn; lra]]|intros w [<-|[<-|[]]]; lra]. Qed.

(** * C45 *)
Theorem C45_no_coarsening_refuted : exists tol res sw ws, merge_split (N := Rnum) res sw tol = Ok ws /\ length res = length sw /\
  partition 7 sw /\ tol <= nth 0 res 0 /\ nth 0 sw 0 < nth 0 ws 0.
Proof. exact coarsens. Qed.
Print Assumptions C45_no_coarsening_refuted.
(** with at most one run above tolerance its new segments are not wider than its widest old one *)
Theorem C45_single_run_partial : forall tol res sw, (length sw <= length res)%nat -> (forall w, In w sw -> 0 < w) ->
  exists ws gs, merge_split (N := Rnum) res sw tol = Ok ws /\ maximal_runs tol res sw gs /\
  ((forall i j g h, nth_error gs i = Some g -> nth_error gs j = Some h -> fst g = false -> fst h = false -> i = j) ->
   ws = sw \/ exists news, ws = concat news /\ length news = length gs /\
    forall i g new w, nth_error gs i = Some g -> fst g = false -> nth_error news i = Some new -> In w new ->
    exists w0, In w0 (snd g) /\ w <= w0).
Proof. exact single_run. Qed.
Print Assumptions C45_single_run_partial.
Example C45_case : (length [1/5; 1/5; 1/5; 1/5; 1/5] <= length [0; 2; 2; 0; 0])%nat /\ (forall w, In w [1/5; 1/5; 1/5; 1/5; 1/5] -> 0 < w).
Proof. split; [cbn; lia|]. intros x Hx; repeat (destruct Hx as [<-|Hx]; [lra|]); destruct Hx. Qed.
