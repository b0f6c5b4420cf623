(** Properties of retrieved results: process_results and class post_process (C36, C37, C38, C49).

    [made_by_mpopt mp scaling plots w y po] says that process_results of class mpopt made the object
    po from a solution whose widths and trajectories per phase are w and y; [made_by_adaptive] is the
    same for class mpopt_adaptive. *)
From Coq Require Import String.
From Coq Require Import Reals.
From Coq Require Import List Lia Lra Bool Arith.
From Verif Require Import Num PyList Mat Poly Roots Colloc Ocp Transcribe Solve Hadapt Resid Adaptive Post
  Spec SpecOcp SpecSolve SpecHadapt SpecResid SpecAdapt SpecPost
  ExOcp ExResid PostThm PostGrid PostMain PostTotal ExPost.
Import ListNotations.
Open Scope R_scope.
Open Scope list_scope.

(** * C36 *)
Theorem C36_nodal : forall mp sc plots w y po, made_by_mpopt mp sc plots w y po \/ made_by_adaptive mp sc plots w y po ->
  forall phases, phases_ok mp (asked plots phases) -> exists rs d, mapM (c_roots (mp_cf mp)) (mp_orders mp) = Ok rs /\
  get_data po phases false = Ok d /\ nodal_data mp rs sc w y (asked plots phases) d.
Proof. exact nodal_thm. Qed.
Print Assumptions C36_nodal.
Theorem C36_interpolated : forall mp sc plots w y po, made_by_mpopt mp sc plots w y po \/ made_by_adaptive mp sc plots w y po ->
  forall phases taus, phases_ok mp phases -> length taus = length (mp_orders mp) -> exists rs d, mapM (c_roots (mp_cf mp)) (mp_orders mp) = Ok rs /\
  get_interpolated_data po phases taus = Ok d /\ interpolated_data mp rs sc w y phases d taus.
Proof. exact interpolated_thm. Qed.
Print Assumptions C36_interpolated.
(** by default 50 equally spaced points per segment, the first one of all but the first segment left out *)
Theorem C36_default_points : forall mp sc plots w y po, made_by_mpopt mp sc plots w y po \/ made_by_adaptive mp sc plots w y po ->
  forall phases, phases_ok mp (asked plots phases) -> exists rs d, mapM (c_roots (mp_cf mp)) (mp_orders mp) = Ok rs /\
  get_data po phases true = Ok d /\ interpolated_data mp rs sc w y (asked plots phases) d (default_grid mp).
Proof. exact default_thm. Qed.
Print Assumptions C36_default_points.
(** where a point is a node, interpolated and nodal rows agree *)
Theorem C36_shared_points : forall mp sc plots w y po, made_by_mpopt mp sc plots w y po \/ made_by_adaptive mp sc plots w y po ->
  forall rs phases taus dn di, mapM (c_roots (mp_cf mp)) (mp_orders mp) = Ok rs -> length taus = length (mp_orders mp) ->
  nodal_data mp rs sc w y phases dn -> interpolated_data mp rs sc w y phases di taus ->
  forall q ph k p i j, nth_error phases q = Some ph -> nth_error (mp_orders mp) k = Some p ->
    (i < length (nth k taus []))%nat -> (j <= p)%nat -> nth i (nth k taus []) 0 = nth j (nth k rs []) 0 ->
    let ri := (q * count_pts taus + length (concat (firstn k taus)) + i)%nat in
    let rn := (q * total_nodes (mp_orders mp) + (offset (mp_orders mp) k + j))%nat in
    (forall s, (s < o_nx (mp_ocp mp))%nat -> mget (pd_x di) ri s = mget (pd_x dn) rn s) /\
    (forall c, (c < o_nu (mp_ocp mp))%nat -> mget (pd_u di) ri c = mget (pd_u dn) rn c) /\
    nth ri (pd_t di) 0 = nth rn (pd_t dn) 0.
Proof. exact shared_thm. Qed.
Print Assumptions C36_shared_points.
(** parameters: right in solver units, and when there is one *)
Theorem C36_parameters_partial : forall mp sc plots w y po, made_by_mpopt mp sc plots w y po \/ made_by_adaptive mp sc plots w y po ->
  forall phases, phases_ok mp (asked plots phases) -> sc = true \/ o_na (mp_ocp mp) = 1%nat ->
  exists dn di, get_data po phases false = Ok dn /\ get_data po phases true = Ok di /\
    params_below mp sc y (asked plots phases) (pd_a dn) /\ params_beside mp sc y (asked plots phases) (pd_a di).
Proof. exact params_thm. Qed.
Print Assumptions C36_parameters_partial.
(** in user units every phase gives a square matrix: the column of parameters is divided by the row
    of scales; the right values are on its diagonal *)
Theorem C36_parameter_square : forall mp sc plots w y po, made_by_mpopt mp sc plots w y po \/ made_by_adaptive mp sc plots w y po ->
  forall phases, phases_ok mp (asked plots phases) -> sc = false ->
  let na := o_na (mp_ocp mp) in let sa := fun i => nth i (o_scale_a (mp_ocp mp)) 0 in
  exists dn di, get_data po phases false = Ok dn /\ get_data po phases true = Ok di /\
    nr (pd_a dn) = (length (asked plots phases) * na)%nat /\ nc (pd_a dn) = na /\
    nr (pd_a di) = na /\ nc (pd_a di) = (length (asked plots phases) * na)%nat /\
    forall q ph i j, nth_error (asked plots phases) q = Some ph -> (i < na)%nat -> (j < na)%nat ->
      mget (pd_a dn) (q * na + i) j = sa i * y_a (y ph) i / sa j /\
      mget (pd_a di) i (q * na + j) = sa i * y_a (y ph) i / sa j /\
      (i = j -> mget (pd_a dn) (q * na + i) j = y_a (y ph) i /\ mget (pd_a di) i (q * na + j) = y_a (y ph) i).
Proof. exact params_square. Qed.
Print Assumptions C36_parameter_square.
Theorem C36_parameters_refuted : exists mp plots w y po dn di, made_by_mpopt mp false plots w y po /\
  y_a (y 0%nat) 0 = 3 /\ y_a (y 0%nat) 1 = 10 /\
  get_data po [] false = Ok dn /\ get_data po [] true = Ok di /\ o_na (mp_ocp mp) = 2%nat /\ o_nph (mp_ocp mp) = 1%nat /\
  nr (pd_a dn) = 2%nat /\ nc (pd_a dn) = 2%nat /\ mget (pd_a dn) 0 1 = 12 /\ mget (pd_a dn) 1 0 = 5 / 2 /\
  nr (pd_a di) = 2%nat /\ nc (pd_a di) = 2%nat /\ mget (pd_a di) 0 1 = 12 /\ mget (pd_a di) 1 0 = 5 / 2.
Proof.
  destruct twop_wrong as (y & po & dn & di & H1 & H2 & H3 & H4 & H5 & H). exists twop_mp, [[0]%nat], (width twop_mp [1]), y, po, dn, di.
  split; [exact H1|]. split; [exact H2|]. split; [exact H3|]. split; [exact H4|]. split; [exact H5|]. split; [reflexivity|]. split; [reflexivity|exact H].
Qed.
Print Assumptions C36_parameters_refuted.
Example C36_case : forall sc, exists y po, made_by_mpopt rich_mp sc [[0; 1]%nat] (width rich_mp rich_p) y po /\
  phases_ok rich_mp (asked [[0; 1]%nat] []) /\ phases_ok rich_mp (asked [[0; 1]%nat] [1]%nat).
Proof. exact rich_post. Qed.
Example C36_adaptive_case : forall sc, exists w y po, made_by_adaptive rich_mp sc [[0; 1]%nat] w y po /\
  phases_ok rich_mp (asked [[0; 1]%nat] [1; 0; 1]%nat).
Proof. exact rich_post_adaptive. Qed.

(** * C37 *)
(** k passes put 2^k - 1 equally spaced points into every interval; k is the least number that gives
    n points, at most 6 *)
Theorem C37_points : forall (l : list R) n, (2 <= length l)%nat -> exists k r, non_uniform_grid (N := Rnum) l n = Ok r /\
  (k <= 6)%nat /\ length r = ((length l - 1) * 2 ^ k + 1)%nat /\
  (forall i j, (i + 1 < length l)%nat -> (j <= 2 ^ k)%nat ->
     nth (i * 2 ^ k + j) r 0 = nth i l 0 + INR j / 2 ^ k * (nth (i + 1) l 0 - nth i l 0)) /\
  (forall m, (m < k)%nat -> ((length l - 1) * 2 ^ m + 1 < n)%nat) /\ (k = 6%nat \/ (n <= length r)%nat).
Proof. exact non_uniform_ok. Qed.
Print Assumptions C37_points.
(** all of the property but the bound n: the number of points is at most 2 n - 3 *)
Theorem C37_grid_partial : forall (l : list R) n, (2 <= length l)%nat -> increasing l -> exists r,
  non_uniform_grid (N := Rnum) l n = Ok r /\ increasing r /\ (forall x, In x l -> In x r) /\
  nth 0 r 0 = nth 0 l 0 /\ last r 0 = last l 0 /\ ((n <= length l)%nat -> r = l) /\ (length r <= Nat.max (length l) (2 * n - 3))%nat /\
  (length r < n -> (length l - 1) * 64 + 1 = length r)%nat.
Proof. exact non_uniform_grid_ok. Qed.
Print Assumptions C37_grid_partial.
Theorem C37_count_refuted : exists l n r, increasing l /\ non_uniform_grid (N := Rnum) l n = Ok r /\ (length l < n < length r)%nat.
Proof.
  exists [0; 1], 4%nat, [0; 1 / 4; 1 / 2; 3 / 4; 1]. split; [|split; [exact grid_more|cbn; lia]].
  intros i j H. cbn in H. destruct i as [|[|i]], j as [|[|j]]; cbn; try lia; lra.
Qed.
Print Assumptions C37_count_refuted.
(** a grid of one point is refused *)
Theorem C37_short_raises : forall (l : list R) n, (length l < 2)%nat -> (length l < n)%nat -> non_uniform_grid (N := Rnum) l n = Raise ValueError.
Proof. exact non_uniform_short. Qed.
Print Assumptions C37_short_raises.
Theorem C37_short_refuted : exists l n, increasing l /\ non_uniform_grid (N := Rnum) l n = Raise ValueError.
Proof. exists [0], 2%nat. split; [intros i j H; cbn in H; lia|]. apply non_uniform_short; cbn; lia. Qed.
Print Assumptions C37_short_refuted.
Example C37_case : (2 <= length [0; 1 / 3; 1])%nat /\ increasing [0; 1 / 3; 1].
Proof. split; [cbn; lia|]. intros i j H. cbn in H. destruct i as [|[|[|i]]], j as [|[|[|j]]]; cbn; try lia; lra. Qed.

(** * C38 *)
(** residuals of a solution have one row per time *)
Theorem C38_of_solution : forall rc (mp : mpo Rnum) sw z nodes g rel ts rs, dynamics_residuals rc mp sw z nodes g rel = Ok (ts, rs) ->
  length ts = o_nph (mp_ocp mp) /\ length rs = o_nph (mp_ocp mp) /\
  forall ph, (ph < o_nph (mp_ocp mp))%nat -> length (nth ph ts []) = mp_nseg mp /\ matching (nth ph ts []) (nth ph rs []).
Proof. intros rc mp. exact (residuals_match rc mp (trajectories mp)). Qed.
Print Assumptions C38_of_solution.
(** phases listed with phase 0 first, all segments with the same number of points *)
Theorem C38_uniform_partial : forall time residuals m n rest,
  (forall ph, In ph (0%nat :: rest) -> present time residuals ph /\ uniform m (nth ph time []) /\ length (nth ph time []) = n) ->
  sort_residual_data (N := Rnum) time residuals (0%nat :: rest)
  = Ok (concat (map (norms residuals) (0%nat :: rest)), map CNum (concat (map (times time) (0%nat :: rest)))).
Proof. intros time residuals m n rest. exact (sort_uniform time residuals m n 0 rest). Qed.
Print Assumptions C38_uniform_partial.
(** one phase, any numbers of points: the data of phase 0 *)
Theorem C38_single_partial : forall time residuals, present time residuals 0 ->
  sort_residual_data (N := Rnum) time residuals [0%nat] = Ok (norms residuals 0, map CNum (times time 0)).
Proof. intros time residuals. exact (sort_single time residuals 0). Qed.
Print Assumptions C38_single_partial.
(** the first phase of the list is not looked at, phase 0 is taken *)
Theorem C38_first_phase : forall time residuals p q rest,
  sort_residual_data (N := Rnum) time residuals (p :: rest) = sort_residual_data (N := Rnum) time residuals (q :: rest).
Proof. exact sort_first_ignored. Qed.
Print Assumptions C38_first_phase.
Theorem C38_phase_refuted : exists time residuals r t, present time residuals 1 /\
  sort_residual_data (N := Rnum) time residuals [1%nat] = Ok (r, map CNum t) /\ r <> norms residuals 1 /\ t <> times time 1.
Proof.
  exists res_time, res_vals, (norms res_vals 0), (times res_time 0). split; [apply res_present; lia|]. split; [apply sort_single, res_present; lia|].
  split; intros C; [|injection C as C _ _ _; lra]. apply (f_equal (fun l => nth 0 l 0)) in C. cbn in C. revert C.
  unfold norm_of. cbn. replace (0 * 0 + 0) with 0 by ring. rewrite sqrt_0. intros C. pose proof (sqrt_lt_R0 (4 * 4 + 0) ltac:(lra)). lra.
Qed.
Print Assumptions C38_phase_refuted.
(** several phases whose segments differ in their numbers of points are refused *)
Theorem C38_ragged_raises : forall time residuals p q rest n,
  (forall ph, In ph (0%nat :: q :: rest) -> present time residuals ph /\ (forall m, ~ uniform m (nth ph time [])) /\ length (nth ph time []) = n) ->
  length (times time 0) <> n -> sort_residual_data (N := Rnum) time residuals (p :: q :: rest) = Raise ValueError.
Proof. exact sort_ragged. Qed.
Print Assumptions C38_ragged_raises.
(** a phase without segments is refused *)
Theorem C38_no_segments : forall t time residuals phases, sort_residual_data (N := Rnum) (t :: time) ([] :: residuals) phases = Raise ValueError.
Proof. reflexivity. Qed.
Print Assumptions C38_no_segments.
Theorem C38_ragged_refuted : exists time residuals, present time residuals 0 /\ present time residuals 1 /\
  sort_residual_data (N := Rnum) time residuals [0; 1]%nat = Raise ValueError.
Proof.
  exists rag_time, rag_vals. split; [apply rag_present; lia|]. split; [apply rag_present; lia|].
  apply (sort_ragged rag_time rag_vals 0 1 [] 2); [intros ph [<-|[<-|[]]]; apply rag_present; lia|cbn; lia].
Qed.
Print Assumptions C38_ragged_refuted.
Example C38_case : forall ph, In ph [0; 1]%nat -> present res_time res_vals ph /\ uniform 2 (nth ph res_time []) /\ length (nth ph res_time []) = 2%nat.
Proof. intros ph [<-|[<-|[]]]; apply res_present; lia. Qed.
Example C38_ragged_case : (forall ph, In ph [0; 1]%nat -> present rag_time rag_vals ph /\ (forall m, ~ uniform m (nth ph rag_time [])) /\ length (nth ph rag_time []) = 2%nat) /\
  length (times rag_time 0) <> 2%nat.
Proof. split; [intros ph [<-|[<-|[]]]; apply rag_present; lia|cbn; lia]. Qed.

(** * C49 *)
(** process_results returns its object for every solution, with every known type of grid per phase *)
Theorem C49_total : forall rc (mp : mpo Rnum) npath nterm z p plots sc rx rdx, input_ok mp npath nterm z p -> plots <> [] ->
  widths_ok (mp_nseg mp) (o_nph (mp_ocp mp)) p ->
  (forall ph, (ph < o_nph (mp_ocp mp))%nat -> exists g, nth_error (r_grid rc) ph = Some g /\ grid_known g) ->
  exists po, process_results rc mp plots p z sc rx rdx = Ok po.
Proof. exact process_total. Qed.
Print Assumptions C49_total.
(** with residual_dx the data asked for is attached, and no other *)
Theorem C49_residuals_partial : forall rc (mp : mpo Rnum) plots p z sc rx po, process_results rc mp plots p z sc rx true = Ok po -> exists r dx,
  po_resid po = Some r /\ dynamics_residuals rc mp p z None None false = Ok dx /\ rd_dx r = Some dx /\
  if rx then exists sx, states_residuals rc mp p z None None false = Ok sx /\ rd_x r = Some (map snd sx) else rd_x r = None.
Proof. intros rc mp. exact (residuals_thm rc mp (trajectories mp)). Qed.
Print Assumptions C49_residuals_partial.
(** without it nothing is attached *)
Theorem C49_states_only : forall rc (mp : mpo Rnum) plots p z sc rx po, process_results rc mp plots p z sc rx false = Ok po -> po_resid po = None.
Proof. intros rc mp. exact (residuals_none rc mp (trajectories mp)). Qed.
Print Assumptions C49_states_only.
Theorem C49_states_refuted : exists rc mp npath nterm z p plots po, input_ok mp npath nterm z p /\ widths_ok (mp_nseg mp) (o_nph (mp_ocp mp)) p /\
  process_results rc mp plots p z false true false = Ok po /\ po_resid po = None.
Proof. exact states_dropped. Qed.
Print Assumptions C49_states_refuted.
Example C49_case : input_ok rich_mp rich_npath rich_nterm (repeat 1 (2 * nvars rich_mp)) rich_p /\ [[0]%nat] <> [] /\
  widths_ok (mp_nseg rich_mp) (o_nph (mp_ocp rich_mp)) rich_p /\
  (forall ph, (ph < o_nph (mp_ocp rich_mp))%nat -> exists g, nth_error (r_grid (Rcfg 9 ["fixed"; "fixed"]%string)) ph = Some g /\ grid_known g).
Proof. split; [exact rich_input|]. split; [discriminate|]. split; [exact rich_widths|]. exact fixed_known. Qed.
