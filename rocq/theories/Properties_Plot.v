(** Properties of plots: methods plot_* of class post_process and the plots of process_results (C53); argument plot of the residual methods (C54);
    attribute plot_residual_evolution (C56). *)
From Coq Require Import String Reals List Arith.
From Verif Require Import Num PyList Mat Poly Roots Colloc Ocp Transcribe Solve Hadapt Resid Adaptive Post Plot
  Spec SpecOcp SpecSolve SpecHadapt SpecResid SpecLoop SpecAdapt SpecPost SpecPlot SpecShow NumR PlotMain PlotThm PlotDefault PlotGiven PlotResid PlotEvol ShowR ExOcp ExPost ExResid ExPlot.
Import ListNotations.
Open Scope R_scope.
Open Scope list_scope.

(** * C53 *)
(** at most fifteen states and controls, no residuals: the curves are the data of the phases asked for,
    on a new figure or on the axes given *)
Theorem C53_data : forall (mp : mpo Rnum) sc plots w y po phases interpolate fmt name residuals s,
  made_by_mpopt mp sc plots w y po \/ made_by_adaptive mp sc plots w y po -> phases_ok mp (asked plots (wanted phases)) ->
  (o_nx (mp_ocp mp) <= 15)%nat -> (o_nu (mp_ocp mp) <= 15)%nat -> residuals = false \/ po_resid po = None ->
  exists rs dn di, mapM (c_roots (mp_cf mp)) (mp_orders mp) = Ok rs /\
    nodal_data mp rs sc w y (asked plots (wanted phases)) dn /\ interpolated_data mp rs sc w y (asked plots (wanted phases)) di (default_grid mp) /\
    (let f := S (cs_figs s) in let a0 := Axis f 2 1 1 in let a1 := Axis f 2 1 2 in
     plot_phases po phases interpolate residuals None None (repeat fmt 15) name s =
     (Canvas (N := Rnum) f (cs_curves s ++ phase_curves a0 a1 interpolate di dn fmt name), Ok (Some f, AxMany [a0; a1]))) /\
    forall f a0 a1, plot_phases po phases interpolate residuals (Some f) (Some (AxMany [a0; a1])) (repeat fmt 15) name s =
     (Canvas (N := Rnum) (cs_figs s) (cs_curves s ++ phase_curves a0 a1 interpolate di dn fmt name), Ok (Some f, AxMany [a0; a1])).
Proof. intros mp sc plots w y po phases interpolate fmt name residuals s Hm Hp Hx Hu Hr. exact (plot_data_thm mp sc plots w y po Hm phases interpolate fmt name Hp Hx Hu residuals s Hr). Qed.
Print Assumptions C53_data.
(** process_results draws one figure per entry of phases_to_plot *)
Theorem C53_results : forall (mp : mpo Rnum) sc plots w y po l rx rdx s,
  made_by_mpopt mp sc plots w y po \/ made_by_adaptive mp sc plots w y po ->
  (o_nx (mp_ocp mp) <= 15)%nat -> (o_nu (mp_ocp mp) <= 15)%nat -> po_resid po = None ->
  (forall phases, In phases l -> phases_ok mp (asked plots phases)) ->
  exists rs cs, mapM (c_roots (mp_cf mp)) (mp_orders mp) = Ok rs /\
    plot_results po l rx rdx s = (Canvas (N := Rnum) (cs_figs s + length l) (cs_curves s ++ concat cs), Ok tt) /\
    length cs = length l /\
    forall i phases, nth_error l i = Some phases -> exists dn di,
      nodal_data mp rs sc w y (asked plots phases) dn /\ interpolated_data mp rs sc w y (asked plots phases) di (default_grid mp) /\
      let f := (cs_figs s + S i)%nat in nth_error cs i = Some (phase_curves (Axis f 2 1 1) (Axis f 2 1 2) true di dn "-" "").
Proof. intros mp sc plots w y po l rx rdx s Hm. exact (plot_results_thm mp sc plots w y po Hm l rx rdx s). Qed.
Print Assumptions C53_results.
(** more than fifteen states or controls: IndexError after fifteen of them *)
Theorem C53_many_raises : forall (mp : mpo Rnum) sc plots w y po phases interpolate fmt name residuals s,
  made_by_mpopt mp sc plots w y po \/ made_by_adaptive mp sc plots w y po -> phases_ok mp (asked plots (wanted phases)) ->
  (15 < o_nx (mp_ocp mp) \/ 15 < o_nu (mp_ocp mp))%nat -> residuals = false \/ po_resid po = None ->
  let f := S (cs_figs s) in let a0 := Axis f 2 1 1 in let a1 := Axis f 2 1 2 in let n := o_nx (mp_ocp mp) in
  exists rs dn di, mapM (c_roots (mp_cf mp)) (mp_orders mp) = Ok rs /\
    nodal_data mp rs sc w y (asked plots (wanted phases)) dn /\ interpolated_data mp rs sc w y (asked plots (wanted phases)) di (default_grid mp) /\
    plot_phases po phases interpolate residuals None None (repeat fmt 15) name s =
     (Canvas (N := Rnum) f (cs_curves s ++ firstn (if 15 <? n then 15 else n + 15)%nat (phase_curves a0 a1 interpolate di dn fmt name)), Raise IndexError).
Proof. intros mp sc plots w y po phases interpolate fmt name residuals s Hm. exact (plot_many_thm mp sc plots w y po Hm phases interpolate fmt name residuals s). Qed.
Print Assumptions C53_many_raises.
Theorem C53_many_refuted : exists mp npath nterm z p, input_ok mp npath nterm z p /\ forall rc, exists po,
  process_results rc mp [[0]%nat] p z false false false = Ok po /\
  forall s, exists s', plot_results po [[0]%nat] false false s = (s', Raise IndexError) /\ length (cs_curves s') = (length (cs_curves s) + 16)%nat.
Proof. exists wide_mp, (fun _ => None), (fun _ => None), (repeat 1 (nvars wide_mp)), [1 / 2; 1 / 2]. split; [exact wide_input|exact wide_plot]. Qed.
Print Assumptions C53_many_refuted.
(** with residuals of the dynamics: one more axes object, with the residuals of all phases; ValueError
    if the numbers of points of the phases are not alike *)
Theorem C53_dynamics : forall (mp : mpo Rnum) sc plots w y po phases (interpolate : bool) fmt name ts rs fig axs s,
  made_by_mpopt mp sc plots w y po \/ made_by_adaptive mp sc plots w y po -> phases_ok mp (asked plots (wanted phases)) ->
  (o_nx (mp_ocp mp) <= 15)%nat -> (o_nu (mp_ocp mp) <= 15)%nat ->
  po_resid po = Some (Resid_data (N := Rnum) None (Some (ts, rs))) -> error_data (o_nx (mp_ocp mp)) ts rs ->
  exists roots dn di, mapM (c_roots (mp_cf mp)) (mp_orders mp) = Ok roots /\
    nodal_data mp roots sc w y (asked plots (wanted phases)) dn /\ interpolated_data mp roots sc w y (asked plots (wanted phases)) di (default_grid mp) /\
    let f := S (cs_figs s) in let a0 := Axis f 2 2 1 in let a1 := Axis f 2 2 3 in let a2 := Axis f 1 2 2 in
    (alike ts -> plot_phases po phases interpolate true fig axs (repeat fmt 15) name s =
      (Canvas (N := Rnum) f (cs_curves s ++ phase_curves a0 a1 interpolate di dn fmt name ++
         error_curves a2 ts rs (o_nx (mp_ocp mp)) "dx" (if interpolate then "." else fmt)), Ok (Some f, AxMany [a0; a1; a2]))) /\
    (~ alike ts -> plot_phases po phases interpolate true fig axs (repeat fmt 15) name s =
      (Canvas (N := Rnum) f (cs_curves s ++ phase_curves a0 a1 interpolate di dn fmt name), Raise ValueError)).
Proof. intros mp sc plots w y po phases interpolate fmt name ts rs fig axs s Hm Hp Hx Hu. exact (plot_dynamics_thm mp sc plots w y po Hm phases interpolate fmt name Hp Hx Hu ts rs fig axs s). Qed.
Print Assumptions C53_dynamics.
(** the residuals that process_results computes at mid-points or spectral points can always be drawn *)
Theorem C53_solution : forall rc mp npath nterm z p plots sc g po phases (interpolate : bool) fmt name fig axs s,
  input_ok mp npath nterm z p -> nth_error (r_grid rc) 0 = Some g -> (g = "mid-points" \/ g = "spectral")%string ->
  process_results rc mp plots p z sc false true = Ok po -> phases_ok mp (asked plots (wanted phases)) ->
  (o_nx (mp_ocp mp) <= 15)%nat -> (o_nu (mp_ocp mp) <= 15)%nat ->
  exists ts rs roots dn di, dynamics_residuals rc mp p z None None false = Ok (ts, rs) /\ mapM (c_roots (mp_cf mp)) (mp_orders mp) = Ok roots /\
    nodal_data mp roots sc (width mp p) (user_traj mp z) (asked plots (wanted phases)) dn /\
    interpolated_data mp roots sc (width mp p) (user_traj mp z) (asked plots (wanted phases)) di (default_grid mp) /\
    let f := S (cs_figs s) in let a0 := Axis f 2 2 1 in let a1 := Axis f 2 2 3 in let a2 := Axis f 1 2 2 in
    plot_phases po phases interpolate true fig axs (repeat fmt 15) name s =
      (Canvas (N := Rnum) f (cs_curves s ++ phase_curves a0 a1 interpolate di dn fmt name ++
         error_curves a2 ts rs (o_nx (mp_ocp mp)) "dx" (if interpolate then "." else fmt)), Ok (Some f, AxMany [a0; a1; a2])).
Proof. exact solution_plot. Qed.
Print Assumptions C53_solution.
(** plot_phase is the drawing of that one phase, always with its residuals, in solid lines; nothing is returned *)
Theorem C53_phase : forall rc mp npath nterm z p plots sc g po ph (interpolate : bool) fig axs s,
  input_ok mp npath nterm z p -> nth_error (r_grid rc) 0 = Some g -> (g = "mid-points" \/ g = "spectral")%string ->
  process_results rc mp plots p z sc false true = Ok po -> (ph < o_nph (mp_ocp mp))%nat ->
  (o_nx (mp_ocp mp) <= 15)%nat -> (o_nu (mp_ocp mp) <= 15)%nat ->
  exists ts rs roots dn di, dynamics_residuals rc mp p z None None false = Ok (ts, rs) /\ mapM (c_roots (mp_cf mp)) (mp_orders mp) = Ok roots /\
    nodal_data mp roots sc (width mp p) (user_traj mp z) [ph] dn /\
    interpolated_data mp roots sc (width mp p) (user_traj mp z) [ph] di (default_grid mp) /\
    let f := S (cs_figs s) in let a0 := Axis f 2 2 1 in let a1 := Axis f 2 2 3 in let a2 := Axis f 1 2 2 in
    plot_phase po ph interpolate fig axs s =
      (Canvas (N := Rnum) f (cs_curves s ++ phase_curves a0 a1 interpolate di dn "-" "" ++
         error_curves a2 ts rs (o_nx (mp_ocp mp)) "dx" (if interpolate then "." else "-")), Ok tt).
Proof. exact phase_plot. Qed.
Print Assumptions C53_phase.
Theorem C53_both : forall rc mp npath nterm z p plots sc g po phases (interpolate : bool) fmt name fig axs s,
  input_ok mp npath nterm z p -> widths_ok (mp_nseg mp) (o_nph (mp_ocp mp)) p -> same_grid rc mp g -> (g = "mid-points" \/ g = "spectral")%string ->
  process_results rc mp plots p z sc true true = Ok po -> phases_ok mp (asked plots (wanted phases)) ->
  (o_nx (mp_ocp mp) <= 15)%nat -> (o_nu (mp_ocp mp) <= 15)%nat ->
  exists res segs ts rs roots dn di, states_residuals rc mp p z None None false = Ok res /\ map snd res = map (map Some) segs /\
    dynamics_residuals rc mp p z None None false = Ok (ts, rs) /\ mapM (c_roots (mp_cf mp)) (mp_orders mp) = Ok roots /\
    nodal_data mp roots sc (width mp p) (user_traj mp z) (asked plots (wanted phases)) dn /\
    interpolated_data mp roots sc (width mp p) (user_traj mp z) (asked plots (wanted phases)) di (default_grid mp) /\
    let tx := map (map (@ss_t Rnum)) segs in let rx := map (map (fun g => Some (@ss_r Rnum g))) segs in
    let n := o_nx (mp_ocp mp) in let fmt' := if interpolate then "."%string else fmt in
    let f := S (cs_figs s) in let a0 := Axis f 2 2 1 in let a1 := Axis f 2 2 3 in let a2 := Axis f 2 2 2 in let a3 := Axis f 2 2 4 in
    plot_phases po phases interpolate true fig axs (repeat fmt 15) name s =
      (Canvas (N := Rnum) f (cs_curves s ++ phase_curves a0 a1 interpolate di dn fmt name ++ error_curves a2 tx rx n "x" fmt' ++ error_curves a3 ts rs n "dx" fmt'),
       Ok (Some f, AxMany [a0; a1; a2; a3])).
Proof. exact solution_plot_both. Qed.
Print Assumptions C53_both.
(** on the fixed grid they cannot always be drawn, neither those of the dynamics nor those of the states *)
Theorem C53_fixed_refuted : exists rc mp npath nterm z p po, input_ok mp npath nterm z p /\ widths_ok (mp_nseg mp) (o_nph (mp_ocp mp)) p /\ same_grid rc mp "fixed" /\
  process_results rc mp [[0; 1]%nat] p z false false true = Ok po /\
  forall s, exists s', plot_results po [[0; 1]%nat] false true s = (s', Raise ValueError).
Proof.
  destruct uneven_plot as (po & E & H). exists uneven_rc, uneven_mp, rich_npath, rich_nterm, uneven_z, uneven_p, po.
  split; [exact uneven_input|]. split; [exact uneven_widths|]. split; [exact uneven_same|]. split; [exact E|exact H].
Qed.
Print Assumptions C53_fixed_refuted.
Theorem C53_states_refuted : exists rc mp npath nterm z p po, input_ok mp npath nterm z p /\ widths_ok (mp_nseg mp) (o_nph (mp_ocp mp)) p /\ same_grid rc mp "fixed" /\
  process_results rc mp [[0]%nat] p z false true true = Ok po /\
  forall s, exists s', plot_results po [[0]%nat] true true s = (s', Raise ValueError).
Proof.
  destruct uneven_states as (po & E & H). exists uneven_rc, uneven_mp, rich_npath, rich_nterm, uneven_z, uneven_p, po.
  split; [exact uneven_input|]. split; [exact uneven_widths|]. split; [exact uneven_same|]. split; [exact E|exact H].
Qed.
Print Assumptions C53_states_refuted.
(** the residuals drawn are not those of the phases asked for only *)
Theorem C53_phases_refuted : exists rc mp npath nterm z p po ts rs, input_ok mp npath nterm z p /\
  process_results rc mp [[0; 1]%nat] p z false false true = Ok po /\
  dynamics_residuals rc mp p z None None false = Ok (ts, rs) /\
  phases_ok mp [0%nat] /\ (length (concat (nth 0 ts [])) < length (concat (concat ts)))%nat /\
  forall s, exists s' r c, plot_phases po (Some [0%nat]) true true None None (repeat "-"%string 15) "" s = (s', Ok r) /\
    In c (cs_curves s') /\ cv_ax c = Axis (S (cs_figs s)) 1 2 2 /\ cv_label c = Some "dx 1"%string /\ cv_t c = concat (concat ts).
Proof.
  destruct rich_plot as (po & ts & rs & E & Ed & Hp & L0 & L1 & H). exists rich_rc, rich_mp, rich_npath, rich_nterm, (repeat 1 (2 * nvars rich_mp)), rich_p, po, ts, rs.
  split; [exact rich_input|]. split; [exact E|]. split; [exact Ed|]. split; [exact Hp|]. split; [rewrite L0, L1; repeat constructor|exact H].
Qed.
Print Assumptions C53_phases_refuted.
(** chosen dimensions *)
Theorem C53_x : forall (mp : mpo Rnum) sc plots w y po d phases vertical (interpolate : bool) fmt s,
  made_by_mpopt mp sc plots w y po \/ made_by_adaptive mp sc plots w y po ->
  phases_ok mp (asked plots phases) -> dims_fit (o_nx (mp_ocp mp)) (dims_or d (o_nx (mp_ocp mp))) ->
  exists rs p, mapM (c_roots (mp_cf mp)) (mp_orders mp) = Ok rs /\
    (if interpolate then interpolated_data mp rs sc w y (asked plots phases) p (default_grid mp) else nodal_data mp rs sc w y (asked plots phases) p) /\
    let f := S (cs_figs s) in let d' := dims_or d (o_nx (mp_ocp mp)) in
    plot_x po (o_nx (mp_ocp mp)) d phases vertical interpolate None None (Some (repeat fmt 15)) s =
      (Canvas (N := Rnum) f (cs_curves s ++ dims_curves f vertical (pd_x p) (pd_t p) fmt (Some "state"%string) d'), Ok (Some f, dims_axes f vertical d')).
Proof. intros mp sc plots w y po d phases vertical interpolate fmt s Hm. exact (plot_x_thm mp sc plots w y po Hm d phases vertical interpolate fmt s). Qed.
Print Assumptions C53_x.
Theorem C53_u : forall (mp : mpo Rnum) sc plots w y po d phases vertical (interpolate : bool) fmt name s,
  made_by_mpopt mp sc plots w y po \/ made_by_adaptive mp sc plots w y po ->
  phases_ok mp (asked plots phases) -> dims_fit (o_nu (mp_ocp mp)) (dims_or d (o_nu (mp_ocp mp))) ->
  exists rs dn di, mapM (c_roots (mp_cf mp)) (mp_orders mp) = Ok rs /\
    interpolated_data mp rs sc w y (asked plots phases) di (default_grid mp) /\ nodal_data mp rs sc w y (asked plots phases) dn /\
    let f := S (cs_figs s) in let d' := dims_or d (o_nu (mp_ocp mp)) in
    plot_u po (o_nu (mp_ocp mp)) d phases vertical interpolate None None (Some (repeat fmt 15)) name s =
      (Canvas (N := Rnum) f (cs_curves s ++ (if interpolate
         then dims_curves f vertical (pd_u dn) (pd_t dn) fmt name d' ++ dims_curves f vertical (pd_u di) (pd_t di) "-" None d'
         else dims_curves f vertical (pd_u dn) (pd_t dn) "-" None d')), Ok (Some f, dims_axes f vertical d')).
Proof. intros mp sc plots w y po d phases vertical interpolate fmt name s Hm. exact (plot_u_thm mp sc plots w y po Hm d phases vertical interpolate fmt name s). Qed.
Print Assumptions C53_u.
(** the figure and axes of an earlier plot given back: curves are added to them.  The array of axes without the
    figure is a ValueError, the figure without its axes a TypeError *)
Theorem C53_again : forall (mp : mpo Rnum) sc plots w y po d phases vertical (interpolate : bool) fmt f s,
  made_by_mpopt mp sc plots w y po \/ made_by_adaptive mp sc plots w y po ->
  phases_ok mp (asked plots phases) -> dims_fit (o_nx (mp_ocp mp)) (dims_or d (o_nx (mp_ocp mp))) ->
  let d' := dims_or d (o_nx (mp_ocp mp)) in
  exists rs p, mapM (c_roots (mp_cf mp)) (mp_orders mp) = Ok rs /\
    (if interpolate then interpolated_data mp rs sc w y (asked plots phases) p (default_grid mp) else nodal_data mp rs sc w y (asked plots phases) p) /\
    let drawn := Canvas (N := Rnum) (cs_figs s) (cs_curves s ++ dims_curves f vertical (pd_x p) (pd_t p) fmt (Some "state"%string) d') in
    plot_x po (o_nx (mp_ocp mp)) d phases vertical interpolate (Some f) (Some (dims_axes f vertical d')) (Some (repeat fmt 15)) s = (drawn, Ok (Some f, dims_axes f vertical d')) /\
    plot_x po (o_nx (mp_ocp mp)) d phases vertical interpolate None (Some (dims_axes f vertical d')) (Some (repeat fmt 15)) s =
      (match d' with Flat _ => (drawn, Ok (None, dims_axes f vertical d')) | Nested _ => (s, Raise ValueError) end) /\
    plot_x po (o_nx (mp_ocp mp)) d phases vertical interpolate (Some f) None (Some (repeat fmt 15)) s = (s, Raise TypeError).
Proof. intros mp sc plots w y po d phases vertical interpolate fmt f s Hm. exact (plot_x_again mp sc plots w y po Hm d phases vertical interpolate fmt f s). Qed.
Print Assumptions C53_again.
(** a list of one list of dimensions: all curves have the same label and the first style *)
Theorem C53_nested : forall (mp : mpo Rnum) sc plots w y po phases interpolate l s,
  made_by_mpopt mp sc plots w y po \/ made_by_adaptive mp sc plots w y po ->
  phases_ok mp (asked plots phases) -> (forall j, In j l -> (j < o_nx (mp_ocp mp))%nat) ->
  exists d, get_data po phases interpolate = Ok d /\ let f := S (cs_figs s) in forall vertical fmt rest,
  plot_x po (o_nx (mp_ocp mp)) (Some (Nested [l])) phases vertical interpolate None None (Some (fmt :: rest)) s =
    (Canvas (N := Rnum) f (cs_curves s ++ map (fun j => Curve (N := Rnum) (Axis f 1 1 1) (pd_t d) (map (fun r => mget (pd_x d) r j) (seq 0 (nr (pd_x d)))) fmt
       (Some ("state " ++ show_list l)%string)) l), Ok (Some f, AxOne (Axis f 1 1 1))).
Proof. intros mp sc plots w y po phases interpolate l s Hm. exact (plot_x_nested mp sc plots w y po Hm phases interpolate l s). Qed.
Print Assumptions C53_nested.
(** numbers and lists of numbers in labels *)
Theorem C53_numbers : forall n, written n (show n).
Proof. exact show_written. Qed.
Print Assumptions C53_numbers.
Theorem C53_lists : forall l, listed l (show_list l).
Proof. exact list_listed. Qed.
Print Assumptions C53_lists.
Example C53_lists_case : show_list [0; 12]%nat = "[0, 12]"%string /\ show 307 = "307"%string.
Proof. split; reflexivity. Qed.
(** a list of styles: curve number i has style number i *)
Theorem C53_styles : forall (mp : mpo Rnum) sc plots w y po phases interpolate l tics s,
  made_by_mpopt mp sc plots w y po \/ made_by_adaptive mp sc plots w y po ->
  phases_ok mp (asked plots phases) -> l <> [] -> (forall j, In j l -> (j < o_nx (mp_ocp mp))%nat) -> (length l <= length tics)%nat ->
  exists d, get_data po phases interpolate = Ok d /\ let f := S (cs_figs s) in forall vertical,
  plot_x po (o_nx (mp_ocp mp)) (Some (Flat l)) phases vertical interpolate None None (Some tics) s =
    (Canvas (N := Rnum) f (cs_curves s ++ map (fun i => Curve (N := Rnum) (Axis f 1 1 1) (pd_t d) (map (fun r => mget (pd_x d) r (nth i l 0%nat)) (seq 0 (nr (pd_x d)))) (nth i tics ""%string)
       (Some ("state " ++ show (nth i l 0%nat))%string)) (seq 0 (length l))), Ok (Some f, AxOne (Axis f 1 1 1))).
Proof. intros mp sc plots w y po phases interpolate l tics s Hm. exact (plot_x_styles mp sc plots w y po Hm phases interpolate l tics s). Qed.
Print Assumptions C53_styles.
(** norms of residuals over their times *)
Theorem C53_norms : forall time residuals m n rest name fmt s,
  (forall ph, In ph (0%nat :: rest) -> present time residuals ph /\ uniform m (nth ph time []) /\ length (nth ph time []) = n) ->
  let f := S (cs_figs s) in let a := Axis f 1 1 1 in
  let t := concat (map (times time) (0%nat :: rest)) in let r := concat (map (norms residuals) (0%nat :: rest)) in
  plot_residuals (N := Rnum) time residuals (0%nat :: rest) name None None (Some (repeat fmt 15)) s =
  (Canvas (N := Rnum) f (cs_curves s ++ [Curve (N := Rnum) a t r fmt (match name with Some x => Some (x ++ " ")%string | None => None end); Curve (N := Rnum) a t r "-" None]),
   Ok (Some f, AxOne a)).
Proof. exact norms_plot. Qed.
Print Assumptions C53_norms.
(** plot_all without styles draws up to twenty states and controls, and stops after twenty states *)
Theorem C53_default_styles : forall (d : pdata (N := Rnum)) (legend : bool) name s, length (pd_t d) = nr (pd_x d) -> length (pd_t d) = nr (pd_u d) ->
  let f := S (cs_figs s) in let a0 := Axis f 2 1 1 in let a1 := Axis f 2 1 2 in
  let cs := if legend then node_curves a0 a1 d "-" name else smooth_curves a0 a1 d "-" in
  ((nc (pd_x d) <= 20)%nat -> (nc (pd_u d) <= 20)%nat ->
     plot_all (pd_x d) (pd_u d) (pd_t d) None None None legend name s = (Canvas (N := Rnum) f (cs_curves s ++ cs), Ok (Some f, AxMany [a0; a1]))) /\
  ((20 < nc (pd_x d))%nat ->
     plot_all (pd_x d) (pd_u d) (pd_t d) None None None legend name s = (Canvas (N := Rnum) f (cs_curves s ++ firstn 20 cs), Raise IndexError)).
Proof. exact default_styles. Qed.
Print Assumptions C53_default_styles.
(** one axes object where several are needed, or the other way round: TypeError, and nothing is drawn *)
Theorem C53_wrong_axes : forall (x u m : mat Rnum) (t : list R) tics (f : option nat) a (l : list axis) legend name title ls vertical (s : canvas (N := Rnum)),
  plot_all (N := Rnum) x u t tics f (Some (AxOne a)) legend name s = (s, Raise TypeError) /\
  ((2 <= length ls)%nat -> plot_single_variable (N := Rnum) m t (Nested ls) title vertical f (Some (AxOne a)) tics s = (s, Raise TypeError)) /\
  (forall k d, f = Some k -> d <> [] -> plot_single_variable (N := Rnum) m t (Flat d) title vertical f (Some (AxMany l)) tics s = (s, Raise TypeError)).
Proof. exact wrong_axes. Qed.
Print Assumptions C53_wrong_axes.
(** two phases, one state and control drawn; residuals of both kinds; two lists of dimensions *)
Example C53_case : exists y po, made_by_mpopt rich_mp false [[0; 1]%nat] (width rich_mp rich_p) y po /\
  phases_ok rich_mp (asked [[0; 1]%nat] (wanted (Some [1]%nat))) /\ po_resid po = None /\
  (o_nx (mp_ocp rich_mp) <= 15)%nat /\ (o_nu (mp_ocp rich_mp) <= 15)%nat.
Proof. exact rich_shown. Qed.
Example C53_both_case : exists po, process_results rich_rc rich_mp [[0; 1]%nat] rich_p (repeat 1 (2 * nvars rich_mp)) true true true = Ok po /\
  same_grid rich_rc rich_mp "spectral" /\ input_ok rich_mp rich_npath rich_nterm (repeat 1 (2 * nvars rich_mp)) rich_p /\
  widths_ok (mp_nseg rich_mp) (o_nph (mp_ocp rich_mp)) rich_p /\ phases_ok rich_mp (asked [[0; 1]%nat] (wanted None)).
Proof. exact rich_both. Qed.
Example C53_dims_case : dims_fit (o_nx (mp_ocp rich_mp)) (Nested [[0; 1]; [1]]%nat) /\ dims_fit (o_nu (mp_ocp rich_mp)) (dims_or None 1).
Proof. exact rich_dims. Qed.

(** * C54 *)
(** argument plot of get_dynamics_residuals: the same is returned, the norms of all phases are drawn *)
Theorem C54_dynamics : forall rc (mp : mpo Rnum) sw z nodes gt rel ts rs s, (0 < o_nph (mp_ocp mp))%nat -> (0 < mp_nseg mp)%nat ->
  dynamics_residuals rc mp sw z nodes gt rel = Ok (ts, rs) ->
  (o_nph (mp_ocp mp) = 1%nat \/ exists m, forall p, In p ts -> level m p) ->
  dynamics_drawn rc mp sw z nodes gt rel None None s =
  (Canvas (N := Rnum) (S (cs_figs s)) (cs_curves s ++ norm_curves (Axis (S (cs_figs s)) 1 1 1) ts rs), Ok (ts, rs)).
Proof. exact dynamics_drawn_thm. Qed.
Print Assumptions C54_dynamics.
(** with several phases that works iff all segments have the same number of points *)
Theorem C54_solution : forall rc mp npath nterm z p g s, input_ok mp npath nterm z p -> nth_error (r_grid rc) 0 = Some g -> (g = "mid-points" \/ g = "spectral")%string ->
  exists ts rs, dynamics_residuals rc mp p z None None false = Ok (ts, rs) /\
    (o_nph (mp_ocp mp) = 1%nat \/ level_grid mp g -> dynamics_drawn rc mp p z None None false None None s =
       (Canvas (N := Rnum) (S (cs_figs s)) (cs_curves s ++ norm_curves (Axis (S (cs_figs s)) 1 1 1) ts rs), Ok (ts, rs))) /\
    (~ (o_nph (mp_ocp mp) = 1%nat \/ level_grid mp g) -> dynamics_drawn rc mp p z None None false None None s =
       (Canvas (N := Rnum) (S (cs_figs s)) (cs_curves s), Raise ValueError)).
Proof. exact solution_drawn. Qed.
Print Assumptions C54_solution.
Theorem C54_mid_points_refuted : exists rc mp npath nterm z p out, input_ok mp npath nterm z p /\ widths_ok (mp_nseg mp) (o_nph (mp_ocp mp)) p /\
  same_grid rc mp "mid-points" /\ dynamics_residuals rc mp p z None None false = Ok out /\
  forall s, dynamics_drawn rc mp p z None None false None None s = (Canvas (N := Rnum) (S (cs_figs s)) (cs_curves s), Raise ValueError).
Proof. exact rich_mid_drawn. Qed.
Print Assumptions C54_mid_points_refuted.
Theorem C54_states : forall rc mp npath nterm z p g s, input_ok mp npath nterm z p -> widths_ok (mp_nseg mp) (o_nph (mp_ocp mp)) p ->
  same_grid rc mp g -> (g = "mid-points" \/ g = "spectral")%string -> o_nph (mp_ocp mp) = 1%nat \/ level_grid mp g ->
  exists res segs, states_residuals rc mp p z None None false = Ok res /\ map snd res = map (map Some) segs /\
    states_drawn rc mp p z None None false None None s =
    (Canvas (N := Rnum) (S (cs_figs s)) (cs_curves s ++ norm_curves (Axis (S (cs_figs s)) 1 1 1) (map (map (@ss_t Rnum)) segs) (map (map (fun g => Some (@ss_r Rnum g))) segs)), Ok res).
Proof. exact solution_states_drawn. Qed.
Print Assumptions C54_states.
(** on given axes the same curves are drawn as on new ones *)
Theorem C54_given_axes : forall rc (mp : mpo Rnum) sw z,
  (forall nodes gt rel out, dynamics_residuals rc mp sw z nodes gt rel = Ok out -> drawn_on (dynamics_drawn rc mp sw z nodes gt rel)) /\
  (forall phases nodes rel out, states_residuals rc mp sw z phases nodes rel = Ok out -> drawn_on (states_drawn rc mp sw z phases nodes rel)).
Proof. intros rc mp sw z. split; [exact (dynamics_given rc mp sw z)|exact (states_given rc mp sw z)]. Qed.
Print Assumptions C54_given_axes.
(** asking for some of the phases does not work *)
Theorem C54_some_phases_raises : forall rc (mp : mpo Rnum) sw z l nodes rel res ph s, states_residuals rc mp sw z (Some l) nodes rel = Ok res ->
  (ph < o_nph (mp_ocp mp))%nat -> ~ In ph l ->
  states_drawn rc mp sw z (Some l) nodes rel None None s = (Canvas (N := Rnum) (S (cs_figs s)) (cs_curves s), Raise TypeError).
Proof. exact states_missing_thm. Qed.
Print Assumptions C54_some_phases_raises.
Theorem C54_some_phases_refuted : exists rc mp npath nterm z p out, input_ok mp npath nterm z p /\ widths_ok (mp_nseg mp) (o_nph (mp_ocp mp)) p /\
  states_residuals rc mp p z (Some [0%nat]) None false = Ok out /\
  forall s, states_drawn rc mp p z (Some [0%nat]) None false None None s = (Canvas (N := Rnum) (S (cs_figs s)) (cs_curves s), Raise TypeError).
Proof. exact rich_some_drawn. Qed.
Print Assumptions C54_some_phases_refuted.
(** nor does a segment without points *)
Theorem C54_empty_raises : forall rc (mp : mpo Rnum) sw z nodes rel res ph segs s, states_residuals rc mp sw z None nodes rel = Ok res ->
  In (ph, segs) res -> In None segs ->
  states_drawn rc mp sw z None nodes rel None None s = (Canvas (N := Rnum) (S (cs_figs s)) (cs_curves s), Raise ValueError).
Proof. exact states_empty_thm. Qed.
Print Assumptions C54_empty_raises.
Example C54_case : same_grid rich_rc rich_mp "spectral" /\ level_grid rich_mp "spectral" /\ o_nph (mp_ocp rich_mp) = 2%nat /\
  input_ok rich_mp rich_npath rich_nterm (repeat 1 (2 * nvars rich_mp)) rich_p /\ widths_ok (mp_nseg rich_mp) (o_nph (mp_ocp rich_mp)) rich_p.
Proof. destruct rich_both as (_ & _ & A & B & C & _). split; [exact A|]. split; [now left|]. split; [reflexivity|]. split; [exact B|exact C]. Qed.
Example C54_empty_case : exists res ph segs, states_residuals uneven_rc uneven_mp uneven_p uneven_z None None false = Ok res /\ In (ph, segs) res /\ In None segs.
Proof. exact uneven_empty. Qed.

(** * C56 *)
(** with plot_residual_evolution a refinement returns the same widths and error and adds four curves of
    the first phase, whatever the entry of phases_to_plot is *)
Theorem C56_by_residual : forall rc (mp : mpo Rnum) sw z ts rs, (0 < o_nph (mp_ocp mp))%nat -> (0 < mp_nseg mp)%nat ->
  dynamics_residuals rc mp sw z None None false = Ok (ts, rs) ->
  forall tol method plots iter before s, (length plots <= 1)%nat ->
  let '(f, a) := kept before s in
  refine_by_residual_drawn rc mp tol method plots iter sw z (option_map fst before) (option_map (fun fa => AxOne (snd fa)) before) s =
  (Canvas (N := Rnum) (figures before s) (cs_curves s ++ evolution_curves a "-" iter ts rs 0),
   (w <- refine_by_residual rc mp tol method sw z ;; Ok (w, (Some f, AxOne a)))).
Proof. exact residual_drawn. Qed.
Print Assumptions C56_by_residual.
Theorem C56_by_slope : forall rc (mp : mpo Rnum) sw z ts rs, (0 < o_nph (mp_ocp mp))%nat -> (0 < mp_nseg mp)%nat ->
  dynamics_residuals rc mp sw z None None false = Ok (ts, rs) ->
  forall tol lbh ubh threshold plots iter before s, (length plots <= 1)%nat -> (iter < 75)%nat ->
  let '(f, a) := kept before s in
  refine_by_slope_drawn rc mp tol lbh ubh threshold plots iter sw z (option_map fst before) (option_map (fun fa => AxOne (snd fa)) before) s =
  (Canvas (N := Rnum) (figures before s) (cs_curves s ++ evolution_curves a (iter_mark iter) iter ts rs 0),
   (w <- refine_by_slope rc mp tol lbh ubh threshold sw z ;; Ok (w, (Some f, AxOne a)))).
Proof. exact slope_drawn. Qed.
Print Assumptions C56_by_slope.
(** a run draws all its refinements on one figure *)
Theorem C56_run_by_residual : forall rc (mp : mpo Rnum) tol method plots before l s s', (0 < o_nph (mp_ocp mp))%nat -> (0 < mp_nseg mp)%nat ->
  (length plots <= 1)%nat -> l <> [] -> refinements (refine_by_residual_drawn rc mp tol method plots) before l s s' ->
  let '(f, a) := kept before s in cs_figs s' = figures before s /\
  exists cs, Forall2 (fun c drawn => exists ts rs, dynamics_residuals rc mp (snd (fst c)) (snd c) None None false = Ok (ts, rs) /\
                        drawn = evolution_curves a "-" (fst (fst c)) ts rs 0) l cs /\
    cs_curves s' = cs_curves s ++ concat cs.
Proof. exact run_residual. Qed.
Print Assumptions C56_run_by_residual.
Theorem C56_run_by_slope : forall rc (mp : mpo Rnum) tol lbh ubh threshold plots before l s s', (0 < o_nph (mp_ocp mp))%nat -> (0 < mp_nseg mp)%nat ->
  (length plots <= 1)%nat -> l <> [] -> refinements (refine_by_slope_drawn rc mp tol lbh ubh threshold plots) before l s s' ->
  let '(f, a) := kept before s in cs_figs s' = figures before s /\
  exists cs, Forall2 (fun c drawn => exists ts rs, dynamics_residuals rc mp (snd (fst c)) (snd c) None None false = Ok (ts, rs) /\
                        drawn = evolution_curves a (iter_mark (fst (fst c))) (fst (fst c)) ts rs 0) l cs /\
    cs_curves s' = cs_curves s ++ concat cs.
Proof. exact run_slope. Qed.
Print Assumptions C56_run_by_slope.
(** the phases to plot are not all drawn *)
Theorem C56_phases_refuted : exists rc mp npath nterm z p ts rs w, input_ok mp npath nterm z p /\ widths_ok (mp_nseg mp) (o_nph (mp_ocp mp)) p /\ o_nph (mp_ocp mp) = 2%nat /\
  dynamics_residuals rc mp p z None None false = Ok (ts, rs) /\
  forall s, exists new fa, refine_by_residual_drawn rc mp [0; 0] "merge_split" [[0; 1]%nat] 0 p z None None s =
      (Canvas (N := Rnum) (S (cs_figs s)) (cs_curves s ++ new), Ok (w, fa)) /\
    forall c, In c new -> (length (cv_t c) < length (concat (concat ts)))%nat.
Proof. exact rich_phases. Qed.
Print Assumptions C56_phases_refuted.
(** two or more entries of phases_to_plot end the refinement, and so does the 76th number *)
Theorem C56_several_raises : forall rc (mp : mpo Rnum) sw z ts rs, (0 < o_nph (mp_ocp mp))%nat -> (0 < mp_nseg mp)%nat ->
  dynamics_residuals rc mp sw z None None false = Ok (ts, rs) ->
  forall tol method plots iter before s, (1 < length plots)%nat ->
  refine_by_residual_drawn rc mp tol method plots iter sw z (option_map fst before) (option_map (fun fa => AxOne (snd fa)) before) s =
  (Canvas (N := Rnum) (figures before s) (cs_curves s), Raise TypeError).
Proof. exact residual_refused. Qed.
Print Assumptions C56_several_raises.
Theorem C56_several_slope_raises : forall rc (mp : mpo Rnum) sw z ts rs, (0 < o_nph (mp_ocp mp))%nat -> (0 < mp_nseg mp)%nat ->
  dynamics_residuals rc mp sw z None None false = Ok (ts, rs) ->
  forall tol lbh ubh threshold plots iter before s, (1 < length plots)%nat -> (iter < 75)%nat ->
  refine_by_slope_drawn rc mp tol lbh ubh threshold plots iter sw z (option_map fst before) (option_map (fun fa => AxOne (snd fa)) before) s =
  (Canvas (N := Rnum) (figures before s) (cs_curves s), Raise TypeError).
Proof. exact slope_refused. Qed.
Print Assumptions C56_several_slope_raises.
Theorem C56_number_raises : forall rc (mp : mpo Rnum) sw z ts rs, dynamics_residuals rc mp sw z None None false = Ok (ts, rs) ->
  forall tol lbh ubh threshold plots iter fig axs s, (75 <= iter)%nat ->
  refine_by_slope_drawn rc mp tol lbh ubh threshold plots iter sw z fig axs s = (s, Raise IndexError).
Proof. exact slope_unmarked. Qed.
Print Assumptions C56_number_raises.
Example C56_case : forall s, exists s', let z := repeat 1 (2 * nvars rich_mp) in
  refinements (refine_by_residual_drawn rich_rc rich_mp [0; 0] "merge_split" [[0; 1]%nat]) None [(0%nat, rich_p, z); (0%nat, rich_p, z); (1%nat, rich_p, z)] s s'.
Proof. exact rich_run. Qed.
