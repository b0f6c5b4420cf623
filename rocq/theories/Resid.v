(** Interpolation of a solution between its nodes and residuals of the dynamics, class mpopt,
    mpopt.py:989-1573, and the refinement of segment widths that uses them, mpopt.py:2524-2806.

    [sw] is self._nlp_sw_params (all phases), [z] is solution["x"].  Matrices come from the
    history-free layer of Colloc.v: custom roots are registered under names "c0", "c1", ..., never
    under an integer (property C09).  numpy 1.22 (setup.py:27) turns rows of different lengths into
    an array of arrays, so grids are lists of lists.  Plotting is not modelled.
    Simplified: a dynamics function that returns the wrong number of values raises; in the code
    numpy would accept a single value and spread it over all states. *)
From Coq Require Import List Arith ZArith Bool String.
From Verif Require Import Num PyList Mat Poly Roots Colloc Ocp Transcribe Hadapt.
Import ListNotations.
Open Scope string_scope.
Open Scope list_scope.
Set Implicit Arguments.
Unset Strict Implicit.

Section Resid.
Context {N : num}.

(** ** compute_interpolation_taus_corresponding_to_original_grid, mpopt.py:1205-1236.
    The terms "0 +", "- 0" and "/ (1 - 0)" of the code are left out. *)
Definition grid_tol : N := nlit 1 1000000.
Definition interpolation_taus (nodes widths : list N) (tau0 tau1 : N) : res (list (list N)) :=
  let cum := n0 :: cumsum widths in
  total <- last_ cum ;;
  _ <- assert_ (nltb (nabs (nsub total n1)) grid_tol) ;;
  let scaled := map (fun x => nmul (ndiv n1 (nsub tau1 tau0)) (nsub x tau0)) nodes in
  mapM (fun '(i, w) =>
      a <- at_ cum i ;; b <- at_ cum (i + 1) ;;
      let l := filter (fun x => nleb x b) (filter (fun x => nltb a x) scaled) in
      Ok (map (fun x => nadd tau0 (nmul (nsub tau1 tau0) (ndiv (nsub x a) w))) l))
    (enumerate widths).

(** ** get_interpolated_time_grid, mpopt.py:1546-1573 (also post_process, 1744-1771) *)
Definition time_grid (t : list N) (taus : list (list N)) (orders : list nat) (tau0 tau1 : N) : res (list N) :=
  t0 <- at_ t 0 ;;
  ts <- mapM (fun i => at_ t (nsum (firstn (i + 1) orders))) (seq 0 (List.length orders)) ;;
  let t_seg := t0 :: ts in
  parts <- mapM (fun i =>
      a <- at_ t_seg i ;; b <- at_ t_seg (i + 1) ;; l <- at_ taus i ;;
      Ok (map (fun x => nadd a (nmul (nsub b a) (nmul (ndiv n1 (nsub tau1 tau0)) (nsub x tau0)))) l))
    (seq 0 (List.length orders)) ;;
  Ok (List.concat parts).

(** _MAX_GRID_POINTS and grid_type (one entry per phase), mpopt.py:53, 90 *)
Record rcfg := Rcfg { r_points : nat; r_grid : list string }.

Variable rc : rcfg.
Variable mp : mpo N.
Let o := mp_ocp mp.
Let cf := mp_cf mp.
Let orders := mp_orders mp.

(** self._nlp_sw_params[n_segments * phase : n_segments * (phase + 1)] *)
Definition widths_of (sw : list N) (ph : nat) : list N :=
  slice (mp_nseg mp * ph) (mp_nseg mp * (ph + 1)) sw.

(** ** get_residual_grid_taus, mpopt.py:1152-1203; None when the grid type is not known *)
Definition residual_grid (sw : list N) (ph : nat) (grid_type : option string) : res (option (list (list N))) :=
  g <- match grid_type with Some g => Ok g | None => at_ (r_grid rc) ph end ;;
  if String.eqb g "fixed" then
    let n := Nat.max (nsum orders + 2) (r_points rc + 2) in
    ts <- interpolation_taus (linspace (cf_tau0 cf) (cf_tau1 cf) n) (widths_of sw ph) (cf_tau0 cf) (cf_tau1 cf) ;;
    match ts with
    | [] => Raise IndexError
    | t :: ts' => Ok (Some (but_last t :: ts'))
    end
  else if String.eqb g "mid-points" then
    ts <- mapM (fun p => r <- c_roots cf p ;; Ok (mid_points r)) orders ;; Ok (Some ts)
  else if String.eqb g "spectral" then
    ts <- mapM (fun _ => r <- c_roots cf (r_points rc + 2) ;; Ok (but_last (tl r))) orders ;; Ok (Some ts)
  else Ok None.

(** the methods below call self.init_trajectories(phase), which class mpopt_adaptive replaces:
    [traj ph z sw] are the values of that function *)
Variable traj : nat -> list N -> list N -> res (Transcribe.traj N).

(** ** interpolate_single_phase, mpopt.py:1489-1544 *)
Record interp := Interp {
  i_x : mat N; i_u : mat N; i_t : list N; i_a : list N; i_dx : mat N; i_du : mat N;
  i_taus : list (list N); i_t0 : N; i_tf : N
}.
Definition interpolate_phase_by (sw z : list N) (ph : nat) (nodes : option (list (list N))) : res interp :=
  tr <- traj ph z sw ;;
  nodes <- match nodes with Some l => Ok (Some l) | None => residual_grid sw ph None end ;;
  match nodes with
  | None => Raise TypeError
  | Some taus =>
      ti <- time_grid (tr_t tr) taus orders (cf_tau0 cf) (cf_tau1 cf) ;;
      I <- comp_interp cf taus orders ;;
      D <- comp_interpD cf taus orders 1 ;;
      Ok (Interp (mmul I (tr_x tr)) (mmul I (tr_u tr)) ti (tr_a tr) (mmul D (tr_x tr)) (mmul D (tr_u tr))
            taus (tr_t0 tr) (tr_tf tr))
  end.

(** elementwise division of arrays of the same length *)
Definition vquot (v s : list N) : list N := map2 ndiv v s.
(** dynamics(xi[index] / scale_x, ui[index] / scale_u, ti[index], a / scale_a) for the points of
    one segment, the first of which has index [start] *)
Definition seg_dynamics (ph : nat) (it : interp) (start n : nat) : res (list (list N)) :=
  mapM (fun i =>
      t <- at_ (i_t it) (start + i) ;;
      f <- get_dynamics o ph (vquot (mrow (i_x it) (start + i)) (o_scale_x o))
             (vquot (mrow (i_u it) (start + i)) (o_scale_u o)) t (vquot (i_a it) (o_scale_a o)) ;;
      _ <- (if Nat.eqb (List.length f) (o_nx o) then Ok tt else Raise ValueError) ;;
      Ok f) (seq 0 n).
(** h_seg = (tf - t0) / (tau1 - tau0) * seg_widths[seg] *)
Definition seg_factor (sw : list N) (ph : nat) (it : interp) (seg : nat) : res N :=
  w <- at_ (widths_of sw ph) seg ;;
  Ok (nmul (ndiv (nsub (i_tf it) (i_t0 it)) (nsub (cf_tau1 cf) (cf_tau0 cf))) w).

(** ** get_dynamics_residuals_single_phase, mpopt.py:1428-1487: per segment the times, residuals
    and scaled dynamics *)
Record segres := Segres { sr_t : list N; sr_r : rows (N := N); sr_f : rows (N := N) }.
Definition dyn_residual_seg (sw : list N) (ph : nat) (it : interp) (seg : nat) : res segres :=
  taus <- at_ (i_taus it) seg ;;
  let n := List.length taus in
  let start := nsum (firstn seg (map (@List.length N) (i_taus it))) in
  fs <- seg_dynamics ph it start n ;;
  if Nat.eqb n 0 then Ok (Segres [] None None)
  else
    h <- seg_factor sw ph it seg ;;
    let F := map (fun f => map (nmul h) (map2 nmul f (o_scale_x o))) fs in
    Ok (Segres (slice start (start + n) (i_t it))
          (Some (map (fun '(i, Fi) => vsub (mrow (i_dx it) (start + i)) Fi) (enumerate F)))
          (Some F)).
Definition dyn_residuals_phase_by (sw z : list N) (ph : nat) (nodes : option (list (list N))) : res (list segres) :=
  it <- interpolate_phase_by sw z ph nodes ;;
  mapM (dyn_residual_seg sw ph it) (seq 0 (mp_nseg mp)).

(** largest absolute value of every column over all segments, starting from 0 *)
Definition col_max (nx : nat) (rss : list (rows (N := N))) : list N :=
  fold_left (fun acc (r : rows) =>
      match r with
      | None => acc
      | Some m => map (fun '(j, v) => let s := fold_left nmax (map (fun row => nabs (nth j row n0)) m) n0 in
                                      if nltb s v then v else s) (enumerate acc)
      end) rss (repeat n0 nx).
(** relative residuals, mpopt.py:1404-1420: np.array(res_seg) / max_val; a zero in max_val gives inf
    or nan, for which the assertion fails as well *)
Definition relative (mx : list N) (r : rows (N := N)) : res (rows (N := N)) :=
  match r with
  | None => Ok None
  | Some m =>
      let q := map (fun row => vquot row mx) m in
      _ <- assert_ (forallb (fun v => nltb n0 v) mx &&
                    forallb (fun v => nleb (nabs v) n1) (List.concat q)) ;;
      Ok (Some q)
  end.

(** ** get_dynamics_residuals, mpopt.py:1360-1426.  The variable grid_type keeps the value it gets
    in the first phase. *)
Definition residuals_step_by (sw z : list N) (nodes : option (list (list (list N)))) (rel : bool)
    (st : option string * list (list (list N)) * list (list (rows (N := N)))) (ph : nat)
  : res (option string * list (list (list N)) * list (list (rows (N := N)))) :=
  let '(g, ts, rs) := st in
  '(g, target) <- match nodes with
                  | Some l => t <- at_ l ph ;; Ok (g, Some t)
                  | None =>
                      g <- match g with Some g => Ok g | None => at_ (r_grid rc) ph end ;;
                      t <- residual_grid sw ph (Some g) ;; Ok (Some g, t)
                  end ;;
  segs <- dyn_residuals_phase_by sw z ph target ;;
  r <- (if rel then
          let mx := col_max (o_nx o) (map sr_f segs) in
          mapM (fun s => relative mx (sr_r s)) segs
        else Ok (map sr_r segs)) ;;
  Ok (g, ts ++ [map sr_t segs], rs ++ [r]).
Definition dynamics_residuals_by (sw z : list N) (nodes : option (list (list (list N)))) (grid_type : option string)
    (rel : bool) : res (list (list (list N)) * list (list (rows (N := N)))) :=
  '(_, ts, rs) <- foldM (residuals_step_by sw z nodes rel) (seq 0 (o_nph o)) (grid_type, [], []) ;;
  Ok (ts, rs).

(** ** compute_states_from_solution_dynamics, mpopt.py:989-1076 *)
Record segstate := Segstate { ss_x : list (list N); ss_u : list (list N); ss_t : list N; ss_r : list (list N) }.
Definition integrate_seg (sw : list N) (ph : nat) (it : interp) (x : mat N) (seg : nat) : res (option segstate) :=
  taus <- at_ (i_taus it) seg ;;
  let n := List.length taus in
  let start := nsum (firstn seg (map (@List.length N) (i_taus it))) in
  h <- seg_factor sw ph it seg ;;
  fs <- seg_dynamics ph it start n ;;
  let xstart := mrow x (nsum (firstn seg orders)) in
  let F := map (fun f => map2 nmul f (o_scale_x o)) fs in
  xs <- mapM (fun tau =>
      w <- quad_weights_of cf (get_lagrange_polynomials (cf_meth cf) taus) (cf_tau0 cf) tau ;;
      Ok (map (fun '(s, v) => nadd v (nmul h (sum_ (map2 (fun wk f => nmul wk (nth s f n0)) w F))))
            (enumerate xstart))) taus ;;
  if Nat.eqb n 0 then Ok None
  else Ok (Some (Segstate xs (map (fun i => mrow (i_u it) (start + i)) (seq 0 n))
             (slice start (start + n) (i_t it))
             (map (fun '(i, xi) => vsub (mrow (i_x it) (start + i)) xi) (enumerate xs)))).
Definition integrate_phase_by (sw z : list N) (ph : nat) (nodes : option (list (list N))) : res (list (option segstate)) :=
  tr <- traj ph z sw ;;
  nodes <- match nodes with
           | Some l => Ok (Some l)
           | None => g <- at_ (r_grid rc) ph ;; residual_grid sw ph (Some g)
           end ;;
  it <- interpolate_phase_by sw z ph nodes ;;
  mapM (integrate_seg sw ph it (tr_x tr)) (seq 0 (mp_nseg mp)).

(** ** get_states_residuals, mpopt.py:1078-1150, for the listed phases; entries of other phases
    stay None.  Relative: divided by the largest integrated states, without an assertion (the
    division by zero of the code gives inf or nan). *)
Definition states_residuals_phase_by (sw z : list N) (nodes : option (list (list (list N)))) (rel : bool) (ph : nat)
  : res (list (option segstate)) :=
  target <- match nodes with
            | Some l => t <- at_ l ph ;; Ok (Some t)
            | None => g <- at_ (r_grid rc) ph ;; residual_grid sw ph (Some g)
            end ;;
  segs <- integrate_phase_by sw z ph target ;;
  if rel then
    let mx := col_max (o_nx o) (map (option_map ss_x) segs) in
    Ok (map (option_map (fun s => Segstate (ss_x s) (ss_u s) (ss_t s) (map (fun row => vquot row mx) (ss_r s)))) segs)
  else Ok segs.
Definition states_residuals_by (sw z : list N) (phases : option (list nat)) (nodes : option (list (list (list N)))) (rel : bool)
  : res (list (nat * list (option segstate))) :=
  mapM (fun ph => r <- states_residuals_phase_by sw z nodes rel ph ;; Ok (ph, r))
    (match phases with Some l => l | None => seq 0 (o_nph o) end).

(** ** get_state_second_derivative(_single_phase), mpopt.py:1238-1358: per segment times and second
    derivatives (the argument residual_type of the single-phase method is never given) *)
Record segdd := Segdd { sd_t : list N; sd_x : list (list N); sd_u : list (list N) }.
Definition second_derivative_phase_by (sw z : list N) (ph : nat) (nodes : option (list (list N))) : res (list (option segdd)) :=
  tr <- traj ph z sw ;;
  nodes <- match nodes with
           | Some l => Ok (Some l)
           | None => g <- at_ (r_grid rc) ph ;; residual_grid sw ph (Some g)
           end ;;
  match nodes with
  | None => Raise TypeError
  | Some taus =>
      ti <- time_grid (tr_t tr) taus orders (cf_tau0 cf) (cf_tau1 cf) ;;
      D <- comp_interpD cf taus orders 2 ;;
      let X := mmul D (tr_x tr) in
      let U := mmul D (tr_u tr) in
      mapM (fun seg =>
          l <- at_ taus seg ;;
          let n := List.length l in
          let start := nsum (firstn seg (map (@List.length N) taus)) in
          Ok (if Nat.eqb n 0 then None
              else Some (Segdd (slice start (start + n) ti)
                     (map (fun i => mrow X (start + i)) (seq 0 n)) (map (fun i => mrow U (start + i)) (seq 0 n)))))
        (seq 0 (mp_nseg mp))
  end.
Definition second_derivative_by (sw z : list N) (grid_type : string) (nodes : option (list (list (list N))))
  : res (list (list (option segdd))) :=
  mapM (fun ph =>
      target <- match nodes with
                | Some l => t <- at_ l ph ;; Ok (Some t)
                | None => residual_grid sw ph (Some grid_type)
                end ;;
      second_derivative_phase_by sw z ph target) (seq 0 (o_nph o)).

End Resid.

(** the methods of class mpopt *)
Notation interpolate_phase rc mp := (interpolate_phase_by rc mp (trajectories mp)).
Notation dyn_residuals_phase rc mp := (dyn_residuals_phase_by rc mp (trajectories mp)).
Notation residuals_step rc mp := (residuals_step_by rc mp (trajectories mp)).
Notation dynamics_residuals rc mp := (dynamics_residuals_by rc mp (trajectories mp)).
Notation integrate_phase rc mp := (integrate_phase_by rc mp (trajectories mp)).
Notation states_residuals_phase rc mp := (states_residuals_phase_by rc mp (trajectories mp)).
Notation states_residuals rc mp := (states_residuals_by rc mp (trajectories mp)).
Notation second_derivative_phase rc mp := (second_derivative_phase_by rc mp (trajectories mp)).
Notation second_derivative rc mp := (second_derivative_by rc mp (trajectories mp)).

Section Refinement.
Context {N : num}.
Variable rc : rcfg.
Variable mp : mpo N.
Let o := mp_ocp mp.
Let cf := mp_cf mp.
Let orders := mp_orders mp.

(** ** compute_seg_width_based_on_residuals, mpopt.py:2524-2592 *)
Definition refine_by_residual (tol : list N) (method : string) (sw z : list N) : res (list N * N) :=
  '(_, rs) <- dynamics_residuals rc mp sw z None None false ;;
  widths_by_residual method (mp_nseg mp) (o_nph o) sw tol rs.

(** ** compute_seg_width_based_on_input_slope, mpopt.py:2709-2806: [lbh], [ubh] limits per phase,
    [threshold] is _THRESHOLD_SLOPE *)
Definition phase_by_slope (tol lbh ubh : list N) (threshold : N) (sw z : list N) (residuals : list (list rows))
    (st : list (list N) * N) (ph : nat) : res (list (list N) * N) :=
  let '(acc, max_error) := st in
  rs <- at_ residuals ph ;;
  ms <- mapM seg_max rs ;;
  mr <- max_ ms ;;
  let max_error := if nltb max_error mr then mr else max_error in
  let old := widths_of mp sw ph in
  t <- at_ tol ph ;;
  if nltb mr t then Ok (acc ++ [old], max_error)
  else
    tr <- trajectories mp ph z sw ;;
    nodes <- residual_grid rc mp sw ph None ;;
    match nodes with
    | None => Raise TypeError
    | Some taus =>
        _ <- time_grid (tr_t tr) taus orders (cf_tau0 cf) (cf_tau1 cf) ;;
        D <- comp_diff cf orders 1 ;;
        let du := map (map nabs) (mrows (mmul D (tr_u tr))) in
        lo <- at_ lbh ph ;; hi <- at_ ubh ph ;;
        w <- widths_by_slope old (tr_t tr) du threshold (tr_t0 tr) (tr_tf tr) lo hi (mp_nseg mp) ;;
        Ok (acc ++ [w], max_error)
    end.
Definition refine_by_slope (tol lbh ubh : list N) (threshold : N) (sw z : list N) : res (list N * N) :=
  '(_, rs) <- dynamics_residuals rc mp sw z None None false ;;
  '(ws, e) <- foldM (phase_by_slope tol lbh ubh threshold sw z rs) (seq 0 (o_nph o)) ([], n0) ;;
  Ok (List.concat ws, e).

End Refinement.
