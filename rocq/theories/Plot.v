(** Plotting: methods plot_* of class post_process, mpopt.py:1858-2208 and 2232-2271, and the plots of
    process_results, mpopt.py:953-956, 3347-3350.

    matplotlib is a list of curves and a count of figures.  An axes object is its figure, the grid of
    its subplot and its place there.  ax.plot(t, y, fmt, label=l) adds a curve; t and y of different
    lengths raise ValueError; an array y of two dimensions adds a curve per column.
    Simplified: labels of axes, legends and grids are left out; dimensions are natural numbers, given
    as a list of numbers or as a list of such lists; using one axes object as an array of them, or the
    other way round, is TypeError. *)
From Coq Require Import List Arith ZArith Bool String DecimalString.
From Verif Require Import Num PyList Mat Poly Roots Colloc Ocp Transcribe Solve Hadapt Resid Adaptive Post.
Import ListNotations.
Open Scope nat_scope.
Open Scope list_scope.
Set Implicit Arguments.
Unset Strict Implicit.

(** str of an int and of a list of ints *)
Definition show (n : nat) : string := NilZero.string_of_uint (Nat.to_uint n).
Definition show_list (l : list nat) : string := ("[" ++ String.concat ", " (map show l) ++ "]")%string.

Record axis := Axis { ax_fig : nat; ax_rows : nat; ax_cols : nat; ax_pos : nat }.
(** an axes object, or an array of them *)
Inductive axes := AxOne (a : axis) | AxMany (l : list axis).
Definition the_axis (a : axes) : res axis := match a with AxOne a => Ok a | AxMany _ => Raise TypeError end.
Definition axis_at (a : axes) (i : nat) : res axis := match a with AxOne _ => Raise TypeError | AxMany l => at_ l i end.
(** plt.subplots *)
Definition subplots (fig rows cols : nat) : axes :=
  if Nat.eqb (rows * cols) 1 then AxOne (Axis fig 1 1 1) else AxMany (map (Axis fig rows cols) (seq 1 (rows * cols))).

Section Plot.
Context {N : num}.
Record curve := Curve { cv_ax : axis; cv_t : list N; cv_y : list N; cv_fmt : string; cv_label : option string }.
(** figures made so far; curves drawn so far *)
Record canvas := Canvas { cs_figs : nat; cs_curves : list curve }.
Definition D (A : Type) : Type := canvas -> canvas * res A.
Definition dret {A} (a : A) : D A := fun s => (s, Ok a).
Definition dlift {A} (r : res A) : D A := fun s => (s, r).
Definition dbind {A B} (m : D A) (f : A -> D B) : D B :=
  fun s => match m s with (s', Ok a) => f a s' | (s', Raise e) => (s', Raise e) end.
Local Notation "x <~ m ;; k" := (dbind m (fun x => k)) (at level 61, m at next level, right associativity).
Fixpoint each {A} (l : list A) (f : A -> D unit) : D unit :=
  match l with [] => dret tt | a :: l' => _ <~ f a ;; each l' f end.
(** plt.figure(): the number of the new figure, which becomes the current one *)
Definition figure : D nat := fun s => (Canvas (S (cs_figs s)) (cs_curves s), Ok (S (cs_figs s))).
Definition draw (a : axis) (t y : list N) (fmt : string) (label : option string) : D unit :=
  if Nat.eqb (List.length t) (List.length y)
  then fun s => (Canvas (cs_figs s) (cs_curves s ++ [Curve a t y fmt label]), Ok tt)
  else dlift (Raise ValueError).
Definition mcolumn (m : mat N) (j : nat) : list N := map (fun i => mget m i j) (seq 0 (nr m)).

(** ** plot_curve, mpopt.py:2152-2172 *)
Definition solid : list string := repeat "-"%string 15.
Definition dots : list string := repeat "."%string 15.
Definition label_of (name : option string) (index : string) : option string :=
  option_map (fun n => (n ++ " " ++ index)%string) name.
Definition plot_curve (a : axis) (x : mat N) (t : list N) (name : option string) (tics : list string)
    (legend_index : option (list string)) : D unit :=
  each (seq 0 (nc x)) (fun i =>
    index <~ dlift (match legend_index with None => Ok (show (i + 1)) | Some l => at_ l i end) ;;
    fmt <~ dlift (at_ tics i) ;;
    draw a t (mcolumn x i) fmt (label_of name index)).

(** ** plot_all, mpopt.py:2174-2207; class attribute __TICS, 1587 *)
Definition class_tics : list string := repeat "-"%string 20.
Definition tics_or (tics : option (list string)) : list string := match tics with Some l => l | None => class_tics end.
(** the axes given, or those of a new figure.  An array of axes without its figure: comparing the array
    with None gives an array, which has no truth value.  Simplified: a list of axes instead of an array
    would be accepted; None used as axes is TypeError. *)
Definition axes_or (fig : option nat) (axs : option axes) (rows cols : nat) : D (option nat * axes) :=
  match fig, axs with
  | None, None => f <~ figure ;; dret (Some f, subplots f rows cols)
  | None, Some (AxMany _) => dlift (Raise ValueError)
  | _, Some a => dret (fig, a)
  | Some _, None => dlift (Raise TypeError)
  end.
Definition plot_all (x u : mat N) (t : list N) (tics : option (list string)) (fig : option nat) (axs : option axes)
    (legend : bool) (name : string) : D (option nat * axes) :=
  fa <~ axes_or fig axs 2 1 ;;
  let '(name_x, name_u) := if legend then (Some (name ++ "state")%string, Some (name ++ "control")%string) else (None, None) in
  a0 <~ dlift (axis_at (snd fa) 0) ;;
  _ <~ plot_curve a0 x t name_x (tics_or tics) None ;;
  a1 <~ dlift (axis_at (snd fa) 1) ;;
  _ <~ plot_curve a1 u t name_u (tics_or tics) None ;;
  dret fa.

(** ** plot_single_variable, mpopt.py:2093-2150 *)
Inductive dims := Flat (l : list nat) | Nested (l : list (list nat)).
(** var_data[:, dim] *)
Definition columns (m : mat N) (l : list nat) : res (mat N) :=
  if forallb (fun j => j <? nc m) l then Ok (Mat (nr m) (List.length l) (fun i j => mget m i (nth j l 0))) else Raise IndexError.
(** one list inside a list: all its columns are drawn in one call of plot *)
Definition plot_together (a : axis) (m : mat N) (t : list N) (name : option string) (tics : list string) (l : list nat) : D unit :=
  x <~ dlift (columns m l) ;;
  fmt <~ dlift (at_ tics 0) ;;
  each (seq 0 (nc x)) (fun i => draw a t (mcolumn x i) fmt (label_of name (show_list l))).
Definition plot_single_variable (m : mat N) (t : list N) (d : dims) (name : option string) (vertical : bool)
    (fig : option nat) (axs : option axes) (tics : option (list string)) : D (option nat * axes) :=
  n <~ dlift (match d with Flat [] | Nested [] => Raise IndexError | Flat _ => Ok 1 | Nested l => Ok (List.length l) end) ;;
  fa <~ axes_or fig axs (if vertical then n else 1) (if vertical then 1 else n) ;;
  _ <~ (match d with
        | Flat l => a <~ dlift (the_axis (snd fa)) ;; x <~ dlift (columns m l) ;; plot_curve a x t name (tics_or tics) (Some (map show l))
        | Nested [l] => a <~ dlift (the_axis (snd fa)) ;; plot_together a m t name (tics_or tics) l
        | Nested ls =>
            each (enumerate ls) (fun '(i, l) =>
              a <~ dlift (axis_at (snd fa) i) ;; x <~ dlift (columns m l) ;; plot_curve a x t name (tics_or tics) (Some (map show l)))
        end) ;;
  dret fa.

(** ** plot_x, mpopt.py:1987-2029, and plot_u, 2031-2091; [nx] and [nu] are the attributes *)
Variables (po : post (N := N)) (nx nu : nat).
Definition dims_or (d : option dims) (n : nat) : dims :=
  match d with None | Some (Flat []) | Some (Nested []) => Flat (seq 0 n) | Some d => d end.
Definition plot_x (d : option dims) (phases : list nat) (vertical interpolate : bool) (fig : option nat) (axs : option axes)
    (tics : option (list string)) : D (option nat * axes) :=
  p <~ dlift (get_data po phases interpolate) ;;
  plot_single_variable (pd_x p) (pd_t p) (dims_or d nx) (Some "state"%string) vertical fig axs tics.
Definition plot_u (d : option dims) (phases : list nat) (vertical interpolate : bool) (fig : option nat) (axs : option axes)
    (tics : option (list string)) (name : option string) : D (option nat * axes) :=
  let tics := match tics with Some l => l | None => dots end in
  fa <~ (if interpolate then
           p <~ dlift (get_data po phases false) ;;
           fa <~ plot_single_variable (pd_u p) (pd_t p) (dims_or d nu) name vertical fig axs (Some tics) ;;
           dret (fst fa, Some (snd fa))
         else dret (fig, axs)) ;;
  p <~ dlift (get_data po phases interpolate) ;;
  plot_single_variable (pd_u p) (pd_t p) (dims_or d nu) None vertical (fst fa) (snd fa) (Some solid).

(** ** plot_phases, mpopt.py:1874-1985 *)
(** np.concatenate of arrays with the same number of columns, given by rows *)
Definition stack_rows (l : list (list (list N))) : res (mat N) :=
  match l with
  | [] => Raise ValueError
  | _ => let rows := List.concat l in
         let k := List.length (nth 0 rows []) in
         if forallb (fun r => Nat.eqb (List.length r) k) rows
         then Ok (Mat (List.length rows) k (fun i j => nth j (nth i rows []) n0)) else Raise ValueError
  end.
Definition known (rs : list (rows (N := N))) : list (list (list N)) :=
  flat_map (fun r => match r with Some m => [m] | None => [] end) rs.
(** the array that numpy makes of the times of the segments of a phase has two dimensions when they
    are vectors of one length, otherwise it is a vector of objects *)
Definition phase_shape (l : list (option (list N))) : option nat :=
  match l with
  | Some v :: _ =>
      if forallb (fun w => match w with Some w => Nat.eqb (List.length w) (List.length v) | None => false end) l
      then Some (List.length v) else None
  | _ => None
  end.
Definition same_shape (a b : option nat) : bool :=
  match a, b with Some m, Some k => Nat.eqb m k | None, None => true | _, _ => false end.
(** np.hstack(np.concatenate(times)); a segment without times leaves an entry None in the vector,
    which then has more entries than there are residuals: the plot fails *)
Definition join_times (ts : list (list (option (list N)))) : res (list N) :=
  match ts with
  | [] => Raise ValueError
  | p :: _ =>
      if forallb (fun q => same_shape (phase_shape q) (phase_shape p)) ts then
        match all_some (List.concat ts) with Some l => Ok (List.concat l) | None => Raise ValueError end
      else Raise ValueError
  end.
(** the rows and the times of the states' residuals *)
Definition states_rows (r : list (list (option (segstate (N := N))))) : list (list (rows (N := N))) :=
  map (map (option_map (@ss_r N))) r.
Definition states_times (r : list (list (option (segstate (N := N))))) : list (list (option (list N))) :=
  map (map (option_map (@ss_t N))) r.
Definition plot_errors (a : axis) (ts : list (list (option (list N)))) (y : res (mat N)) (name : string) (tics : list string) : D unit :=
  x <~ dlift (join_times ts) ;;
  y <~ dlift y ;;
  plot_curve a y x (Some name) tics None.
Definition plot_phases (phases : option (list nat)) (interpolate residuals : bool) (fig : option nat) (axs : option axes)
    (tics : list string) (name : string) : D (option nat * axes) :=
  let phases := match phases with Some l => l | None => po_phases po end in
  let shown := if residuals then po_resid po else None in
  fa <~ (match shown with
         | Some _ => f <~ figure ;; dret (Some f, Some (AxMany [Axis f 2 2 1; Axis f 2 2 3]))
         | None => dret (fig, axs)
         end) ;;
  ft <~ (if interpolate then
           p <~ dlift (get_data po phases true) ;;
           fa <~ plot_all (pd_x p) (pd_u p) (pd_t p) (Some tics) (fst fa) (snd fa) false "" ;;
           dret (fst fa, Some (snd fa), dots)
         else dret (fst fa, snd fa, tics)) ;;
  let '(fig, axs, tics) := ft in
  p <~ dlift (get_data po phases false) ;;
  fa <~ plot_all (pd_x p) (pd_u p) (pd_t p) (Some tics) fig axs true name ;;
  match shown, fst fa with
  | Some r, Some f =>
      let base := [Axis f 2 2 1; Axis f 2 2 3] in
      match rd_x r, rd_dx r with
      | Some rx, Some (tdx, rdx) =>
          let a2 := Axis f 2 2 2 in let a3 := Axis f 2 2 4 in
          _ <~ plot_errors a2 (states_times rx) (stack_rows (known (List.concat (states_rows rx)))) "x" tics ;;
          _ <~ plot_errors a3 (map (map Some) tdx) (stack_rows (known (List.concat rdx))) "dx" tics ;;
          dret (Some f, AxMany (base ++ [a2; a3]))
      | Some rx, None =>
          let a2 := Axis f 1 2 2 in
          _ <~ plot_errors a2 (states_times rx) (stack_rows (known (List.concat (states_rows rx)))) "x" tics ;;
          dret (Some f, AxMany (base ++ [a2]))
      | None, Some (tdx, rdx) =>
          let a2 := Axis f 1 2 2 in
          y <~ dlift (mapM (fun r => match known r with [] => Raise ValueError | l => Ok (List.concat l) end) rdx) ;;
          _ <~ plot_errors a2 (map (map Some) tdx) (stack_rows y) "dx" tics ;;
          dret (Some f, AxMany (base ++ [a2]))
      | None, None => dlift (Raise KeyError)
      end
  | _, _ => dret fa
  end.
(** ** plot_phase, mpopt.py:1858-1872: nothing is returned *)
Definition plot_phase (phase : nat) (interpolate : bool) (fig : option nat) (axs : option axes) : D unit :=
  _ <~ plot_phases (Some [phase]) interpolate true fig axs solid "" ;; dret tt.
(** ** the plots of process_results, mpopt.py:953-956 *)
Definition plot_results (plots : list (list nat)) (residual_x residual_dx : bool) : D unit :=
  each plots (fun phases => _ <~ plot_phases (Some phases) true (residual_x || residual_dx) None None solid "" ;; dret tt).
End Plot.

(** ** plot_residuals, mpopt.py:2232-2271: a class method; times that are arrays themselves cannot
    be drawn *)
Section Residuals.
Context {N : num}.
Local Notation "x <~ m ;; k" := (dbind m (fun x => k)) (at level 61, m at next level, right associativity).
Definition plot_norms (sorted : res (list N * list (cell (N := N)))) (name : option string) (fig : option nat) (axs : option axes)
    (tics : option (list string)) : D (N := N) (option nat * axes) :=
  fa <~ axes_or fig axs 1 1 ;;
  rt <~ dlift sorted ;;
  t <~ dlift (match all_some (map (fun c => match c with CNum x => Some x | CArr _ => None end) (snd rt)) with
              | Some t => Ok t | None => Raise ValueError end) ;;
  a <~ dlift (the_axis (snd fa)) ;;
  let blank := Some (repeat ""%string 15) in
  _ <~ plot_curve a (column (fst rt)) t name (tics_or tics) blank ;;
  _ <~ plot_curve a (column (fst rt)) t None solid blank ;;
  dret fa.
Definition plot_residuals (time : list (list (list N))) (residuals : list (list (rows (N := N)))) (phases : list nat)
    (name : option string) (fig : option nat) (axs : option axes) (tics : option (list string)) : D (N := N) (option nat * axes) :=
  plot_norms (sort_residual_data time residuals phases) name fig axs tics.
End Residuals.

(** ** argument plot of get_dynamics_residuals and get_states_residuals, mpopt.py:1144-1149, 1421-1426.
    Simplified for states: a phase that is not asked for has None for its residuals, TypeError (after
    earlier phases have been joined, which may raise first); a segment without points has None for its
    times, ValueError. *)
Section ResidualPlots.
Context {N : num}.
Variables (rc : rcfg) (mp : mpo N) (traj : nat -> list N -> list N -> res (traj N)).
Local Notation "x <~ m ;; k" := (dbind m (fun x => k)) (at level 61, m at next level, right associativity).
Local Notation n_phases := (o_nph (mp_ocp mp)).
Definition dynamics_drawn_by (sw z : list N) (nodes : option (list (list (list N)))) (gt : option string) (rel : bool)
    (fig : option nat) (axs : option axes) : D (N := N) (list (list (list N)) * list (list (rows (N := N)))) :=
  r <~ dlift (dynamics_residuals_by rc mp traj sw z nodes gt rel) ;;
  _ <~ plot_residuals (fst r) (snd r) (seq 0 n_phases) None fig axs (Some dots) ;;
  dret r.
Definition of_phase {A} (r : list (nat * A)) (ph : nat) : option A := option_map snd (find (fun x => Nat.eqb (fst x) ph) (rev r)).
Definition states_drawn_by (sw z : list N) (phases : option (list nat)) (nodes : option (list (list (list N)))) (rel : bool)
    (fig : option nat) (axs : option axes) : D (N := N) (list (nat * list (option (segstate (N := N))))) :=
  r <~ dlift (states_residuals_by rc mp traj sw z phases nodes rel) ;;
  _ <~ match all_some (map (of_phase r) (seq 0 n_phases)) with
       | None => fa <~ axes_or fig axs 1 1 ;; dlift (Raise TypeError)
       | Some l =>
           match all_some (map (@all_some _) l) with
           | None => fa <~ axes_or fig axs 1 1 ;; dlift (Raise ValueError)
           | Some segs => plot_residuals (map (map (@ss_t N)) segs) (map (map (fun s => Some (ss_r s))) segs) (seq 0 n_phases) None fig axs (Some dots)
           end
       end ;;
  dret r.
End ResidualPlots.
Notation dynamics_drawn rc mp := (dynamics_drawn_by rc mp (trajectories mp)).
Notation states_drawn rc mp := (states_drawn_by rc mp (trajectories mp)).

(** ** plot_residual_evolution, mpopt.py:2540-2557 and 2719-2739: the refinements of segment widths with
    this attribute set.  [plots] is phases_to_plot of the ocp, a list of tuples of phases, which is given
    as the list of phases; [iter] is iter_count; [fig] and [axs] are the attributes, which take the
    value that is returned. *)
Section Evolution.
Context {N : num}.
Variables (rc : rcfg) (mp : mpo N).
Local Notation "x <~ m ;; k" := (dbind m (fun x => k)) (at level 61, m at next level, right associativity).
(** sort_residual_data with tuples for phases: a tuple is not an index *)
Definition sort_tuples (time : list (list (list N))) (residuals : list (list (rows (N := N)))) (plots : list (list nat))
  : res (list N * list (cell (N := N))) :=
  if 1 <? List.length plots
  then t0 <- at_ time 0 ;; r0 <- at_ residuals 0 ;; _ <- norm_residual r0 ;; Raise TypeError
  else sort_residual_data time residuals [].
Definition iter_tics : list string := List.concat (repeat ["."; "*"; "+"; "d"; "^"]%string 15).
Definition plot_evolution (fmt : string) (plots : list (list nat)) (iter : nat) (time : list (list (list N)))
    (residuals : list (list (rows (N := N)))) (fig : option nat) (axs : option axes) : D (N := N) (option nat * axes) :=
  let sorted := sort_tuples time residuals plots in
  fa <~ plot_norms sorted (Some ("Iter " ++ show iter)%string) fig axs (Some (repeat fmt 15)) ;;
  plot_norms sorted None (fst fa) (Some (snd fa)) (Some solid).
Definition refine_by_residual_drawn (tol : list N) (method : string) (plots : list (list nat)) (iter : nat) (sw z : list N)
    (fig : option nat) (axs : option axes) : D (N := N) ((list N * N) * (option nat * axes)) :=
  r <~ dlift (dynamics_residuals rc mp sw z None None false) ;;
  fa <~ plot_evolution "-" plots iter (fst r) (snd r) fig axs ;;
  w <~ dlift (widths_by_residual method (mp_nseg mp) (o_nph (mp_ocp mp)) sw tol (snd r)) ;;
  dret (w, fa).
Definition refine_by_slope_drawn (tol lbh ubh : list N) (threshold : N) (plots : list (list nat)) (iter : nat) (sw z : list N)
    (fig : option nat) (axs : option axes) : D (N := N) ((list N * N) * (option nat * axes)) :=
  r <~ dlift (dynamics_residuals rc mp sw z None None false) ;;
  fmt <~ dlift (at_ iter_tics iter) ;;
  fa <~ plot_evolution fmt plots iter (fst r) (snd r) fig axs ;;
  w <~ dlift ('(ws, e) <- foldM (phase_by_slope rc mp tol lbh ubh threshold sw z (snd r)) (seq 0 (o_nph (mp_ocp mp))) ([], n0) ;;
              Ok (List.concat ws, e)) ;;
  dret (w, fa).
End Evolution.
