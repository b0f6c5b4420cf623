(** Plots: what the curves are, independent of the methods that draw them. *)
From Coq Require Import String Reals List Arith.
From Verif Require Import Num PyList Mat Colloc Ocp Transcribe Resid Post Plot SpecPost.
Import ListNotations.
Open Scope R_scope.
Open Scope list_scope.

(** one curve per column of [m] over the times [t] *)
Definition curves_of (a : axis) (m : mat Rnum) (t : list R) (fmt : string) (label : nat -> option string) : list (curve (N := Rnum)) :=
  map (fun i => Curve (N := Rnum) a t (map (fun r => mget m r i) (seq 0 (nr m))) fmt (label i)) (seq 0 (nc m)).
(** columns are numbered from 1 *)
Definition numbered (name : string) (i : nat) : option string := Some (name ++ " " ++ show (i + 1))%string.
Definition unlabelled (i : nat) : option string := None.
(** states on the first axes, controls on the second: smooth without labels, nodes with labels *)
Definition smooth_curves (a0 a1 : axis) (d : pdata (N := Rnum)) (fmt : string) : list (curve (N := Rnum)) :=
  curves_of a0 (pd_x d) (pd_t d) fmt unlabelled ++ curves_of a1 (pd_u d) (pd_t d) fmt unlabelled.
Definition node_curves (a0 a1 : axis) (d : pdata (N := Rnum)) (fmt name : string) : list (curve (N := Rnum)) :=
  curves_of a0 (pd_x d) (pd_t d) fmt (numbered (name ++ "state")) ++ curves_of a1 (pd_u d) (pd_t d) fmt (numbered (name ++ "control")).
(** what one call of plot_phases draws: interpolated data with the given mark and dots at the nodes, or the nodes only *)
Definition phase_curves (a0 a1 : axis) (interpolate : bool) (di dn : pdata (N := Rnum)) (fmt name : string) : list (curve (N := Rnum)) :=
  if interpolate then smooth_curves a0 a1 di fmt ++ node_curves a0 a1 dn "." name else node_curves a0 a1 dn fmt name.
(** chosen columns, with the given numbers as labels *)
Definition chosen_curves (a : axis) (m : mat Rnum) (t : list R) (fmt : string) (name : option string) (cols : list nat) : list (curve (N := Rnum)) :=
  map (fun j => Curve (N := Rnum) a t (map (fun r => mget m r j) (seq 0 (nr m))) fmt
    (match name with Some n => Some (n ++ " " ++ show j)%string | None => None end)) cols.

(** the phases asked for, none by default *)
Definition wanted (phases : option (list nat)) : list nat := match phases with Some l => l | None => [] end.
(** residuals of all phases are computed on grid [g] *)
Definition same_grid (rc : rcfg) (mp : mpo Rnum) (g : string) : Prop := forall ph, (ph < o_nph (mp_ocp mp))%nat -> nth_error (r_grid rc) ph = Some g.
(** the dimensions that one call can draw: some, at most fifteen per axes, all below [n] *)
Definition fits (n : nat) (l : list nat) : Prop := (length l <= 15)%nat /\ forall j, In j l -> (j < n)%nat.
Definition dims_fit (n : nat) (d : dims) : Prop :=
  match d with Flat l => l <> [] /\ fits n l | Nested ls => (2 <= length ls)%nat /\ forall l, In l ls -> fits n l end.
(** one axes object, or as many as there are lists, in a column or in a row *)
Definition place (f n : nat) (vertical : bool) (i : nat) : axis := if vertical then Axis f n 1 (S i) else Axis f 1 n (S i).
Definition dims_axes (f : nat) (vertical : bool) (d : dims) : axes :=
  match d with Flat _ => AxOne (Axis f 1 1 1) | Nested ls => AxMany (map (place f (length ls) vertical) (seq 0 (length ls))) end.
Definition dims_curves (f : nat) (vertical : bool) (m : mat Rnum) (t : list R) (fmt : string) (name : option string) (d : dims) : list (curve (N := Rnum)) :=
  match d with
  | Flat l => chosen_curves (Axis f 1 1 1) m t fmt name l
  | Nested ls => concat (map (fun i => chosen_curves (place f (length ls) vertical i) m t fmt name (nth i ls [])) (seq 0 (length ls)))
  end.

(** every residual of every phase over its time, component [i] *)
Definition error_curves (a : axis) (ts : list (list (list R))) (rs : list (list (option (list (list R))))) (n : nat) (name fmt : string)
    : list (curve (N := Rnum)) :=
  map (fun i => Curve (N := Rnum) a (concat (concat ts))
    (concat (map (fun r => match r with Some m => map (fun row => nth i row 0) m | None => [] end) (concat rs))) fmt (numbered name i)) (seq 0 n).
(** all segments of a phase have [m] times *)
Definition level (m : nat) (p : list (list R)) : Prop := forall t, In t p -> length t = m.
(** either all segments of all phases have one number of times, or no phase is level *)
Definition alike (ts : list (list (list R))) : Prop :=
  (exists m, forall p, In p ts -> level m p) \/ (forall p, In p ts -> forall m, ~ level m p).
(** residuals [rs] of [n] states at the times [ts]; every phase has some *)
Definition error_data (n : nat) (ts : list (list (list R))) (rs : list (list (option (list (list R))))) : Prop :=
  ts <> [] /\ (forall p, In p ts -> p <> []) /\
  Forall2 (Forall2 (fun t r => length t = match r with Some m => length m | None => 0%nat end)) ts rs /\
  (forall p, In p rs -> exists m row, In (Some m) p /\ In row m) /\
  (forall p m row, In p rs -> In (Some m) p -> In row m -> length row = n).
(** the norm of every residual of every phase over its time, as points and as a line *)
Definition norm_curves (a : axis) (ts : list (list (list R))) (rs : list (list (option (list (list R))))) : list (curve (N := Rnum)) :=
  let t := concat (concat ts) in let r := concat (map seg_norms (concat rs)) in
  [Curve (N := Rnum) a t r "." None; Curve (N := Rnum) a t r "-" None].
(** the grid has the same number of points in every segment *)
Definition level_grid (mp : mpo Rnum) (g : string) : Prop :=
  g = "spectral"%string \/ (g = "mid-points"%string /\ exists m, forall q, In q (mp_orders mp) -> q = m).
(** what one refinement adds to the plot of their residuals: the norms of phase [ph] over time, marked and three times as a line *)
Definition evolution_curves (a : axis) (fmt : string) (iter : nat) (ts : list (list (list R))) (rs : list (list (option (list (list R))))) (ph : nat)
    : list (curve (N := Rnum)) :=
  let t := times ts ph in let r := norms rs ph in let line := Curve (N := Rnum) a t r "-" None in
  [Curve (N := Rnum) a t r fmt (Some ("Iter " ++ show iter ++ " ")%string); line; line; line].
(** the axes to draw on: those of before, or those of a new figure *)
Definition kept (before : option (nat * axis)) (s : canvas (N := Rnum)) : nat * axis :=
  match before with Some fa => fa | None => (S (cs_figs s), Axis (S (cs_figs s)) 1 1 1) end.
Definition figures (before : option (nat * axis)) (s : canvas (N := Rnum)) : nat := match before with Some _ => cs_figs s | None => S (cs_figs s) end.
(** the marks repeat every five refinements *)
Definition iter_mark (iter : nat) : string := nth (iter mod 5) ["."; "*"; "+"; "d"; "^"]%string ""%string.
(** consecutive refinements by [step], each with its number, widths and solution; a refinement returns
    widths, error, figure and axes *)
Definition refinement := nat -> list R -> list R -> option nat -> option axes -> D (N := Rnum) ((list R * R) * (option nat * axes)).
Inductive refinements (step : refinement) : option (nat * axis) -> list (nat * list R * list R) -> canvas (N := Rnum) -> canvas (N := Rnum) -> Prop :=
| no_more before s : refinements step before [] s s
| one_more before iter sw z l s s' s'' w f a :
    step iter sw z (option_map fst before) (option_map (fun fa => AxOne (snd fa)) before) s = (s', Ok (w, (Some f, AxOne a))) ->
    refinements step (Some (f, a)) l s' s'' -> refinements step before ((iter, sw, z) :: l) s s''.
(** a curve moved to the axes [a] *)
Definition on_axis {N : num} (a : axis) (c : curve (N := N)) : curve (N := N) := Curve a (cv_t c) (cv_y c) (cv_fmt c) (cv_label c).
(** a drawing of residuals takes a figure and axes.  The same curves are drawn, and the same is returned,
    on the axes of a new figure or on one axes object that is given, with or without its figure; a
    figure without axes, or an array of axes, gives an error and draws nothing *)
Definition drawn_on {A} (m : option nat -> option axes -> D (N := Rnum) A) : Prop := exists l r, forall s,
  let f := S (cs_figs s) in
  m None None s = (Canvas (N := Rnum) f (cs_curves s ++ map (on_axis (Axis f 1 1 1)) l), r) /\
  (forall fig a, m fig (Some (AxOne a)) s = (Canvas (N := Rnum) (cs_figs s) (cs_curves s ++ map (on_axis a) l), r)) /\
  (forall k many, m (Some k) None s = (s, Raise TypeError) /\ m None (Some (AxMany many)) s = (s, Raise ValueError) /\
    exists e, m (Some k) (Some (AxMany many)) s = (s, Raise e)).
