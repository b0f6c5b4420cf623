(** Grids inside a phase and residuals of a solution on them: vocabulary independent of the model. *)
From Coq Require Import String.
From Coq Require Import Reals.
From Coquelicot Require Import Coquelicot.
From Coq Require Import List Arith.
From Verif Require Import Num PyList Colloc Ocp Transcribe Solve Hadapt Resid Spec SpecOcp SpecHadapt.
Import ListNotations.
Open Scope R_scope.

(** coordinate of [x] relative to the interval from [tau0] to [tau1] *)
Definition frac (tau0 tau1 x : R) : R := (x - tau0) / (tau1 - tau0).
(** position inside the phase (0 = start, 1 = end) of the point with local coordinate [x] of segment [k] *)
Definition position (tau0 tau1 : R) (ws : list R) (k : nat) (x : R) : R :=
  total (firstn k ws) + nth k ws 0 * frac tau0 tau1 x.
(** the same for a list of points per segment, in the order of the segments *)
Definition positions (tau0 tau1 : R) (ws : list R) (ts : list (list R)) : list R :=
  concat (map (fun k => map (position tau0 tau1 ws k) (nth k ts [])) (seq 0 (length ts))).
(** the elements of [l] that are greater than [a] and at most [b], in their order *)
Definition part (a b : R) (l : list R) : list R :=
  filter (fun x => if Rlt_dec a x then if Rle_dec x b then true else false else false) l.
(** non-decreasing *)
Definition sorted (l : list R) : Prop := forall i j, (i <= j < length l)%nat -> nth i l 0 <= nth j l 0.
(** time of local coordinate [x] of segment [k] when the node times are [t] *)
Definition time_at (tau0 tau1 : R) (t : list R) (orders : list nat) (k : nat) (x : R) : R :=
  let a := nth (offset orders k) t 0 in let b := nth (offset orders (S k)) t 0 in a + (b - a) * frac tau0 tau1 x.

(** [cx s] and [cu q] are the polynomials through the values of state s and control q on segment k *)
Definition seg_polys (mp : mpo Rnum) (rs : list (list R)) (y : utraj) (k : nat) (cx cu : nat -> list R) : Prop :=
  (forall s, (s < o_nx (mp_ocp mp))%nat -> seg_interp (mp_orders mp) k (nth k rs []) (fun i => y_x y i s) (cx s)) /\
  (forall q, (q < o_nu (mp_ocp mp))%nat -> seg_interp (mp_orders mp) k (nth k rs []) (fun i => y_u y i q) (cu q)).
(** the dynamics of phase [ph] along these polynomials, at local coordinate [tau] and time [t] *)
Definition dyn_along (o : ocp Rnum) (ph : nat) (y : utraj) (cx cu : nat -> list R) (tau t : R) : list R :=
  match nth_error (o_dyn o) ph with
  | Some f => match f (vec (o_nx o) (fun s => peval (cx s) tau)) (vec (o_nu o) (fun q => peval (cu q) tau)) t (a_of o y) with
              | Ok d => d | Raise _ => [] end
  | None => []
  end.
(** rows of numbers, one per point of [pts] and one entry per state, in the solver's scaled units *)
Definition state_rows (mp : mpo Rnum) (f : nat -> R -> R) (pts : list R) : list (list R) :=
  map (fun tau => vec (o_nx (mp_ocp mp)) (fun s => nth s (o_scale_x (mp_ocp mp)) 0 * f s tau)) pts.
Definition control_rows (mp : mpo Rnum) (f : nat -> R -> R) (pts : list R) : list (list R) :=
  map (fun tau => vec (o_nu (mp_ocp mp)) (fun q => nth q (o_scale_u (mp_ocp mp)) 0 * f q tau)) pts.
(** d(state)/d(tau) according to the dynamics *)
Definition rate (mp : mpo Rnum) (w : nat -> R) (ph : nat) (y : utraj) (k : nat) (cx cu : nat -> list R) (s : nat) (tau : R) : R :=
  seg_h (mp_cf mp) w y k * nth s (dyn_along (mp_ocp mp) ph y cx cu tau (seg_time (mp_cf mp) w y k tau)) 0.
(** defect: derivative of the state polynomial minus that *)
Definition defect (mp : mpo Rnum) (w : nat -> R) (ph : nat) (y : utraj) (k : nat) (cx cu : nat -> list R) (s : nat) (tau : R) : R :=
  Derive (peval (cx s)) tau - rate mp w ph y k cx cu s tau.
(** [cq s] is the polynomial that interpolates the dynamics of state s at the points [pts] *)
Definition dyn_interp (mp : mpo Rnum) (w : nat -> R) (ph : nat) (y : utraj) (k : nat) (cx cu cq : nat -> list R) (pts : list R) : Prop :=
  forall s, (s < o_nx (mp_ocp mp))%nat -> interpolates (cq s) pts
    (fun i => nth s (dyn_along (mp_ocp mp) ph y cx cu (nth i pts 0) (seg_time (mp_cf mp) w y k (nth i pts 0))) 0).
(** state s at [tau]: its value at the start of the segment plus the integral over time of [cq s] *)
Definition integrated (mp : mpo Rnum) (w : nat -> R) (y : utraj) (k : nat) (cq : nat -> list R) (s : nat) (tau : R) : R :=
  y_x y (offset (mp_orders mp) k) s + seg_h (mp_cf mp) w y k * RInt (peval (cq s)) (cf_tau0 (mp_cf mp)) tau.
(** the collocation points that segment k owns *)
Definition own_points (rs : list (list R)) (k : nat) : list R :=
  match k with O => nth 0 rs [] | S _ => tl (nth k rs []) end.

(** the times of the nodes of a phase *)
Definition node_times (mp : mpo Rnum) (rs : list (list R)) (w : nat -> R) (y : utraj) (ts : list R) : Prop :=
  length ts = total_nodes (mp_orders mp) /\
  forall i k j, owned (mp_orders mp) i k j -> nth i ts 0 = node_time (mp_cf mp) w y k (nth j (nth k rs []) 0).
(** at every node of a phase: the absolute slopes of the control polynomials with respect to the local
    coordinate of the segment, in the solver's scaled units *)
Definition local_slopes (mp : mpo Rnum) (rs : list (list R)) (y : utraj) (du : list (list R)) : Prop :=
  length du = total_nodes (mp_orders mp) /\
  forall i k j, owned (mp_orders mp) i k j -> length (nth i du []) = o_nu (mp_ocp mp) /\
    forall q c, (q < o_nu (mp_ocp mp))%nat -> seg_interp (mp_orders mp) k (nth k rs []) (fun i => y_u y i q) c ->
      nth q (nth i du []) 0 = Rabs (nth q (o_scale_u (mp_ocp mp)) 0 * Derive (peval c) (nth j (nth k rs []) 0)).
(** size of the slope of the controls with respect to time at point j of segment k, in the solver's scaled units *)
Definition time_slope (mp : mpo Rnum) (rs : list (list R)) (w : nat -> R) (y : utraj) (k j : nat) (v : R) : Prop :=
  exists cq, (forall q, (q < o_nu (mp_ocp mp))%nat -> time_interp mp rs w y k (fun i => y_u y i q) (cq q)) /\
    v = sqrt (total (map (fun x => x * x) (vec (o_nu (mp_ocp mp)) (fun q =>
      nth q (o_scale_u (mp_ocp mp)) 0 * Derive (peval (cq q)) (node_time (mp_cf mp) w y k (nth j (nth k rs []) 0)))))).

(** number of points of the equally spaced grid *)
Definition fixed_count (rc : rcfg) (mp : mpo Rnum) : nat := Nat.max (nsum (mp_orders mp) + 2) (r_points rc + 2).
(** the largest absolute value of column j, 0 if there is none *)
Definition column_max (rss : list (option (list (list R)))) (j : nat) (v : R) : Prop :=
  0 <= v /\ (forall m row, In (Some m) rss -> In row m -> Rabs (nth j row 0) <= v) /\
  (v = 0 \/ exists m row, In (Some m) rss /\ In row m /\ v = Rabs (nth j row 0)).
(** relative residuals are returned iff in every phase every residual is at most the largest
    scaled dynamics of its state, which is positive; otherwise the assertion fails *)
Definition phase_relative (mp : mpo Rnum) (segs : list (segres (N := Rnum))) : Prop :=
  forall m, In (Some m) (map (@sr_r Rnum) segs) -> forall j v, (j < o_nx (mp_ocp mp))%nat -> column_max (map (@sr_f Rnum) segs) j v ->
    0 < v /\ forall row, In row m -> Rabs (nth j row 0) <= v.
(** the grid types that the residual code knows *)
Definition grid_known (g : string) : Prop := In g ["fixed"; "mid-points"; "spectral"]%string.
(** the variables of a solution, if it has any, have the right length and describe phases that end
    after they start *)
Definition timed_solution (mp : mpo Rnum) (sol : sdict (N := Rnum)) : Prop :=
  forall x, dget String.eqb sol "x" = Some x -> length x = (o_nph (mp_ocp mp) * nvars mp)%nat /\
    forall ph, (ph < o_nph (mp_ocp mp))%nat -> y_t0 (user_traj mp x ph) < y_tf (user_traj mp x ph).
(** the options do not ask for residual refinement by equal areas, also not by leaving out the sub-method *)
Definition no_equal_area (options : odict (N := Rnum)) : Prop :=
  dget String.eqb options "method" = Some (VStr "residual") ->
  exists v, dget String.eqb options "sub_method" = Some v /\ v <> VStr "equal_area".
(** moreover it has variables and a cost *)
Definition full_solution (mp : mpo Rnum) (sol : sdict (N := Rnum)) : Prop :=
  timed_solution mp sol /\ (exists x, dget String.eqb sol "x" = Some x) /\ (exists f, dget String.eqb sol "f" = Some f).
