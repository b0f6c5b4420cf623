(** Retrieved results: vocabulary independent of the model's functions. *)
From Coq Require Import String.
From Coq Require Import Reals.
From Coq Require Import List Arith.
From Verif Require Import Num PyList Mat Colloc Ocp Transcribe Hadapt Resid Adaptive Post Spec SpecOcp SpecHadapt SpecResid SpecAdapt.
Import ListNotations.
Open Scope R_scope.

(** factor between user units and the units of the data: 1, or the scale when scaled data is wanted *)
Definition unit_of (scaling : bool) (sc : list R) (s : nat) : R := if scaling then nth s sc 0 else 1.

Section Data.
Variables (mp : mpo Rnum) (rs : list (list R)) (scaling : bool).
(** segment widths and trajectory of every phase *)
Variables (w : nat -> nat -> R) (y : nat -> utraj) (phases : list nat) (d : pdata (N := Rnum)).
Local Notation o := (mp_ocp mp).
Local Notation n := (total_nodes (mp_orders mp)).

(** one row per node and phase, phases in the listed order *)
Definition nodal_data : Prop :=
  nr (pd_x d) = (length phases * n)%nat /\ nc (pd_x d) = o_nx o /\
  nr (pd_u d) = (length phases * n)%nat /\ nc (pd_u d) = o_nu o /\
  length (pd_t d) = (length phases * n)%nat /\
  forall q ph i, nth_error phases q = Some ph -> (i < n)%nat ->
    (forall s, (s < o_nx o)%nat -> mget (pd_x d) (q * n + i) s = unit_of scaling (o_scale_x o) s * y_x (y ph) i s) /\
    (forall c, (c < o_nu o)%nat -> mget (pd_u d) (q * n + i) c = unit_of scaling (o_scale_u o) c * y_u (y ph) i c) /\
    (forall k j, owned (mp_orders mp) i k j ->
       nth (q * n + i) (pd_t d) 0 = node_time (mp_cf mp) (w ph) (y ph) k (nth j (nth k rs []) 0)).

Variable taus : list (list R).
(** number of points per phase *)
Definition count_pts : nat := length (concat taus).
(** one row per point and phase: the values of the polynomials of the segment, and the time, there *)
Definition interpolated_data : Prop :=
  nr (pd_x d) = (length phases * count_pts)%nat /\ nc (pd_x d) = o_nx o /\
  nr (pd_u d) = (length phases * count_pts)%nat /\ nc (pd_u d) = o_nu o /\
  length (pd_t d) = (length phases * count_pts)%nat /\
  forall q ph k i, nth_error phases q = Some ph -> (k < length (mp_orders mp))%nat -> (i < length (nth k taus []))%nat ->
    let row := (q * count_pts + length (concat (firstn k taus)) + i)%nat in let tau := nth i (nth k taus []) 0 in
    (forall s c, (s < o_nx o)%nat -> seg_interp (mp_orders mp) k (nth k rs []) (fun i => y_x (y ph) i s) c ->
       mget (pd_x d) row s = unit_of scaling (o_scale_x o) s * peval c tau) /\
    (forall q c, (q < o_nu o)%nat -> seg_interp (mp_orders mp) k (nth k rs []) (fun i => y_u (y ph) i q) c ->
       mget (pd_u d) row q = unit_of scaling (o_scale_u o) q * peval c tau) /\
    nth row (pd_t d) 0 = node_time (mp_cf mp) (w ph) (y ph) k tau.
End Data.

(** parameters as columns below each other *)
Definition params_below (mp : mpo Rnum) (scaling : bool) (y : nat -> utraj) (phases : list nat) (a : mat Rnum) : Prop :=
  let na := o_na (mp_ocp mp) in nr a = (length phases * na)%nat /\ nc a = 1%nat /\
  forall q ph i, nth_error phases q = Some ph -> (i < na)%nat ->
    mget a (q * na + i) 0 = unit_of scaling (o_scale_a (mp_ocp mp)) i * y_a (y ph) i.
(** parameters as columns beside each other *)
Definition params_beside (mp : mpo Rnum) (scaling : bool) (y : nat -> utraj) (phases : list nat) (a : mat Rnum) : Prop :=
  let na := o_na (mp_ocp mp) in nr a = na /\ nc a = length phases /\
  forall q ph i, nth_error phases q = Some ph -> (i < na)%nat ->
    mget a i q = unit_of scaling (o_scale_a (mp_ocp mp)) i * y_a (y ph) i.

(** the default points of segment [k]: 50 equally spaced ones; the first is left out, except in the first segment *)
Definition default_points (tau0 tau1 : R) (k : nat) : list R :=
  map (fun i => tau0 + (tau1 - tau0) * (INR i / 49)) (match k with O => seq 0 50 | S _ => seq 1 49 end).

Definition default_grid (mp : mpo Rnum) : list (list R) :=
  map (default_points (cf_tau0 (mp_cf mp)) (cf_tau1 (mp_cf mp))) (seq 0 (length (mp_orders mp))).

(** [po] is an object that process_results made from a solution of class mpopt: widths and trajectories
    per phase are those of the solution and the parameters of the program *)
Definition made_by_mpopt (mp : mpo Rnum) (scaling : bool) (plots : list (list nat)) (w : nat -> nat -> R) (y : nat -> utraj)
    (po : post (N := Rnum)) : Prop :=
  exists rc npath nterm z p rx rdx, input_ok mp npath nterm z p /\ process_results rc mp plots p z scaling rx rdx = Ok po /\
    w = width mp p /\ y = user_traj mp z.
(** the same for class mpopt_adaptive, where the widths are part of the solution *)
Definition made_by_adaptive (mp : mpo Rnum) (scaling : bool) (plots : list (list nat)) (w : nat -> nat -> R) (y : nat -> utraj)
    (po : post (N := Rnum)) : Prop :=
  exists rc ac npath nterm z sw rx rdx, ad_input_ok ac mp npath nterm z /\ a_process_results rc mp plots sw z scaling rx rdx = Ok po /\
    w = ad_width mp z /\ y = ad_traj mp z.
(** the requested phases: those listed, by default the first entry of phases_to_plot *)
Definition asked (plots : list (list nat)) (phases : list nat) : list nat :=
  match phases with [] => nth 0 plots [] | _ => phases end.
Definition phases_ok (mp : mpo Rnum) (phases : list nat) : Prop := phases <> [] /\ forall ph, In ph phases -> (ph < o_nph (mp_ocp mp))%nat.

(** residuals of one phase, flat: pairs of a time and the norm of the residual there *)
Definition norm_of (row : list R) : R := sqrt (fold_right (fun x s => x * x + s) 0 row).
Definition seg_norms (r : option (list (list R))) : list R := match r with Some m => map norm_of m | None => [] end.
(** as many residuals as times, segment by segment *)
Definition matching (ts : list (list R)) (rs : list (option (list (list R)))) : Prop :=
  Forall2 (fun t r => length t = match r with Some m => length m | None => 0%nat end) ts rs.
(** all segments have [m] points *)
Definition uniform (m : nat) (ts : list (list R)) : Prop := forall t, In t ts -> length t = m.

(** all norms of residuals of a phase, and all its times *)
Definition norms (residuals : list (list (option (list (list R))))) (ph : nat) : list R := concat (map seg_norms (nth ph residuals [])).
Definition times (time : list (list (list R))) (ph : nat) : list R := concat (nth ph time []).
(** there is data of the phase, and it is matching *)
Definition present (time : list (list (list R))) (residuals : list (list (option (list (list R))))) (ph : nat) : Prop :=
  (ph < length time)%nat /\ (ph < length residuals)%nat /\ nth ph time [] <> [] /\ matching (nth ph time []) (nth ph residuals []).
