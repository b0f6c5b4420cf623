(** What segment width refinement is expected to do, independent of the model. *)
From Coq Require Import List Arith Reals.
Import ListNotations.
Open Scope R_scope.

Definition total (l : list R) : R := fold_right Rplus 0 l.
(** widths of one phase: [n] positive numbers that sum to 1 *)
Definition partition (n : nat) (ws : list R) : Prop :=
  length ws = n /\ (forall w, In w ws -> 0 < w) /\ total ws = 1.
(** the part of a flat list of widths that belongs to phase [ph] *)
Definition phase_part (n ph : nat) (ws : list R) : list R := firstn n (skipn (n * ph) ws).

(** ** Merging and splitting *)
(** [gs] are the maximal runs of consecutive segments on the same side of the tolerance, with
    the widths of their segments; the flag says "below tolerance" *)
Record maximal_runs (tol : R) (res sw : list R) (gs : list (bool * list R)) : Prop := {
  mr_all : concat (map snd gs) = sw;
  mr_side : forall i r b, nth_error res i = Some r ->
    nth_error (concat (map (fun g => repeat (fst g) (length (snd g))) gs)) i = Some b -> (b = true <-> r < tol);
  mr_non_empty : forall g, In g gs -> snd g <> [];
  mr_alternate : forall i g g', nth_error gs i = Some g -> nth_error gs (S i) = Some g' -> fst g <> fst g'
}.
(** what becomes of one run, [k] being the number of parts of a run above tolerance *)
Definition run_result (g : bool * list R) (k : nat) (new : list R) : Prop :=
  if fst g then new = [total (snd g)] else (1 <= k)%nat /\ new = repeat (total (snd g) / INR k) k.
(** position [i] separates a segment below tolerance from one that is not *)
Definition side_change (tol : R) (res : list R) (i : nat) : Prop :=
  (0 < i)%nat /\ exists a b, nth_error res (i - 1) = Some a /\ nth_error res i = Some b /\ ~ (a < tol <-> b < tol).

(** ** Equal areas *)
(** trapezoidal area of the first [i] intervals *)
Fixpoint area (r : list R) (i : nat) : R :=
  match i with O => 0 | S j => area r j + (nth j r 0 + nth (S j) r 0) / 2 end.
(** [v] is the value at [x] of the piecewise linear function through the points (j, area r j) *)
Definition area_at (r : list R) (x v : R) : Prop :=
  exists j, (S j < length r)%nat /\ INR j <= x <= INR (S j) /\
            v = area r j + (x - INR j) * (area r (S j) - area r j).

(** ** Control slope *)
Definition slope (du : list (list R)) (i : nat) : R := sqrt (total (map (fun x => x * x) (nth i du []))).
(** inner boundary number [i] of the phase from [t0] to [tf] cut by [ws] *)
Definition boundary (t0 tf : R) (ws : list R) (i : nat) : R := t0 + (tf - t0) * total (firstn i ws).

(** ** Residual data of one phase: per segment None or rows of numbers *)
Definition entries (rs : list (option (list (list R)))) : list R :=
  concat (map (fun e => match e with Some m => concat m | None => [] end) rs).
(** [v] is the largest absolute value in [l], 0 if there is none *)
Definition largest (l : list R) (v : R) : Prop :=
  (forall x, In x l -> Rabs x <= v) /\ (v = 0 \/ exists x, In x l /\ v = Rabs x).
(** all of them below [tol] *)
Definition within_tol (tol : R) (rs : list (option (list (list R)))) : Prop := (forall x, In x (entries rs) -> Rabs x < tol) /\ 0 < tol.
(** largest absolute value of every segment *)
Definition segment_maxima (rs : list (option (list (list R)))) (mx : list R) : Prop :=
  length mx = length rs /\ forall k, (k < length rs)%nat -> largest (entries [nth k rs None]) (nth k mx 0).
(** residuals of [nph] phases with [n] segments each; a segment that has residuals has at least one number *)
Definition residuals_ok (n nph : nat) (residuals : list (list (option (list (list R))))) : Prop :=
  length residuals = nph /\
  forall rs, In rs residuals -> length rs = n /\ forall m, In (Some m) rs -> forall row, In row m -> row <> [].
(** there is at least one evaluation point in a segment that has residuals *)
Definition points_ok (residuals : list (list (option (list (list R))))) : Prop :=
  forall rs, In rs residuals -> forall m, In (Some m) rs -> m <> [].
(** flat list of widths of [nph] phases *)
Definition widths_ok (n nph : nat) (sw : list R) : Prop :=
  length sw = (n * nph)%nat /\ forall ph, (ph < nph)%nat -> partition n (phase_part n ph sw).
(** 2-norm of the residual row at the last, and the last but one, evaluation point of a phase;
    a segment without residuals counts as one point with residual 0 *)
Definition point_norms (rs : list (option (list (list R)))) : list R :=
  concat (map (fun e => match e with Some m => map (fun row => sqrt (total (map (fun x => x * x) row))) m | None => [0] end) rs).
