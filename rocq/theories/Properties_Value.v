(** Property C73: how the optimal cost depends on initial states and bounds. *)
From Coq Require Import String Reals List Arith.
From Verif Require Import Num PyList Ocp Colloc Transcribe Spec SpecOcp SpecHadapt SpecConvex SpecCoord SpecValue NumR ValueR ExValue.
Import ListNotations.
Open Scope R_scope.
Open Scope list_scope.

(** * C73 *)
(** take two feasible points of two versions of a convex problem that differ in initial states and bounds: the point
    between them is feasible for the version between, at a cost on or below the chord *)
Theorem C73_between : forall (o : ocp Rnum) (l l' : limits) K orders cf npath nterm (p : list R),
  let mp k := Mpo (with_limits o k) K orders cf in
  mpo_ok (mp l) -> ocp_ok (with_limits o l) npath nterm -> ocp_ok (with_limits o l') npath nterm -> scales_pos o -> widths_ok K (o_nph o) p ->
  (forall ph, (ph < o_nph o)%nat -> convex_phase o ph) -> (forall ph, (ph < o_nph o)%nat -> fixed_times o ph) ->
  forall lam, 0 <= lam <= 1 -> forall z z' : list R, length z = (o_nph o * nvars (mp l))%nat -> length z' = (o_nph o * nvars (mp l))%nat ->
  exists n n' m, nlp_at (mp l) z p = Ok n /\ nlp_at (mp l') z' p = Ok n' /\ nlp_at (mp (mix_limits lam l l')) (mixl lam z z') p = Ok m /\
    (feasible n -> feasible n' -> feasible m /\ n_f m <= mix lam (n_f n) (n_f n')).
Proof. exact value_thm. Qed.
Print Assumptions C73_between.
(** so the optimal cost is a convex function of initial states and bounds together ... *)
Theorem C73_value : forall (o : ocp Rnum) (l l' : limits) K orders cf npath nterm (p : list R),
  let mp k := Mpo (with_limits o k) K orders cf in
  mpo_ok (mp l) -> ocp_ok (with_limits o l) npath nterm -> ocp_ok (with_limits o l') npath nterm -> scales_pos o -> widths_ok K (o_nph o) p ->
  (forall ph, (ph < o_nph o)%nat -> convex_phase o ph) -> (forall ph, (ph < o_nph o)%nat -> fixed_times o ph) ->
  forall lam, 0 <= lam <= 1 -> forall (z z' zm : list R) n n' m,
  length z = (o_nph o * nvars (mp l))%nat -> length z' = (o_nph o * nvars (mp l))%nat -> length zm = (o_nph o * nvars (mp l))%nat ->
  best (mp l) p z -> best (mp l') p z' -> best (mp (mix_limits lam l l')) p zm ->
  nlp_at (mp l) z p = Ok n -> nlp_at (mp l') z' p = Ok n' -> nlp_at (mp (mix_limits lam l l')) zm p = Ok m ->
  n_f m <= mix lam (n_f n) (n_f n').
Proof. exact value_best. Qed.
Print Assumptions C73_value.
(** ... and of the initial state *)
Theorem C73_start : forall (o : ocp Rnum) K orders cf npath nterm (p : list R),
  mpo_ok (Mpo o K orders cf) -> ocp_ok o npath nterm -> scales_pos o -> widths_ok K (o_nph o) p ->
  (forall ph, (ph < o_nph o)%nat -> convex_phase o ph) -> (forall ph, (ph < o_nph o)%nat -> fixed_times o ph) ->
  let mp x := Mpo (with_limits o (start_at o x)) K orders cf in
  forall lam (x x' : list R), 0 <= lam <= 1 -> length x = o_nx o -> length x' = o_nx o ->
  forall (z z' zm : list R) n n' m, length z = (o_nph o * nvars (Mpo o K orders cf))%nat -> length z' = (o_nph o * nvars (Mpo o K orders cf))%nat -> length zm = (o_nph o * nvars (Mpo o K orders cf))%nat ->
  best (mp x) p z -> best (mp x') p z' -> best (mp (mixl lam x x')) p zm ->
  nlp_at (mp x) z p = Ok n -> nlp_at (mp x') z' p = Ok n' -> nlp_at (mp (mixl lam x x')) zm p = Ok m ->
  n_f m <= mix lam (n_f n) (n_f n').
Proof. exact value_start. Qed.
Print Assumptions C73_start.
(** the hypothesis of convexity cannot be left out: for x' = 0 with cost -x(1)^2 the optimal cost is above a chord, on
    every mesh *)
Theorem C73_any_cost_refuted : forall cf K orders p, cfg_ok cf -> (1 <= K)%nat -> length orders = K -> (forall q, In q orders -> (1 <= q)%nat) -> widths_ok K 1 p ->
  exists o, let mp x := Mpo (with_limits o (start_at o x)) K orders cf in mpo_ok (Mpo o K orders cf) /\ ocp_ok o (fun _ => None) (fun _ => None) /\ scales_pos o /\ o_nph o = 1%nat /\ fixed_times o 0 /\
    exists (z z' zm : list R) n n' m, length z = nvars (Mpo o K orders cf) /\ length z' = nvars (Mpo o K orders cf) /\ length zm = nvars (Mpo o K orders cf) /\
      best (mp [-1]) p z /\ best (mp [1]) p z' /\ best (mp (mixl (1 / 2) [-1] [1])) p zm /\
      nlp_at (mp [-1]) z p = Ok n /\ nlp_at (mp [1]) z' p = Ok n' /\ nlp_at (mp (mixl (1 / 2) [-1] [1])) zm p = Ok m /\
      mix (1 / 2) (n_f n) (n_f n') < n_f m.
Proof. exact value_concave. Qed.
Print Assumptions C73_any_cost_refuted.
(** a problem that meets the hypotheses from every initial state, with optimal cost x0^2 *)
Example C73_case : (forall ph, (ph < 1)%nat -> convex_phase (hold 1) ph /\ fixed_times (hold 1) ph) /\ scales_pos (hold 1) /\
  forall v cf K orders p, cfg_ok cf -> (1 <= K)%nat -> length orders = K -> (forall q, In q orders -> (1 <= q)%nat) -> widths_ok K 1 p ->
  let mp := Mpo (with_limits (hold 1) (start_at (hold 1) [v])) K orders cf in mpo_ok mp /\ ocp_ok (with_limits (hold 1) (start_at (hold 1) [v])) (fun _ => None) (fun _ => None) /\
  exists (z : list R) n, length z = nvars mp /\ best mp p z /\ nlp_at mp z p = Ok n /\ n_f n = 1 * (v * v).
Proof.
  split; [intros ph H; exact (conj (hold_convex ph H) (hold_fixed 1 ph H))|]. split; [exact (hold_scales 1)|].
  intros v cf K orders p Hcf HK Hlen Hpos Hw. split; [exact (hold_mpo 1 v cf K orders Hcf HK Hlen Hpos)|]. split; [exact (hold_start 1 v)|]. exact (hold_value 1 v cf K orders p Hcf HK Hlen Hpos Hw).
Qed.
