(** Property C79: the trajectory that the controls lead to exists, is unique, depends on its start continuously, and feasible points are near it. *)
From Coq Require Import String Reals List Arith.
From Coquelicot Require Import Coquelicot.
From Coq Require Import List.
From Verif Require Import Num PyList Poly Ocp Colloc Transcribe Spec SpecOcp SpecHadapt SpecResid SpecSmooth SpecTrack SpecReal SpecFlow FlowR ExOcp ExFlow.
Import ListNotations.
Open Scope R_scope.
Open Scope list_scope.

(** * C79 *)
(** any point of the program and any control polynomials: if the right side is Lipschitz in the states, from every start there is
    a trajectory of the differential equation over the whole phase, and only one *)
Theorem C79_trajectory : forall mp npath nterm z p ph, input_ok mp npath nterm z p -> widths_ok (mp_nseg mp) (o_nph (mp_ocp mp)) p -> (ph < o_nph (mp_ocp mp))%nat ->
  let o := mp_ocp mp in let w := width mp p ph in let y := user_traj mp z ph in y_t0 y < y_tf y ->
  forall cu L, lipschitz o ph (a_of o y) (y_t0 y) (y_tf y) L -> steady mp w ph y cu ->
  forall x0, exists x, (follows mp w ph y cu x /\ forall s, (s < o_nx o)%nat -> x s (y_t0 y) = x0 s) /\
    forall x', follows mp w ph y cu x' -> (forall s, (s < o_nx o)%nat -> x' s (y_t0 y) = x0 s) -> forall t s, y_t0 y <= t <= y_tf y -> (s < o_nx o)%nat -> x' s t = x s t.
Proof. exact exists_thm. Qed.
Print Assumptions C79_trajectory.
(** trajectories from two starts stay close: their squared distance grows by exp (2 L t) at most; here a one-sided Lipschitz condition is enough *)
Theorem C79_two_starts : forall mp npath nterm z p ph, input_ok mp npath nterm z p -> widths_ok (mp_nseg mp) (o_nph (mp_ocp mp)) p -> (ph < o_nph (mp_ocp mp))%nat ->
  let o := mp_ocp mp in let w := width mp p ph in let y := user_traj mp z ph in y_t0 y < y_tf y ->
  forall cu x x' D L, follows mp w ph y cu x -> follows mp w ph y cu x' -> one_sided o ph (a_of o y) D L ->
  (forall k tau, (k < length (mp_orders mp))%nat -> cf_tau0 (mp_cf mp) < tau < cf_tau1 (mp_cf mp) -> let t := seg_time (mp_cf mp) w y k tau in
     D t (fun c => peval (cu k c) tau) (fun s => x s t) /\ D t (fun c => peval (cu k c) tau) (fun s => x' s t)) ->
  forall t, y_t0 y <= t <= y_tf y ->
    dist2 (o_nx o) (fun s => x s t) (fun s => x' s t) <= dist2 (o_nx o) (fun s => x s (y_t0 y)) (fun s => x' s (y_t0 y)) * exp (2 * L * (t - y_t0 y)).
Proof. exact apart_thm. Qed.
Print Assumptions C79_two_starts.
(** feasible points: the trajectory from their first node exists, and their state polynomials are near it; unlike C69, the trajectory is not assumed *)
Theorem C79_feasible_near : forall cf Q, cfg_ok cf -> exists C, 0 <= C /\ forall mp npath nterm z p n ph,
  mp_cf mp = cf -> (forall q, In q (mp_orders mp) -> (q <= Q)%nat) -> input_ok mp npath nterm z p -> widths_ok (mp_nseg mp) (o_nph (mp_ocp mp)) p ->
  nlp_at mp z p = Ok n -> feasible n -> (ph < o_nph (mp_ocp mp))%nat ->
  let o := mp_ocp mp in let w := width mp p ph in let y := user_traj mp z ph in y_t0 y < y_tf y ->
  exists rs, mapM (c_roots cf) (mp_orders mp) = Ok rs /\
  (exists cx cu, forall k, (k < length (mp_orders mp))%nat -> SpecResid.seg_polys mp rs y k (cx k) (cu k)) /\
  forall cx cu M L eta, (forall k, (k < length (mp_orders mp))%nat -> SpecResid.seg_polys mp rs y k (cx k) (cu k)) ->
    (forall k q s, nth_error (mp_orders mp) k = Some q -> (s < o_nx o)%nat ->
       smooth (dyn_time mp w ph y cx cu k s) (seg_start w y k) (seg_start w y (S k)) q M) ->
    0 <= L -> lipschitz o ph (a_of o y) (y_t0 y) (y_tf y) L -> steady mp w ph y cu ->
    (forall k q, nth_error (mp_orders mp) k = Some q -> lasts w y k ^ q <= eta) ->
    exists x, follows mp w ph y cu x /\ begins mp y x /\
      forall k tau s, (k < length (mp_orders mp))%nat -> cf_tau0 cf <= tau <= cf_tau1 cf -> (s < o_nx o)%nat ->
        let L' := INR (o_nx o) * L in
        Rabs (peval (cx k s) tau - x s (seg_time cf w y k tau)) <=
          C * M * eta * sqrt (INR (o_nx o) * (exp ((2 * L' + 1) * (y_tf y - y_t0 y)) - 1) / (2 * L' + 1)).
Proof. exact near_thm. Qed.
Print Assumptions C79_feasible_near.
(** feasible points, all phases: the objective is near the cost of these trajectories; unlike C78, neither they nor the integrals along them are assumed *)
Theorem C79_objective : forall cf Q, cfg_ok cf -> exists C1 C2, 0 <= C1 /\ 0 <= C2 /\ forall mp npath nterm z p n,
  mp_cf mp = cf -> (forall q, In q (mp_orders mp) -> (q <= Q)%nat) -> input_ok mp npath nterm z p -> widths_ok (mp_nseg mp) (o_nph (mp_ocp mp)) p ->
  nlp_at mp z p = Ok n -> feasible n ->
  let o := mp_ocp mp in let orders := mp_orders mp in let w := width mp p in let y := user_traj mp z in
  (forall ph, (ph < o_nph o)%nat -> y_t0 (y ph) < y_tf (y ph)) ->
  exists rs, mapM (c_roots cf) orders = Ok rs /\
  forall cx cu L Lr Lm M m ML eta,
    (forall ph k, (ph < o_nph o)%nat -> (k < length orders)%nat -> SpecResid.seg_polys mp rs (y ph) k (cx ph k) (cu ph k)) ->
    cf_scheme cf = "LGR"%string /\ (forall k q, nth_error orders k = Some q -> (2 <= q)%nat /\ m k = (2 * q)%nat) \/
      length orders = 1%nat /\ (forall k q, nth_error orders k = Some q -> m k = (q + 2)%nat) ->
    0 <= L ->
    (forall ph, (ph < o_nph o)%nat ->
       lipschitz o ph (a_of o (y ph)) (y_t0 (y ph)) (y_tf (y ph)) L /\ steady mp (w ph) ph (y ph) (cu ph) /\
       run_lip o ph (a_of o (y ph)) (during (y ph)) Lr /\ run_steady mp (w ph) ph (y ph) (cu ph) /\
       mayer_lip o ph (a_of o (y ph)) (fun _ => True) (y_tf (y ph)) (y_x (y ph) 0) (y_t0 (y ph)) Lm /\
       forall k q, nth_error orders k = Some q ->
         smooth (run_time mp (w ph) ph (y ph) (cx ph) (cu ph) k) (seg_start (w ph) (y ph) k) (seg_start (w ph) (y ph) (S k)) (m k - 1) ML /\
         forall s, (s < o_nx o)%nat -> smooth (dyn_time mp (w ph) ph (y ph) (cx ph) (cu ph) k s) (seg_start (w ph) (y ph) k) (seg_start (w ph) (y ph) (S k)) q M) ->
    (forall ph k q, (ph < o_nph o)%nat -> nth_error orders k = Some q -> lasts (w ph) (y ph) k ^ q <= eta) ->
    exists x, (forall ph, (ph < o_nph o)%nat -> follows mp (w ph) ph (y ph) (cu ph) (x ph) /\ begins mp (y ph) (x ph)) /\
    Rabs (n_f n - Rsum (o_nph o) (fun ph => real_cost mp (w ph) ph (y ph) (cu ph) (x ph))) <=
      Rsum (o_nph o) (fun ph => let T := y_tf (y ph) - y_t0 (y ph) in let L' := INR (o_nx o) * L in
        (Lm + Lr * T) * (C2 * M * eta * sqrt (INR (o_nx o) * (exp ((2 * L' + 1) * T) - 1) / (2 * L' + 1))) +
        C1 * ML * Rsum (length orders) (fun k => lasts (w ph) (y ph) k ^ m k)).
Proof. exact cost_thm. Qed.
Print Assumptions C79_objective.
(** not for every smooth right side: a feasible point on one segment of order 1 with dynamics x' = (1 + x^2) u, from whose start no trajectory
    follows its controls to the end of the phase *)
Theorem C79_no_trajectory_refuted : exists (mp : mpo Rnum) npath nterm z p n rs cx cu, input_ok mp npath nterm z p /\ widths_ok (mp_nseg mp) (o_nph (mp_ocp mp)) p /\
  nlp_at mp z p = Ok n /\ feasible n /\ mapM (c_roots (mp_cf mp)) (mp_orders mp) = Ok rs /\
  let w := width mp p 0 in let y := user_traj mp z 0 in y_t0 y < y_tf y /\
  (forall k, (k < length (mp_orders mp))%nat -> SpecResid.seg_polys mp rs y k (cx k) (cu k)) /\ steady mp w 0 y cu /\
  (forall x u t, rhs (mp_ocp mp) 0 (a_of (mp_ocp mp) y) x u t = [(1 + x 0%nat * x 0%nat) * u 0%nat]) /\
  ~ exists x, follows mp w 0 y cu x /\ begins mp y x.
Proof. exact burst_thm. Qed.
Print Assumptions C79_no_trajectory_refuted.

(** x' = u - 2 x with terminal cost x and running cost x + u, orders 2 and 3, unequal widths: everything that C79_objective asks for *)
Example C79_case : exists rs z n, mapM (c_roots (mp_cf lag_mp)) (mp_orders lag_mp) = Ok rs /\
  input_ok lag_mp (fun _ => None) (fun _ => None) z lag_p /\ widths_ok (mp_nseg lag_mp) 1 lag_p /\ nlp_at lag_mp z lag_p = Ok n /\ feasible n /\
  let w := width lag_mp lag_p 0 in let y := user_traj lag_mp z 0 in y_t0 y = 0 /\ y_tf y = 1 /\ lipschitz lag 0 (a_of lag y) (y_t0 y) (y_tf y) 2 /\
  run_lip lag 0 (a_of lag y) (during y) 1 /\ mayer_lip lag 0 (a_of lag y) (fun _ => True) (y_tf y) (y_x y 0) (y_t0 y) 1 /\
  forall cx cu, (forall k, (k < 2)%nat -> SpecResid.seg_polys lag_mp rs y k (cx k) (cu k)) ->
    steady lag_mp w 0 y cu /\ run_steady lag_mp w 0 y cu /\
    forall k q, nth_error [2; 3]%nat k = Some q ->
      smooth (run_time lag_mp w 0 y cx cu k) (seg_start w y k) (seg_start w y (S k)) (2 * q - 1) 0 /\
      smooth (dyn_time lag_mp w 0 y cx cu k 0) (seg_start w y k) (seg_start w y (S k)) q 0.
Proof. exact lag_flow. Qed.
