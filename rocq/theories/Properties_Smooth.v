(** Property C62: smooth solutions nearly satisfy the constraints, and better on finer meshes. *)
From Coq Require Import String Reals List Arith.
From Coquelicot Require Import Coquelicot.
From Verif Require Import Num PyList Ocp Colloc Transcribe Spec SpecOcp SpecHadapt SpecExact SpecSmooth SmoothR ExSmooth.
Import ListNotations.
Open Scope R_scope.
Open Scope list_scope.

(** * C62 *)
(** for every scheme and every largest order there is a constant [C] such that, whatever the problem, its scales,
    the mesh and the widths: the values at the nodes of a solution whose states (and controls, where they are
    bounded at mid points too) have one derivative more than the orders, bounded by [M], satisfy the bounds of the
    variables exactly and all other constraints up to C * scale * M * (duration of the segment) ^ (order + 1);
    and the objective there differs from the cost by at most C * ML * (sum of durations ^ (2 * order)) on LGR
    meshes of orders at least 2, and by C * ML * duration ^ (order + 2) on one segment *)
Theorem C62_consistency : forall cf Q, cfg_ok cf -> exists C, 0 <= C /\ forall mp npath nterm p Ps M,
  mp_cf mp = cf -> mpo_ok mp -> (forall q, In q (mp_orders mp) -> (q <= Q)%nat) -> ocp_ok (mp_ocp mp) npath nterm -> scales_pos (mp_ocp mp) ->
  widths_ok (mp_nseg mp) (o_nph (mp_ocp mp)) p -> no_slopes (mp_ocp mp) ->
  (forall ph, (ph < o_nph (mp_ocp mp))%nat -> fsolves (mp_ocp mp) ph (Ps ph) /\ smooth_traj mp ph (Ps ph) M) -> flinked (mp_ocp mp) Ps ->
  let o := mp_ocp mp in let orders := mp_orders mp in
  exists rs, mapM (c_roots cf) orders = Ok rs /\
  (exists z, length z = (o_nph o * nvars mp)%nat /\ forall ph, (ph < o_nph o)%nat -> fsamples mp rs (width mp p ph) (Ps ph) (user_traj mp z ph)) /\
  forall z, length z = (o_nph o * nvars mp)%nat -> (forall ph, (ph < o_nph o)%nat -> fsamples mp rs (width mp p ph) (Ps ph) (user_traj mp z ph)) ->
    exists n, nlp_at mp z p = Ok n /\ sat (n_x n) /\
      (forall eps, 0 <= eps ->
        (forall ph k q s, (ph < o_nph o)%nat -> nth_error orders k = Some q -> (s < o_nx o)%nat ->
           C * nth s (o_scale_x o) 0 * M * duration (width mp p ph) (Ps ph) k ^ S q <= eps) ->
        (forall ph k q c, (ph < o_nph o)%nat -> nth_error orders k = Some q -> (c < o_nu o)%nat -> nth ph (o_midu o) false = true ->
           C * nth c (o_scale_u o) 0 * M * duration (width mp p ph) (Ps ph) k ^ S q <= eps) ->
        sat_within eps (n_g n)) /\
      (forall Ls m ML, (forall ph, (ph < o_nph o)%nat -> run_fun o ph (Ps ph) (Ls ph)) ->
        cf_scheme cf = "LGR"%string /\ (forall k q, nth_error orders k = Some q -> (2 <= q)%nat /\ m k = (2 * q)%nat) \/
        length orders = 1%nat /\ (forall k q, nth_error orders k = Some q -> m k = (q + 2)%nat) ->
        (forall ph k, (ph < o_nph o)%nat -> (k < length orders)%nat -> smooth (Ls ph) (f_t0 (Ps ph)) (f_tf (Ps ph)) (m k - 1) ML) ->
        Rabs (n_f n - Rsum (o_nph o) (fun ph => fcost o ph (Ps ph) (Ls ph))) <=
          C * ML * Rsum (o_nph o) (fun ph => Rsum (length orders) (fun k => duration (width mp p ph) (Ps ph) k ^ m k))).
Proof. exact smooth_thm. Qed.
Print Assumptions C62_consistency.
(** hence, with LGR and orders between 2 and [Q]: the values of a solution satisfy the constraints and give its
    cost up to any [eps], on every mesh whose segments are short enough *)
Theorem C62_convergence : forall cf Q o npath nterm Ps Ls M ML,
  cfg_ok cf -> cf_scheme cf = "LGR"%string -> ocp_ok o npath nterm -> scales_pos o -> no_slopes o ->
  (forall ph, (ph < o_nph o)%nat -> fsolves o ph (Ps ph) /\ run_fun o ph (Ps ph) (Ls ph)) -> flinked o Ps ->
  forall eps, 0 < eps -> exists delta, 0 < delta /\ forall mp p,
    mp_ocp mp = o -> mp_cf mp = cf -> mpo_ok mp -> widths_ok (mp_nseg mp) (o_nph o) p ->
    (forall q, In q (mp_orders mp) -> (2 <= q <= Q)%nat) ->
    (forall ph, (ph < o_nph o)%nat -> smooth_traj mp ph (Ps ph) M) ->
    (forall ph q, (ph < o_nph o)%nat -> In q (mp_orders mp) -> smooth (Ls ph) (f_t0 (Ps ph)) (f_tf (Ps ph)) (2 * q - 1) ML) ->
    (forall ph k, (ph < o_nph o)%nat -> (k < mp_nseg mp)%nat -> duration (width mp p ph) (Ps ph) k <= delta) ->
    exists rs z n, mapM (c_roots cf) (mp_orders mp) = Ok rs /\ length z = (o_nph o * nvars mp)%nat /\
      (forall ph, (ph < o_nph o)%nat -> fsamples mp rs (width mp p ph) (Ps ph) (user_traj mp z ph)) /\
      nlp_at mp z p = Ok n /\ sat (n_x n) /\ sat_within eps (n_g n) /\
      Rabs (n_f n - Rsum (o_nph o) (fun ph => fcost o ph (Ps ph) (Ls ph))) <= eps.
Proof. exact converge_thm. Qed.
Print Assumptions C62_convergence.
(** x' = u - 2 x, x(0) = 1, x(1) = exp(-1), x <= 1, cost x(1) + integral of u, with the solution
    x(t) = u(t) = exp(-t) of cost 1: on all LGR meshes with enough equal segments of order [q] *)
Theorem C62_decay : forall cf q, cfg_ok cf -> cf_scheme cf = "LGR"%string -> (2 <= q)%nat ->
  forall eps, 0 < eps -> exists K0, (1 <= K0)%nat /\ forall K, (K0 <= K)%nat -> let mp := Mpo decay K (repeat q K) cf in
    exists z n, length z = nvars mp /\ nlp_at mp z (repeat (1 / INR K) K) = Ok n /\ sat (n_x n) /\ sat_within eps (n_g n) /\ Rabs (n_f n - 1) <= eps.
Proof. exact decay_converges. Qed.
Print Assumptions C62_decay.
(** not with order 1, whatever the scheme: a solution of cost 1 whose values are feasible on every mesh of [K]
    equal segments, with objective 1/2 + 1/(2 K) *)
Theorem C62_order_one_refuted : exists o npath nterm Ps Ls, ocp_ok o npath nterm /\ scales_pos o /\ no_slopes o /\
  (forall ph, (ph < o_nph o)%nat -> fsolves o ph (Ps ph) /\ run_fun o ph (Ps ph) (Ls ph)) /\ flinked o Ps /\
  (forall mp ph m, mp_ocp mp = o -> (1 <= m)%nat -> smooth_traj mp ph (Ps ph) 0 /\ smooth (Ls ph) (f_t0 (Ps ph)) (f_tf (Ps ph)) m 0) /\
  o_nph o = 1%nat /\ fcost o 0 (Ps 0%nat) (Ls 0%nat) = 1 /\
  forall cf K, cfg_ok cf -> (1 <= K)%nat -> let mp := Mpo o K (repeat 1%nat K) cf in
    exists rs, mapM (c_roots cf) (mp_orders mp) = Ok rs /\
    (exists z, length z = nvars mp /\ fsamples mp rs (width mp (repeat (1 / INR K) K) 0) (Ps 0%nat) (user_traj mp z 0)) /\
    forall z, length z = nvars mp -> fsamples mp rs (width mp (repeat (1 / INR K) K) 0) (Ps 0%nat) (user_traj mp z 0) ->
      exists n, nlp_at mp z (repeat (1 / INR K) K) = Ok n /\ feasible n /\ n_f n = 1 / 2 + 1 / (2 * INR K).
Proof. exact stay_refutes. Qed.
Print Assumptions C62_order_one_refuted.
