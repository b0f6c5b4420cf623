(** Properties C58 and C59: problems whose solutions the transcription represents exactly. *)
From Coq Require Import String Reals List Arith.
From Coquelicot Require Import Coquelicot.
From Verif Require Import Num PyList Ocp Colloc Transcribe Spec SpecOcp SpecHadapt SpecBalance SpecExact NumR BalanceR ExactR ExOcp ExLander.
Import ListNotations.
Open Scope R_scope.
Open Scope list_scope.

(** * C58 *)
(** running cost = sum of alpha * (right-hand sides) + beta: the objective of every feasible point is what
    the end values and the end times give, minus the part of the first nodes of the later segments; that part
    vanishes on LGR meshes whose later orders are at least 2 and on one segment *)
Theorem C58_objective : forall (mp : mpo Rnum) npath nterm z p alpha beta,
  input_ok mp npath nterm z p ->
  (forall ph, (ph < o_nph (mp_ocp mp))%nat -> cost_rate (mp_ocp mp) ph (alpha ph) (beta ph)) ->
  exists rs n, mapM (c_roots (mp_cf mp)) (mp_orders mp) = Ok rs /\ nlp_at mp z p = Ok n /\
    (exists B c, start_basis mp rs B /\ forall ph, (ph < o_nph (mp_ocp mp))%nat -> state_polys mp rs (user_traj mp z ph) (c ph)) /\
    (feasible n ->
     (forall B c, start_basis mp rs B -> (forall ph, (ph < o_nph (mp_ocp mp))%nat -> state_polys mp rs (user_traj mp z ph) (c ph)) ->
        n_f n = Rsum (o_nph (mp_ocp mp)) (fun ph => balance mp (width mp p ph) ph (user_traj mp z ph) (alpha ph) (beta ph) -
                                                    start_rate mp (width mp p ph) (user_traj mp z ph) (alpha ph) (beta ph) B (c ph))) /\
     (cf_scheme (mp_cf mp) = "LGR"%string /\ (forall q, In q (tl (mp_orders mp)) -> (2 <= q)%nat) \/ length (mp_orders mp) = 1%nat ->
        n_f n = Rsum (o_nph (mp_ocp mp)) (fun ph => balance mp (width mp p ph) ph (user_traj mp z ph) (alpha ph) (beta ph)))).
Proof. intros mp npath nterm z p alpha beta Hin Hr. exact (balance_thm mp npath nterm z p alpha beta Hin Hr). Qed.
Print Assumptions C58_objective.
(** the moon lander of the tests, on any LGR mesh of orders at least 2: every feasible point costs
    2 + 3/2 * (its final time) *)
Theorem C58_lander : forall cf K orders p, cfg_ok cf -> (1 <= K)%nat -> length orders = K -> cf_scheme cf = "LGR"%string -> widths_ok K 1 p ->
  (forall q, In q orders -> (2 <= q)%nat) ->
  forall z, length z = nvars (Mpo lander K orders cf) ->
  exists n, nlp_at (Mpo lander K orders cf) z p = Ok n /\
    (feasible n -> n_f n = 2 + 3 / 2 * y_tf (user_traj (Mpo lander K orders cf) z 0) /\ 13 / 2 <= n_f n <= 19 / 2).
Proof. exact lander_cost. Qed.
Print Assumptions C58_lander.
(** not on every mesh: two segments of order 1, running cost 1, duration 1, objective 3/4 *)
Theorem C58_every_mesh_refuted : exists mp npath nterm z p n alpha beta,
  input_ok mp npath nterm z p /\ widths_ok (mp_nseg mp) (o_nph (mp_ocp mp)) p /\ o_nph (mp_ocp mp) = 1%nat /\ cost_rate (mp_ocp mp) 0 alpha beta /\
  nlp_at mp z p = Ok n /\ feasible n /\ balance mp (width mp p 0) 0 (user_traj mp z 0) alpha beta = 1 /\ n_f n = 3 / 4.
Proof. exact balance_wrong. Qed.
Print Assumptions C58_every_mesh_refuted.

(** * C59 *)
(** a solution of the continuous problem that is polynomial in time: its values at the nodes are a feasible
    point of the program on every mesh whose segments can represent it, whatever the widths and scales; and
    the objective there is its exact cost when the running cost along it is a polynomial the weights integrate *)
Theorem C59_exact_solution : forall (mp : mpo Rnum) npath nterm p Ps,
  mpo_ok mp -> ocp_ok (mp_ocp mp) npath nterm -> scales_pos (mp_ocp mp) -> widths_ok (mp_nseg mp) (o_nph (mp_ocp mp)) p -> no_slopes (mp_ocp mp) ->
  (forall ph, (ph < o_nph (mp_ocp mp))%nat -> solves (mp_ocp mp) ph (Ps ph)) -> linked (mp_ocp mp) Ps ->
  (forall ph, (ph < o_nph (mp_ocp mp))%nat -> resolved mp (Ps ph)) ->
  exists rs, mapM (c_roots (mp_cf mp)) (mp_orders mp) = Ok rs /\
  (exists z, length z = (o_nph (mp_ocp mp) * nvars mp)%nat /\
     forall ph, (ph < o_nph (mp_ocp mp))%nat -> samples mp rs (width mp p ph) (Ps ph) (user_traj mp z ph)) /\
  forall z, length z = (o_nph (mp_ocp mp) * nvars mp)%nat ->
    (forall ph, (ph < o_nph (mp_ocp mp))%nat -> samples mp rs (width mp p ph) (Ps ph) (user_traj mp z ph)) ->
    exists n, nlp_at mp z p = Ok n /\ feasible n /\
      forall Ls, (forall ph, (ph < o_nph (mp_ocp mp))%nat -> run_poly (mp_ocp mp) ph (Ps ph) (Ls ph)) ->
        cf_scheme (mp_cf mp) = "LGR"%string /\
          (forall ph q, (ph < o_nph (mp_ocp mp))%nat -> In q (mp_orders mp) -> (2 <= q)%nat /\ (length (Ls ph) <= 2 * q - 1)%nat) \/
        length (mp_orders mp) = 1%nat /\ (forall ph q, (ph < o_nph (mp_ocp mp))%nat -> In q (mp_orders mp) -> (length (Ls ph) <= S q)%nat) ->
        n_f n = Rsum (o_nph (mp_ocp mp)) (fun ph => exact_cost (mp_ocp mp) ph (Ps ph) (Ls ph)).
Proof. exact exact_thm. Qed.
Print Assumptions C59_exact_solution.
(** the moon lander of the tests has a feasible point on every LGR mesh of orders at least 4 *)
Theorem C59_lander : forall cf K orders p, cfg_ok cf -> (1 <= K)%nat -> length orders = K -> cf_scheme cf = "LGR"%string -> widths_ok K 1 p ->
  (forall q, In q orders -> (4 <= q)%nat) ->
  exists z n, length z = nvars (Mpo lander K orders cf) /\ nlp_at (Mpo lander K orders cf) z p = Ok n /\ feasible n /\ n_f n = 19 / 2.
Proof. exact lander_feasible. Qed.
Print Assumptions C59_lander.
(** two phases with a jump, orders 2 and 3, unequal widths *)
Example C59_case : exists rs z n, mapM (c_roots (mp_cf hop_mp)) (mp_orders hop_mp) = Ok rs /\
  (forall ph, (ph < 2)%nat -> samples hop_mp rs (width hop_mp hop_p ph) (hopping ph) (user_traj hop_mp z ph)) /\
  nlp_at hop_mp z hop_p = Ok n /\ feasible n /\ n_f n = 35 / 12.
Proof. exact hop_case. Qed.
