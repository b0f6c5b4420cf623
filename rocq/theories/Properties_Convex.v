(** Properties C60 and C61: convex problems and lower bounds on the cost. *)
From Coq Require Import String Reals List Arith.
From Verif Require Import Num PyList Ocp Colloc Transcribe Spec SpecOcp SpecHadapt SpecExact SpecConvex SpecDual NumR WeightR ChebR ConvexR DualR ExOcp ExGlide ExDual.
Import ListNotations.
Open Scope R_scope.
Open Scope list_scope.

(** * C60 *)
(** convex problems with fixed end times: the feasible set is convex on every mesh, and the objective is convex on it *)
Theorem C60_convex : forall (mp : mpo Rnum) npath nterm p, mpo_ok mp -> ocp_ok (mp_ocp mp) npath nterm -> scales_pos (mp_ocp mp) ->
  widths_ok (mp_nseg mp) (o_nph (mp_ocp mp)) p ->
  (forall ph, (ph < o_nph (mp_ocp mp))%nat -> convex_phase (mp_ocp mp) ph) -> (forall ph, (ph < o_nph (mp_ocp mp))%nat -> fixed_times (mp_ocp mp) ph) ->
  forall lam (z z' : list R), 0 <= lam <= 1 -> length z = (o_nph (mp_ocp mp) * nvars mp)%nat -> length z' = (o_nph (mp_ocp mp) * nvars mp)%nat ->
  exists n n' m, nlp_at mp z p = Ok n /\ nlp_at mp z' p = Ok n' /\ nlp_at mp (mixl lam z z') p = Ok m /\
    (feasible n -> feasible n' -> feasible m /\ n_f m <= mix lam (n_f n) (n_f n')).
Proof. exact convex_thm. Qed.
Print Assumptions C60_convex.
(** then a local minimum is a global one *)
Theorem C60_local_is_global : forall (mp : mpo Rnum) npath nterm p, mpo_ok mp -> ocp_ok (mp_ocp mp) npath nterm -> scales_pos (mp_ocp mp) ->
  widths_ok (mp_nseg mp) (o_nph (mp_ocp mp)) p ->
  (forall ph, (ph < o_nph (mp_ocp mp))%nat -> convex_phase (mp_ocp mp) ph) -> (forall ph, (ph < o_nph (mp_ocp mp))%nat -> fixed_times (mp_ocp mp) ph) ->
  forall (z : list R) n eps, length z = (o_nph (mp_ocp mp) * nvars mp)%nat -> nlp_at mp z p = Ok n -> feasible n -> 0 < eps ->
  (forall (z1 : list R) n1, close eps z z1 -> nlp_at mp z1 p = Ok n1 -> feasible n1 -> n_f n <= n_f n1) ->
  forall (z' : list R) n', length z' = (o_nph (mp_ocp mp) * nvars mp)%nat -> nlp_at mp z' p = Ok n' -> feasible n' -> n_f n <= n_f n'.
Proof. exact local_global. Qed.
Print Assumptions C60_local_is_global.
(** the weights: positive for LGL and CGL; for LGR positive but for the first one, which is 0 from order 2 on *)
Theorem C60_LGR_weights : forall cf q, cfg_ok cf -> cf_scheme cf = "LGR"%string -> (1 <= q)%nat ->
  exists w, quad_weights cf q (cf_tau0 cf) (cf_tau1 cf) = Ok w /\ length w = S q /\
    (if Nat.eqb q 1 then 0 < nth 0 w 0 else nth 0 w 0 = 0) /\ forall j, (1 <= j <= q)%nat -> 0 < nth j w 0.
Proof. exact lgr_positive. Qed.
Print Assumptions C60_LGR_weights.
Theorem C60_LGL_weights : forall cf q, cfg_ok cf -> cf_scheme cf = "LGL"%string -> (1 <= q)%nat ->
  exists w, quad_weights cf q (cf_tau0 cf) (cf_tau1 cf) = Ok w /\ length w = S q /\ forall j, (j <= q)%nat -> 0 < nth j w 0.
Proof. exact lgl_positive. Qed.
Print Assumptions C60_LGL_weights.
Theorem C60_CGL_weights : forall cf q, cfg_ok cf -> cf_scheme cf = "CGL"%string -> (1 <= q)%nat ->
  exists w, quad_weights cf q (cf_tau0 cf) (cf_tau1 cf) = Ok w /\ length w = S q /\ forall j, (j <= q)%nat -> 0 < nth j w 0.
Proof. exact cgl_positive. Qed.
Print Assumptions C60_CGL_weights.
Theorem C60_weights_nonneg : forall mp : mpo Rnum, mpo_ok mp -> weights_nonneg mp.
Proof. exact weights_nonneg_ok. Qed.
Print Assumptions C60_weights_nonneg.
(** with a free end time the line between two feasible points can leave the feasible set *)
Theorem C60_free_time_refuted : exists mp npath nterm p (z z' : list R) n n' m,
  mpo_ok mp /\ ocp_ok (mp_ocp mp) npath nterm /\ scales_pos (mp_ocp mp) /\ widths_ok (mp_nseg mp) (o_nph (mp_ocp mp)) p /\
  (forall ph, (ph < o_nph (mp_ocp mp))%nat -> convex_phase (mp_ocp mp) ph) /\
  length z = (o_nph (mp_ocp mp) * nvars mp)%nat /\ length z' = (o_nph (mp_ocp mp) * nvars mp)%nat /\
  nlp_at mp z p = Ok n /\ nlp_at mp z' p = Ok n' /\ nlp_at mp (mixl (1 / 2) z z') p = Ok m /\ feasible n /\ feasible n' /\ ~ feasible m.
Proof. exact sprint_bent. Qed.
Print Assumptions C60_free_time_refuted.
(** a problem that meets the hypotheses, and feasible points of its programs with different costs *)
Example C60_case : forall ph, (ph < o_nph glide)%nat -> convex_phase glide ph /\ fixed_times glide ph.
Proof. intros ph H. split; [exact (glide_convex ph H)|exact (glide_fixed ph H)]. Qed.
Example C60_case_points : forall cf K orders p, cfg_ok cf -> (1 <= K)%nat -> length orders = K -> (forall q, In q orders -> (1 <= q)%nat) -> widths_ok K 1 p ->
  forall c, 0 <= c <= 1 -> (forall q, In q orders -> (4 <= q)%nat) ->
  exists rs z n, mapM (c_roots cf) orders = Ok rs /\ length z = nvars (Mpo glide K orders cf) /\
    samples (Mpo glide K orders cf) rs (width (Mpo glide K orders cf) p 0) (gliding c) (user_traj (Mpo glide K orders cf) z 0) /\
    nlp_at (Mpo glide K orders cf) z p = Ok n /\ feasible n /\ (cf_scheme cf = "LGR"%string -> n_f n = 12 + 4 / 5 * (c * c)).
Proof. exact glide_point. Qed.

(** * C61 *)
(** V(t, x), affine in x with coefficients polynomial in t, growing nowhere faster than the running cost: no
    feasible point of the program costs less than the terminal cost and the growth of V *)
Theorem C61_lower_bound : forall (mp : mpo Rnum) npath nterm (z p : list R) V, input_ok mp npath nterm z p -> widths_ok (mp_nseg mp) (o_nph (mp_ocp mp)) p ->
  cf_scheme (mp_cf mp) = "LGR"%string \/ cf_scheme (mp_cf mp) = "LGL"%string /\ length (mp_orders mp) = 1%nat ->
  (forall q, In q (mp_orders mp) -> (2 <= q)%nat) ->
  (forall ph q, (ph < o_nph (mp_ocp mp))%nat -> In q (mp_orders mp) -> (length (v_c (V ph)) <= 2 * q)%nat) ->
  (forall ph q s, (ph < o_nph (mp_ocp mp))%nat -> In q (mp_orders mp) -> (s < o_nx (mp_ocp mp))%nat -> (length (v_a (V ph) s) <= q)%nat) ->
  exists n, nlp_at mp z p = Ok n /\
  (feasible n -> (forall ph, (ph < o_nph (mp_ocp mp))%nat -> y_t0 (user_traj mp z ph) <= y_tf (user_traj mp z ph)) ->
   (forall ph, (ph < o_nph (mp_ocp mp))%nat -> slower (mp_ocp mp) ph (y_t0 (user_traj mp z ph)) (y_tf (user_traj mp z ph)) (V ph)) ->
   Rsum (o_nph (mp_ocp mp)) (fun ph => bound mp ph (user_traj mp z ph) (V ph)) <= n_f n).
Proof. exact lower_thm. Qed.
Print Assumptions C61_lower_bound.
(** a cart moved with least effort, fixed end time: the least cost is 12 on every LGR mesh of orders at least 4 *)
Theorem C61_glide : forall cf K orders p, cfg_ok cf -> (1 <= K)%nat -> length orders = K -> cf_scheme cf = "LGR"%string -> widths_ok K 1 p ->
  (forall q, In q orders -> (4 <= q)%nat) -> let mp : mpo Rnum := Mpo glide K orders cf in
  (exists (z : list R) n, length z = nvars mp /\ nlp_at mp z p = Ok n /\ feasible n /\ n_f n = 12) /\
  forall z : list R, length z = nvars mp -> exists n, nlp_at mp z p = Ok n /\ (feasible n -> 12 <= n_f n).
Proof. exact glide_least. Qed.
Print Assumptions C61_glide.
(** a free end time: the least cost is 1/2 on every LGR mesh of orders at least 2 *)
Theorem C61_sprint : forall cf K orders p, cfg_ok cf -> (1 <= K)%nat -> length orders = K -> cf_scheme cf = "LGR"%string -> widths_ok K 1 p ->
  (forall q, In q orders -> (2 <= q)%nat) -> let mp : mpo Rnum := Mpo sprint K orders cf in
  (exists (z : list R) n, length z = nvars mp /\ nlp_at mp z p = Ok n /\ feasible n /\ n_f n = 1 / 2) /\
  forall z : list R, length z = nvars mp -> exists n, nlp_at mp z p = Ok n /\ (feasible n -> 1 / 2 <= n_f n).
Proof. exact sprint_least. Qed.
Print Assumptions C61_sprint.
(** not on meshes with segments of order 1: bound 1, cost 3/4 *)
Theorem C61_every_mesh_refuted : exists mp npath nterm z p n V,
  input_ok mp npath nterm z p /\ widths_ok (mp_nseg mp) (o_nph (mp_ocp mp)) p /\ o_nph (mp_ocp mp) = 1%nat /\
  (forall ta tb, slower (mp_ocp mp) 0 ta tb V) /\ length (v_c V) = 2%nat /\ (forall s, length (v_a V s) = 1%nat) /\
  nlp_at mp z p = Ok n /\ feasible n /\ bound mp 0 (user_traj mp z 0) V = 1 /\ n_f n = 3 / 4.
Proof. exact bound_wrong. Qed.
Print Assumptions C61_every_mesh_refuted.
