(** Property C76: problems with linear equations. *)
From Coq Require Import String Reals List Arith Lia Lra.
From Verif Require Import Num PyList Ocp Colloc Transcribe Spec SpecOcp SpecHadapt SpecResid SpecExact SpecLinear SpecCoord NumR ScaleR ExOcp ExTrack ExExist LinearR ExLinear.
Import ListNotations.
Open Scope R_scope.
Open Scope list_scope.

(** * C76 *)
(** right-hand sides linear in states, controls and time: for every feasible point, the polynomials of a segment miss the
    differential equation by a multiple of the product of (tau - node) over the nodes but the first one, and on the first
    segment they satisfy it everywhere *)
Theorem C76_defects : forall (mp : mpo Rnum) npath nterm (z p : list R),
  input_ok mp npath nterm z p -> (forall ph, (ph < o_nph (mp_ocp mp))%nat -> linear_dyn (mp_ocp mp) ph) ->
  exists rs n, mapM (c_roots (mp_cf mp)) (mp_orders mp) = Ok rs /\ nlp_at mp z p = Ok n /\
    (feasible n -> forall ph k cx cu s, (ph < o_nph (mp_ocp mp))%nat -> (k < length (mp_orders mp))%nat -> (s < o_nx (mp_ocp mp))%nat ->
       seg_polys mp rs (user_traj mp z ph) k cx cu ->
       exists C, (k = 0%nat -> C = 0) /\ forall tau, defect mp (width mp p ph) ph (user_traj mp z ph) k cx cu s tau = C * vanish (tl (nth k rs [])) tau).
Proof. exact defect_thm. Qed.
Print Assumptions C76_defects.
(** one segment: feasible points are the node values of polynomials in time that solve the differential equation; where these
    meet bounds and path constraints between the nodes too, their values are feasible on every mesh of at least this order,
    at the same cost if the running cost is linear *)
Theorem C76_one_segment : forall (o : ocp Rnum) (q : nat) (cf : ccfg Rnum) npath nterm (p : list R), let mp := Mpo o 1 [q] cf in
  mpo_ok mp -> ocp_ok o npath nterm -> scales_pos o -> widths_ok 1 (o_nph o) p -> (forall ph, (ph < o_nph o)%nat -> linear_dyn o ph) ->
  forall (z : list R) n, length z = (o_nph o * nvars mp)%nat -> nlp_at mp z p = Ok n -> feasible n ->
  (forall ph, (ph < o_nph o)%nat -> y_t0 (user_traj mp z ph) < y_tf (user_traj mp z ph)) ->
  exists rs Ps, mapM (c_roots cf) [q] = Ok rs /\
    (forall ph, (ph < o_nph o)%nat -> samples mp rs (width mp p ph) (Ps ph) (user_traj mp z ph) /\ resolved mp (Ps ph) /\ satisfies o ph (Ps ph)) /\
    (no_slopes o -> (forall ph, (ph < o_nph o)%nat -> inside o ph (Ps ph)) ->
     forall K orders cf' (p' : list R), let mp' := Mpo o K orders cf' in mpo_ok mp' -> widths_ok K (o_nph o) p' -> (forall q', In q' orders -> (q <= q')%nat) ->
     exists rs' (z' : list R) n', mapM (c_roots cf') orders = Ok rs' /\ length z' = (o_nph o * nvars mp')%nat /\
       (forall ph, (ph < o_nph o)%nat -> samples mp' rs' (width mp' p' ph) (Ps ph) (user_traj mp' z' ph)) /\
       nlp_at mp' z' p' = Ok n' /\ feasible n' /\
       ((forall ph, (ph < o_nph o)%nat -> linear_run o ph) ->
        cf_scheme cf' = "LGR"%string /\ (forall q', In q' orders -> (2 <= q')%nat) \/ length orders = 1%nat -> n_f n' = n_f n)).
Proof. exact one_thm. Qed.
Print Assumptions C76_one_segment.
(** without bounds on states and controls: the optimal cost of such a mesh is at most that of one segment *)
Theorem C76_finer : forall (o : ocp Rnum) (q : nat) (cf : ccfg Rnum) npath nterm (p : list R) K orders cf' (p' : list R),
  let mp := Mpo o 1 [q] cf in let mp' := Mpo o K orders cf' in
  mpo_ok mp -> mpo_ok mp' -> ocp_ok o npath nterm -> scales_pos o -> widths_ok 1 (o_nph o) p -> widths_ok K (o_nph o) p' ->
  (forall ph, (ph < o_nph o)%nat -> linear_dyn o ph /\ linear_run o ph) -> unbounded o npath -> no_slopes o ->
  (forall q', In q' orders -> (q <= q')%nat) -> cf_scheme cf' = "LGR"%string /\ (forall q', In q' orders -> (2 <= q')%nat) \/ length orders = 1%nat ->
  forall z z' : list R, length z = (o_nph o * nvars mp)%nat -> length z' = (o_nph o * nvars mp')%nat ->
  (forall ph, (ph < o_nph o)%nat -> y_t0 (user_traj mp z ph) < y_tf (user_traj mp z ph)) -> best mp p z -> best mp' p' z' ->
  exists n n', nlp_at mp z p = Ok n /\ nlp_at mp' z' p' = Ok n' /\ n_f n' <= n_f n.
Proof. exact finer_thm. Qed.
Print Assumptions C76_finer.
(** later segments do not satisfy the equation between the nodes: x' = u, at rest on the first of K segments of order 1 *)
Theorem C76_later_segments_refuted : forall (g : R -> R) K, (2 <= K)%nat -> let mp := drift_mp NInf PInf g K in
  exists (z : list R) n rs, input_ok mp (fun _ => None) (fun _ => None) z (swing_p K) /\ nlp_at mp z (swing_p K) = Ok n /\ feasible n /\
    mapM (c_roots (mp_cf mp)) (mp_orders mp) = Ok rs /\
    forall cx cu, seg_polys mp rs (user_traj mp z 0) 1 cx cu -> defect mp (width mp (swing_p K) 0) 0 (user_traj mp z 0) 1 cx cu 0 (-1) <> 0.
Proof. exact late_thm. Qed.
Print Assumptions C76_later_segments_refuted.
(** nor does one segment of a problem that is not linear: x' = u^2 *)
Theorem C76_nonlinear_refuted : exists (z : list R) n rs, input_ok (swing_mp 1) (fun _ => None) (fun _ => None) z (swing_p 1) /\
  nlp_at (swing_mp 1) z (swing_p 1) = Ok n /\ feasible n /\ mapM (c_roots (mp_cf (swing_mp 1))) (mp_orders (swing_mp 1)) = Ok rs /\
  forall cx cu, seg_polys (swing_mp 1) rs (user_traj (swing_mp 1) z 0) 0 cx cu ->
    defect (swing_mp 1) (width (swing_mp 1) (swing_p 1) 0) 0 (user_traj (swing_mp 1) z 0) 0 cx cu 0 0 <> 0.
Proof. exact curved_thm. Qed.
Print Assumptions C76_nonlinear_refuted.
(** a problem that meets the hypotheses: x' = u without bounds and any terminal cost, with a feasible point of the one-segment
    program; the finer meshes can be LGR meshes of any number of segments of any order at least 2 *)
Example C76_case : forall g (v : R) K q, (1 <= K)%nat -> (2 <= q)%nat -> let o := drift NInf PInf g in let mp := Mpo o 1 [1%nat] (demo_cf "LGR") in
  mpo_ok mp /\ ocp_ok o (fun _ => None) (fun _ => None) /\ scales_pos o /\ widths_ok 1 1 (swing_p 1) /\
  (forall ph, (ph < 1)%nat -> linear_dyn o ph /\ linear_run o ph) /\ unbounded o (fun _ => None) /\ no_slopes o /\
  mpo_ok (Mpo o K (repeat q K) (demo_cf "LGR")) /\ widths_ok K 1 (swing_p K) /\
  exists (z : list R) n, length z = nvars mp /\ nlp_at mp z (swing_p 1) = Ok n /\ feasible n.
Proof.
  intros g v K q HK Hq o mp. assert (Ha : around NInf PInf) by (split; left; reflexivity). pose proof (drift_input NInf PInf g 1) as I.
  split; [constructor; cbn; auto; [apply demo_cf_ok; cbn; auto|intros q' [<-|[]]; lia]|]. split; [exact (drift_ok _ _ _ Ha)|]. split; [apply drift_scales|].
  split; [apply swing_widths; lia|]. split; [intros ph H; exact (drift_linear _ _ g ph H)|]. split; [apply drift_unbounded|]. split; [apply drift_slopes|].
  split; [constructor; cbn; auto using repeat_length; [apply demo_cf_ok; cbn; auto|intros q' Hq'; rewrite (repeat_spec _ _ _ Hq'); lia]|].
  split; [apply swing_widths; lia|]. destruct (drift_point NInf PInf g 1 v ltac:(lia) Ha (conj Logic.I Logic.I)) as (z & n & Hz & En & F & _). exists z, n. auto.
Qed.
