(** Property C74: bounds that a solution does not touch. *)
From Coq Require Import String Reals List Arith.
From Verif Require Import Num PyList Ocp Colloc Transcribe Spec SpecOcp SpecHadapt SpecConvex SpecCoord SpecValue SpecSlack NumR ExOcp ExTrack ExExist SlackR ExSlack.
Import ListNotations.
Open Scope R_scope.
Open Scope list_scope.

(** * C74 *)
(** change bounds of a convex problem that its solution [z] does not touch: it stays a solution as long as it meets the
    new bounds *)
Theorem C74_untouched : forall (o : ocp Rnum) (l l' : limits) K orders cf npath nterm (p : list R),
  let mp k := Mpo (with_limits o k) K orders cf in
  mpo_ok (mp l) -> ocp_ok (with_limits o l) npath nterm -> ocp_ok (with_limits o l') npath nterm -> scales_pos o -> widths_ok K (o_nph o) p ->
  (forall ph, (ph < o_nph o)%nat -> convex_phase o ph) -> (forall ph, (ph < o_nph o)%nat -> fixed_times o ph) ->
  forall (z : list R) rs n', length z = (o_nph o * nvars (mp l))%nat -> mapM (c_roots cf) orders = Ok rs -> slack (mp l) rs l l' (user_traj (mp l) z) ->
  best (mp l) p z -> nlp_at (mp l') z p = Ok n' -> feasible n' -> best (mp l') p z.
Proof. exact slack_thm. Qed.
Print Assumptions C74_untouched.
(** without convexity it may stop to be one: x' = u with final cost v^2 - v^4 / 2, bounds 1 and 2 *)
Theorem C74_any_cost_refuted : forall K, (1 <= K)%nat ->
  exists o l l' rs (z : list R) n', let mp k := Mpo (with_limits o k) K (repeat 1%nat K) (demo_cf "LGR") in
    mpo_ok (mp l) /\ ocp_ok (with_limits o l) (fun _ => None) (fun _ => None) /\ ocp_ok (with_limits o l') (fun _ => None) (fun _ => None) /\ scales_pos o /\
    widths_ok K (o_nph o) (swing_p K) /\ (forall ph, (ph < o_nph o)%nat -> fixed_times o ph) /\
    length z = (o_nph o * nvars (mp l))%nat /\ mapM (c_roots (demo_cf "LGR")) (repeat 1%nat K) = Ok rs /\ slack (mp l) rs l l' (user_traj (mp l) z) /\
    best (mp l) (swing_p K) z /\ nlp_at (mp l') z (swing_p K) = Ok n' /\ feasible n' /\ ~ best (mp l') (swing_p K) z.
Proof. exact slack_nonconvex. Qed.
Print Assumptions C74_any_cost_refuted.
(** a problem that meets the hypotheses: x' = u with cost v^2 and bounds a < 0 < b of state and control, replaced by any others *)
Example C74_case : forall a b lo' hi' K rs, (1 <= K)%nat -> a < 0 -> 0 < b ->
  let o := drift (Fin a) (Fin b) square in let mp := drift_mp (Fin a) (Fin b) square K in let z := rest (Fin a) (Fin b) square K in
  (forall ph, (ph < 1)%nat -> convex_phase o ph /\ fixed_times o ph) /\ with_limits o (drift_limits (Fin a) (Fin b)) = o /\
  slack mp rs (drift_limits (Fin a) (Fin b)) (drift_limits lo' hi') (user_traj mp z) /\
  length z = nvars mp /\ best mp (swing_p K) z.
Proof.
  intros a b lo' hi' K rs HK Ha Hb o mp z. split; [intros ph H; exact (conj (drift_convex _ _ ph H) (drift_fixed _ _ _ ph H))|]. split; [reflexivity|].
  split; [exact (drift_slack a b lo' hi' square K rs HK Ha Hb)|]. apply (rest_best _ _ square K HK (around1 a b (Rlt_le _ _ Ha) (Rlt_le _ _ Hb))).
  intros v _. unfold square. rewrite Rmult_0_l. exact (Rle_0_sqr v).
Qed.
