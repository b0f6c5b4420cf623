(** Property C72: which solutions a convex problem has. *)
From Coq Require Import String Reals List Arith.
From Verif Require Import Num PyList Ocp Colloc Transcribe Spec SpecOcp SpecHadapt SpecConvex SpecCoord SpecUnique NumR UniqueR ExGlide ExUnique.
Import ListNotations.
Open Scope R_scope.
Open Scope list_scope.

(** * C72 *)
(** the solutions of a convex problem with fixed end times are a convex set, on every mesh *)
Theorem C72_convex_set : forall (mp : mpo Rnum) npath nterm p, mpo_ok mp -> ocp_ok (mp_ocp mp) npath nterm -> scales_pos (mp_ocp mp) ->
  widths_ok (mp_nseg mp) (o_nph (mp_ocp mp)) p ->
  (forall ph, (ph < o_nph (mp_ocp mp))%nat -> convex_phase (mp_ocp mp) ph) -> (forall ph, (ph < o_nph (mp_ocp mp))%nat -> fixed_times (mp_ocp mp) ph) ->
  forall lam (z z' : list R), 0 <= lam <= 1 -> length z = (o_nph (mp_ocp mp) * nvars mp)%nat -> length z' = (o_nph (mp_ocp mp) * nvars mp)%nat ->
  best mp p z -> best mp p z' -> best mp p (mixl lam z z').
Proof. exact best_convex. Qed.
Print Assumptions C72_convex_set.
(** where the running cost is strictly convex in the sense [D], two solutions never differ in that sense at a node
    that has a weight; in particular a cost strictly convex in the controls fixes the controls there *)
Theorem C72_nodes : forall (mp : mpo Rnum) npath nterm p, mpo_ok mp -> ocp_ok (mp_ocp mp) npath nterm -> scales_pos (mp_ocp mp) ->
  widths_ok (mp_nseg mp) (o_nph (mp_ocp mp)) p ->
  (forall ph, (ph < o_nph (mp_ocp mp))%nat -> convex_phase (mp_ocp mp) ph) -> (forall ph, (ph < o_nph (mp_ocp mp))%nat -> fixed_times (mp_ocp mp) ph) ->
  forall (z z' : list R) ph D, length z = (o_nph (mp_ocp mp) * nvars mp)%nat -> length z' = (o_nph (mp_ocp mp) * nvars mp)%nat ->
  best mp p z -> best mp p z' -> (ph < o_nph (mp_ocp mp))%nat -> lasting (mp_ocp mp) ph -> strict_run (mp_ocp mp) ph D ->
  forall i, (i < total_nodes (mp_orders mp))%nat -> weighted mp i ->
  let y := user_traj mp z ph in let y' := user_traj mp z' ph in
  ~ D (vec (o_nx (mp_ocp mp)) (y_x y i)) (vec (o_nu (mp_ocp mp)) (y_u y i)) (vec (o_nx (mp_ocp mp)) (y_x y' i)) (vec (o_nu (mp_ocp mp)) (y_u y' i)).
Proof. exact nodes_thm. Qed.
Print Assumptions C72_nodes.
(** strictly convex in states and controls, no parameters, all nodes weighted: there is at most one solution *)
Theorem C72_unique : forall (mp : mpo Rnum) npath nterm p, mpo_ok mp -> ocp_ok (mp_ocp mp) npath nterm -> scales_pos (mp_ocp mp) ->
  widths_ok (mp_nseg mp) (o_nph (mp_ocp mp)) p ->
  (forall ph, (ph < o_nph (mp_ocp mp))%nat -> convex_phase (mp_ocp mp) ph) -> (forall ph, (ph < o_nph (mp_ocp mp))%nat -> fixed_times (mp_ocp mp) ph) ->
  o_na (mp_ocp mp) = 0%nat -> (forall ph, (ph < o_nph (mp_ocp mp))%nat -> lasting (mp_ocp mp) ph /\ strict_both (mp_ocp mp) ph) -> weighted mp 0 ->
  forall z z' : list R, length z = (o_nph (mp_ocp mp) * nvars mp)%nat -> length z' = (o_nph (mp_ocp mp) * nvars mp)%nat ->
  best mp p z -> best mp p z' -> z = z'.
Proof. exact unique_thm. Qed.
Print Assumptions C72_unique.
(** the last hypothesis cannot be left out: with LGR and a first segment of order 2 or more the first control of a
    strictly convex problem can have any value in a solution *)
Theorem C72_first_control_refuted : forall cf K orders p, cfg_ok cf -> (1 <= K)%nat -> length orders = K -> (forall q, In q orders -> (1 <= q)%nat) -> widths_ok K 1 p ->
  cf_scheme cf = "LGR"%string -> (2 <= nth 0 orders 0)%nat ->
  exists o, let mp := Mpo o K orders cf in mpo_ok mp /\ ocp_ok o (fun _ => None) (fun _ => None) /\ scales_pos o /\ o_nph o = 1%nat /\ o_na o = 0%nat /\
    convex_phase o 0 /\ fixed_times o 0 /\ lasting o 0 /\ strict_both o 0 /\
    forall v, exists z : list R, length z = nvars mp /\ best mp p z /\ y_u (user_traj mp z 0) 0 0 = v.
Proof. exact first_control. Qed.
Print Assumptions C72_first_control_refuted.
(** the cart of C60, whose cost is strictly convex in the control only, has exactly one solution for every scheme and
    mesh of orders at least 4 *)
Theorem C72_cart : forall cf K orders p, cfg_ok cf -> (1 <= K)%nat -> length orders = K -> (forall q, In q orders -> (4 <= q)%nat) -> widths_ok K 1 p ->
  exists z : list R, (length z = nvars (Mpo glide K orders cf) /\ best (Mpo glide K orders cf) p z) /\
    forall z' : list R, length z' = nvars (Mpo glide K orders cf) -> best (Mpo glide K orders cf) p z' -> z' = z.
Proof. exact glide_one. Qed.
Print Assumptions C72_cart.
(** a problem that meets the hypotheses of C72_unique and has a solution *)
Example C72_case : forall cf K orders p, cfg_ok cf -> (1 <= K)%nat -> length orders = K -> (forall q, In q orders -> (1 <= q)%nat) -> widths_ok K 1 p ->
  cf_scheme cf <> "LGR"%string \/ nth 0 orders 0%nat = 1%nat ->
  exists z : list R, (length z = nvars (Mpo idle_cost K orders cf) /\ best (Mpo idle_cost K orders cf) p z) /\
    forall z' : list R, length z' = nvars (Mpo idle_cost K orders cf) -> best (Mpo idle_cost K orders cf) p z' -> z' = z.
Proof. exact idle_one. Qed.
Example C72_case_nodes : strict_controls glide 0 /\ lasting glide 0.
Proof. exact (conj glide_strict glide_lasting). Qed.
