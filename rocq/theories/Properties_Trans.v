(** Properties C64, C65 and C66: relaxing a problem, combining costs, shifting a problem in time. *)
From Coq Require Import String Reals List Arith Lra.
From Verif Require Import Num PyList Ocp Colloc Transcribe Spec SpecOcp SpecHadapt SpecTrans NumR TransR ExOcp ExTrans.
Import ListNotations.
Open Scope R_scope.
Open Scope list_scope.

(** * C64 *)
(** relaxing bounds and constraints loses no feasible point, on any mesh *)
Theorem C64_relaxed : forall (mp : mpo Rnum) o' npath nterm npath' nterm' (z p : list R),
  input_ok mp npath nterm z p -> ocp_ok o' npath' nterm' -> relaxed (mp_ocp mp) o' ->
  exists n n', nlp_at mp z p = Ok n /\ nlp_at (Mpo o' (mp_nseg mp) (mp_orders mp) (mp_cf mp)) z p = Ok n' /\ (feasible n -> feasible n').
Proof. exact relax_thm. Qed.
Print Assumptions C64_relaxed.
(** a problem that is nowhere more expensive has nowhere a larger objective, as long as time goes forward *)
Theorem C64_cheaper : forall (mp : mpo Rnum) o' npath nterm npath' nterm' (z p : list R),
  input_ok mp npath nterm z p -> ocp_ok o' npath' nterm' -> same_vars (mp_ocp mp) o' ->
  widths_ok (mp_nseg mp) (o_nph (mp_ocp mp)) p -> cheaper (mp_ocp mp) o' ->
  (forall ph, (ph < o_nph (mp_ocp mp))%nat -> y_t0 (user_traj mp z ph) <= y_tf (user_traj mp z ph)) ->
  exists n n', nlp_at mp z p = Ok n /\ nlp_at (Mpo o' (mp_nseg mp) (mp_orders mp) (mp_cf mp)) z p = Ok n' /\ n_f n' <= n_f n.
Proof. exact cheaper_thm. Qed.
Print Assumptions C64_cheaper.
(** so a bound on the cost of the relaxed problem is one for the problem *)
Theorem C64_bound : forall (mp : mpo Rnum) o' npath nterm npath' nterm' (p : list R) L,
  mpo_ok mp -> ocp_ok (mp_ocp mp) npath nterm -> scales_pos (mp_ocp mp) -> ocp_ok o' npath' nterm' ->
  widths_ok (mp_nseg mp) (o_nph (mp_ocp mp)) p -> relaxed (mp_ocp mp) o' -> cheaper (mp_ocp mp) o' ->
  (forall (z : list R) n', length z = (o_nph (mp_ocp mp) * nvars mp)%nat ->
     nlp_at (Mpo o' (mp_nseg mp) (mp_orders mp) (mp_cf mp)) z p = Ok n' -> feasible n' -> L <= n_f n') ->
  forall (z : list R) n, length z = (o_nph (mp_ocp mp) * nvars mp)%nat ->
    (forall ph, (ph < o_nph (mp_ocp mp))%nat -> y_t0 (user_traj mp z ph) <= y_tf (user_traj mp z ph)) ->
    nlp_at mp z p = Ok n -> feasible n -> L <= n_f n.
Proof. exact bound_thm. Qed.
Print Assumptions C64_bound.
(** problems that meet the hypotheses, with and without bounds on the slopes of the control, and a feasible point *)
Example C64_case : relaxed (cart 0 4 50 2 3 1 true) (cart 0 9 60 1 3 0 false) /\ cheaper (cart 0 4 50 2 3 1 true) (cart 0 9 60 1 3 0 false).
Proof. split; [apply cart_relaxed; lra|apply cart_cheaper; lra]. Qed.
Example C64_case_points : forall s alpha beta gamma cf K orders p, let mp := Mpo (cart s 4 50 alpha beta gamma false) K orders cf in
  mpo_ok mp -> widths_ok K 1 p -> (forall q, In q orders -> (3 <= q)%nat) ->
  ocp_ok (mp_ocp mp) cart_npath cart_nterm /\ scales_pos (mp_ocp mp) /\
  exists (z : list R) n, length z = (1 * nvars mp)%nat /\ nlp_at mp z p = Ok n /\ feasible n.
Proof.
  intros s alpha beta gamma cf K orders p mp Hm Hw Hq.
  split; [apply cart_ok; lra|]. split; [apply cart_scales|]. exact (cart_point s alpha beta gamma cf K orders p Hm Hw Hq).
Qed.

(** * C65 *)
(** the objective is linear in the running and terminal costs; constants in the terminal costs are added to it *)
Theorem C65_combined : forall (mp : mpo Rnum) o1 o2 alpha beta gamma npath nterm npath1 nterm1 npath2 nterm2 (z p : list R),
  input_ok mp npath nterm z p -> ocp_ok o1 npath1 nterm1 -> ocp_ok o2 npath2 nterm2 ->
  same_vars (mp_ocp mp) o1 -> same_vars (mp_ocp mp) o2 -> combined alpha beta gamma o1 o2 (mp_ocp mp) ->
  exists n n1 n2, nlp_at mp z p = Ok n /\ nlp_at (Mpo o1 (mp_nseg mp) (mp_orders mp) (mp_cf mp)) z p = Ok n1 /\
    nlp_at (Mpo o2 (mp_nseg mp) (mp_orders mp) (mp_cf mp)) z p = Ok n2 /\
    n_f n = alpha * n_f n1 + beta * n_f n2 + Rsum (o_nph (mp_ocp mp)) gamma.
Proof. exact combined_thm. Qed.
Print Assumptions C65_combined.
Example C65_case : combined 2 3 (fun _ => 7) (cart 0 4 50 1 0 0 true) (cart 0 4 50 0 1 0 true) (cart 0 4 50 2 3 7 true) /\
  same_vars (cart 0 4 50 2 3 7 true) (cart 0 4 50 1 0 0 true).
Proof. split; [exact (cart_combined 0 4 50 2 3 7 true)|apply cart_same]. Qed.

(** * C66 *)
(** a problem started later: points shifted in time are feasible together and cost the same *)
Theorem C66_later : forall (mp : mpo Rnum) o' s npath nterm npath' nterm' (z z' p : list R),
  input_ok mp npath nterm z p -> ocp_ok o' npath' nterm' -> later s (mp_ocp mp) o' -> length z' = length z -> shifted s mp z z' ->
  exists n n', nlp_at mp z p = Ok n /\ nlp_at (Mpo o' (mp_nseg mp) (mp_orders mp) (mp_cf mp)) z' p = Ok n' /\
    (feasible n <-> feasible n') /\ n_f n' = n_f n.
Proof. exact later_thm. Qed.
Print Assumptions C66_later.
Theorem C66_shifted_exists : forall (mp : mpo Rnum) s npath nterm (z p : list R), input_ok mp npath nterm z p ->
  exists z', length z' = length z /\ shifted s mp z z'.
Proof. exact shifted_exists. Qed.
Print Assumptions C66_shifted_exists.
Example C66_case : forall s, later s (cart 0 4 50 2 3 7 true) (cart s 4 50 2 3 7 true) /\ ocp_ok (cart s 4 50 2 3 7 true) cart_npath cart_nterm.
Proof. intros s. split; [apply cart_later|apply cart_ok; lra]. Qed.
