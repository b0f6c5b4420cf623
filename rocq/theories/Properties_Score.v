(** Property C88: costs measured on another scale. *)
From Coq Require Import Reals Arith Lia Lra String List.
From Verif Require Import Num PyList Mat Poly Roots Colloc Ocp Transcribe Spec SpecOcp SpecCoord SpecLocal SpecScore NumR ScoreR ExOcp BesideR ExScore.
Import ListNotations.
Open Scope R_scope.
Open Scope list_scope.

(** * C88 *)
(** a function of the only terminal cost: the same points are feasible, and the objective is that function of the objective *)
Theorem C88_score : forall (mp : mpo Rnum) npath nterm np' nt' ph0 g mayer (z p : list R), let o := mp_ocp mp in let o' := with_functions o (o_dyn o) (o_path o) mayer (o_run o) (o_term o) in
  input_ok mp npath nterm z p -> ocp_ok o' np' nt' -> one_cost o ph0 -> scored o (fun ph => Nat.eqb ph ph0) g mayer ->
  exists n n', nlp_at mp z p = Ok n /\ nlp_at (with_ocp mp o') z p = Ok n' /\ (feasible n' <-> feasible n) /\ n_f n' = g (n_f n).
Proof. exact score_thm. Qed.
Print Assumptions C88_score.
(** if it is increasing where the objectives of feasible points are, the same points are solutions *)
Theorem C88_solutions : forall (mp : mpo Rnum) npath nterm np' nt' ph0 g mayer (D : R -> Prop) (z p : list R), let o := mp_ocp mp in let o' := with_functions o (o_dyn o) (o_path o) mayer (o_run o) (o_term o) in
  input_ok mp npath nterm z p -> ocp_ok o' np' nt' -> one_cost o ph0 -> scored o (fun ph => Nat.eqb ph ph0) g mayer ->
  (forall (z1 : list R) n1, length z1 = length z -> nlp_at mp z1 p = Ok n1 -> feasible n1 -> D (n_f n1)) -> (forall v w, D v -> D w -> v < w -> g v < g w) ->
  (best (with_ocp mp o') p z <-> best mp p z).
Proof. exact score_best. Qed.
Print Assumptions C88_solutions.
(** not so when there is a running cost too *)
Theorem C88_running_refuted : exists (mp : mpo Rnum) npath nterm np' nt' g mayer (z p : list R), let o := mp_ocp mp in let o' := with_functions o (o_dyn o) (o_path o) mayer (o_run o) (o_term o) in
  input_ok mp npath nterm z p /\ ocp_ok o' np' nt' /\ o_nph o = 1%nat /\ scored o (fun ph => Nat.eqb ph 0) g mayer /\ (forall v w, v < w -> g v < g w) /\
  best mp p z /\ ~ best (with_ocp mp o') p z.
Proof.
  set (id := fun t : R => t). set (g := fun v : R => 3 * v). pose (z := timed_z 1). destruct (timed_rest id (-2) 1 ltac:(lra)) as (Lz & n & En & F & C). fold z in Lz, En.
  exists (timed_mp id (-2)), (fun _ => None), (fun _ => None), (fun _ => None), (fun _ => None), g, (timed_mayer (fun t => g (id t))), z, [1]. intros o o'.
  split; [exact (timed_in id (-2) z Lz)|]. split; [exact (timed_ok (fun t => g (id t)) (-2))|]. split; [reflexivity|]. split; [apply timed_scored; reflexivity|]. split; [intros v w H; unfold g; lra|]. split.
  - exists n. split; [exact En|]. split; [exact F|]. intros z1 n1 L1 E1 F1. destruct (timed_value id (-2) z1 n1 (eq_trans L1 Lz) E1 F1) as (t & Ht & E). rewrite C, E. unfold id. lra.
  - change (with_ocp (timed_mp id (-2)) o') with (timed_mp (fun t => g (id t)) (-2)). intros (m & Em & Fm & B).
    destruct (timed_rest (fun t => g (id t)) (-2) 0 ltac:(lra)) as (L0 & n0 & E0 & F0 & C0). pose proof (B _ n0 (eq_trans L0 (eq_sym Lz)) E0 F0) as Y.
    assert (Cm : n_f m = 1).
    { destruct (timed_rest (fun t => g (id t)) (-2) 1 ltac:(lra)) as (_ & m' & Em' & _ & Cm'). fold z in Em'. rewrite <- (same_ok _ _ _ _ _ Em Em') in Cm'. rewrite Cm'. unfold g, id. lra. }
    rewrite Cm, C0 in Y. unfold g, id in Y. lra.
Qed.
Print Assumptions C88_running_refuted.
(** the final time, and its square: objectives of feasible points are not negative *)
Example C88_case : let id := fun t : R => t in let g := fun v : R => v * v in let mp := timed_mp id 0 in let o := mp_ocp mp in let mayer := timed_mayer (fun t => g (id t)) in
  (exists n, input_ok mp (fun _ => None) (fun _ => None) (timed_z (1 / 2)) [1] /\ nlp_at mp (timed_z (1 / 2)) [1] = Ok n /\ feasible n) /\
  ocp_ok (with_functions o (o_dyn o) (o_path o) mayer (o_run o) (o_term o)) (fun _ => None) (fun _ => None) /\ one_cost o 0 /\ scored o (fun ph => Nat.eqb ph 0) g mayer /\
  (forall (z1 : list R) n1, length z1 = length (timed_z (1 / 2)) -> nlp_at mp z1 [1] = Ok n1 -> feasible n1 -> 0 <= n_f n1) /\ (forall v w, 0 <= v -> 0 <= w -> v < w -> g v < g w).
Proof.
  intros id g mp o mayer. destruct (timed_rest id 0 (1 / 2) ltac:(lra)) as (Lz & n & En & F & _).
  split; [exists n; split; [exact (timed_in id 0 _ Lz)|split; [exact En|exact F]]|]. split; [exact (timed_ok (fun t => g (id t)) 0)|]. split; [exact (timed_one id)|]. split; [apply timed_scored; reflexivity|]. split.
  - intros z1 n1 L1 E1 F1. destruct (timed_value id 0 z1 n1 (eq_trans L1 Lz) E1 F1) as (t & Ht & ->). unfold id. lra.
  - intros v w Hv Hw H. unfold g. apply Rmult_le_0_lt_compat; lra.
Qed.
