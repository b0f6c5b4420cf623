(** Property C81: the phases of a solution solve their own problems. *)
From Coq Require Import String Reals List Arith Lia Lra.
From Verif Require Import Num PyList Ocp Colloc Transcribe Spec SpecOcp SpecCoord SpecTail NumR TailR ExTail.
Import ListNotations.
Open Scope R_scope.
Open Scope list_scope.

(** * C81 *)
(** the problem of a phase alone, from where it starts at a point, is well formed *)
Theorem C81_problem : forall (mp : mpo Rnum) npath nterm (z p : list R) ph, input_ok mp npath nterm z p -> (ph < o_nph (mp_ocp mp))%nat ->
  forall z1 : list R, length z1 = nvars mp -> input_ok (phase_mpo mp z ph) (fun _ => npath ph) (fun _ => nterm ph) z1 (phase_widths mp p ph).
Proof. exact tail_input. Qed.
Print Assumptions C81_problem.
(** every phase of a solution is feasible there, and no feasible point with the same values at the links has a lower objective *)
Theorem C81_phase : forall (mp : mpo Rnum) npath nterm (z p : list R) ph, input_ok mp npath nterm z p -> (ph < o_nph (mp_ocp mp))%nat -> best mp p z ->
  let mp1 := phase_mpo mp z ph in let p1 := phase_widths mp p ph in
  exists (z1 : list R) n1, length z1 = nvars mp /\ same_traj mp1 (user_traj mp1 z1 0) (user_traj mp z ph) /\ nlp_at mp1 z1 p1 = Ok n1 /\ feasible n1 /\
    forall (z2 : list R) n2, length z2 = nvars mp -> nlp_at mp1 z2 p1 = Ok n2 -> feasible n2 -> fits mp ph (user_traj mp z ph) (user_traj mp1 z2 0) -> n_f n1 <= n_f n2.
Proof. exact tail_thm. Qed.
Print Assumptions C81_phase.
(** a phase of a solution that no link touches solves its own problem *)
Theorem C81_unlinked : forall (mp : mpo Rnum) npath nterm (z p : list R) ph, input_ok mp npath nterm z p -> (ph < o_nph (mp_ocp mp))%nat -> best mp p z ->
  ~ entered (mp_ocp mp) ph -> ~ left_by (mp_ocp mp) ph ->
  let mp1 := phase_mpo mp z ph in
  exists z1 : list R, length z1 = nvars mp /\ same_traj mp1 (user_traj mp1 z1 0) (user_traj mp z ph) /\ best mp1 (phase_widths mp p ph) z1.
Proof. exact alone_thm. Qed.
Print Assumptions C81_unlinked.
(** the last phase of a solution does not solve its own problem in general: links fix its first controls too *)
Theorem C81_last_refuted : exists (mp : mpo Rnum) npath nterm (z p : list R) ph (z1 : list R), input_ok mp npath nterm z p /\ (ph < o_nph (mp_ocp mp))%nat /\ best mp p z /\
  ~ left_by (mp_ocp mp) ph /\ length z1 = nvars mp /\
  same_traj (phase_mpo mp z ph) (user_traj (phase_mpo mp z ph) z1 0) (user_traj mp z ph) /\ ~ best (phase_mpo mp z ph) (phase_widths mp p ph) z1.
Proof.
  destruct kick_alone as (z & z1 & Hz & Hb & L & S & N). exists kick_mp, (fun _ => None), (fun _ => None), z, [1; 1], 1%nat, z1.
  split; [exact (kick_in z Hz)|]. split; [cbn; lia|]. split; [exact Hb|]. split; [intros (j & [H|[]]); discriminate H|]. auto.
Qed.
Print Assumptions C81_last_refuted.
(** a two-phase problem and a solution of it *)
Example C81_case : exists z : list R, input_ok kick_mp (fun _ => None) (fun _ => None) z [1; 1] /\ best kick_mp [1; 1] z /\
  same_traj kick_mp (user_traj kick_mp z 1) (moving 1 1 1).
Proof. destruct kick_best as (z & Hz & Hb & HS). exists z. split; [exact (kick_in z Hz)|auto]. Qed.
