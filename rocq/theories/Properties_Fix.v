(** Property C89: parameters with given values. *)
From Coq Require Import Reals Arith Lia Lra String List.
From Verif Require Import Num PyList Mat Poly Roots Colloc Ocp Transcribe Spec SpecOcp SpecCoord SpecBeside SpecFix NumR BesideR FixR ExOcp ExFix.
Import ListNotations.
Open Scope R_scope.
Open Scope list_scope.

(** * C89 *)
(** a point is feasible if and only if its last parameters have the given values and the rest of it is feasible for the problem with these put in; the objective is the same *)
Theorem C89_fix : forall (mp : mpo Rnum) q al npath nterm np' nt' (z z' p : list R), let o := mp_ocp mp in let mp' := with_ocp mp (reparam o q) in
  input_ok mp npath nterm z p -> input_ok mp' np' nt' z' p -> put_in o q al -> same_but mp mp' z z' ->
  exists n n', nlp_at mp z p = Ok n /\ nlp_at mp' z' p = Ok n' /\ (feasible n <-> feasible n' /\ has_given o q al (user_traj mp z)) /\ (has_given o q al (user_traj mp z) -> n_f n' = n_f n).
Proof. exact fix_thm. Qed.
Print Assumptions C89_fix.
(** every point of one problem has a counterpart in the other *)
Theorem C89_drop : forall (mp : mpo Rnum) q np' nt' (z : list R), let mp' := with_ocp mp (reparam (mp_ocp mp) q) in ocp_ok (mp_ocp mp') np' nt' -> scales_pos (mp_ocp mp') ->
  exists z' : list R, length z' = (o_nph (mp_ocp mp') * nvars mp')%nat /\ same_but mp mp' z z'.
Proof. exact fix_drop. Qed.
Print Assumptions C89_drop.
Theorem C89_add : forall (mp : mpo Rnum) q al npath nterm (z' : list R), let mp' := with_ocp mp (reparam (mp_ocp mp) q) in ocp_ok (mp_ocp mp) npath nterm -> scales_pos (mp_ocp mp) -> put_in (mp_ocp mp) q al ->
  exists z : list R, length z = (o_nph (mp_ocp mp) * nvars mp)%nat /\ same_but mp mp' z z' /\ has_given (mp_ocp mp) q al (user_traj mp z).
Proof. exact fix_add. Qed.
Print Assumptions C89_add.
(** and the solutions are the same *)
Theorem C89_solutions : forall (mp : mpo Rnum) q al npath nterm np' nt' (z z' p : list R), let o := mp_ocp mp in let mp' := with_ocp mp (reparam o q) in
  input_ok mp npath nterm z p -> input_ok mp' np' nt' z' p -> put_in o q al -> same_but mp mp' z z' -> (best mp p z <-> best mp' p z' /\ has_given o q al (user_traj mp z)).
Proof. exact fix_best. Qed.
Print Assumptions C89_solutions.
(** a value within the bounds is not enough: x' = a + b with cost b between 0 and 1, and b = 1 put in *)
Theorem C89_bounds_refuted : exists (mp : mpo Rnum) q al npath nterm np' nt' (z z' p : list R), let o := mp_ocp mp in let mp' := with_ocp mp (reparam o q) in
  input_ok mp npath nterm z p /\ input_ok mp' np' nt' z' p /\ (exists o1, put_in o1 q al /\ o_na o1 = o_na o /\ o_dyn o1 = o_dyn o /\ o_path o1 = o_path o /\ o_run o1 = o_run o /\ o_mayer o1 = o_mayer o /\ o_term o1 = o_term o) /\
  (forall ph i, (ph < o_nph o)%nat -> (i < length (al ph))%nat -> within (bnd ph (o_lba o) (o_na q + i)) (bnd ph (o_uba o) (o_na q + i)) (nth i (al ph) 0)) /\
  same_but mp mp' z z' /\ has_given o q al (user_traj mp z) /\ best mp' p z' /\ ~ best mp p z.
Proof.
  destruct (drift_point 0 1 1 ltac:(lra)) as (Lz & S & n & En & F & C). destruct (drift_point 0 1 0 ltac:(lra)) as (L0 & _ & n0 & E0 & F0 & C0).
  destruct (fix_drop (drift_mp 0 1) (drift_at 1) _ _ (drift_z 1) (drift_at_ok 1) (drift_at_scales 1)) as (z' & Lz' & HS). change (length z' = 1 * nvars (drift_at_mp 1))%nat in Lz'. rewrite Nat.mul_1_l in Lz'.
  exists (drift_mp 0 1), (drift_at 1), (fun _ => [1]), (fun _ => None), (fun _ => None), (fun _ => None), (fun _ => None), (drift_z 1), z', [1]. intros o mp'.
  split; [exact (drift_in 0 1 _ ltac:(lra) Lz)|]. split; [exact (drift_at_in 1 z' Lz')|]. split; [exists (drift 1 1); split; [exact (drift_put 1)|repeat split]|].
  split; [intros [|ph] [|i] Hph Hi; cbn in Hph, Hi; try lia; split; cbn; lra|]. split; [exact HS|].
  assert (G : has_given o (drift_at 1) (fun _ => [1]) (user_traj (drift_mp 0 1) (drift_z 1))).
  { intros [|ph] [|i] Hph Hi; cbn in Hph, Hi; try lia. destruct S as (_ & _ & _ & _ & A). exact (A 1%nat ltac:(cbn; lia)). }
  split; [exact G|]. split.
  - destruct (drift_point 1 1 1 ltac:(lra)) as (_ & _ & n1 & E1 & F1 & _).
    destruct (fix_thm (drift_mp 1 1) (drift_at 1) (fun _ => [1]) _ _ _ _ (drift_z 1) z' [1] (drift_in 1 1 _ ltac:(lra) Lz) (drift_at_in 1 z' Lz') (drift_put 1) HS) as (m & m' & Em & Em' & HF & _).
    rewrite <- (same_ok _ _ _ _ _ E1 Em) in *. apply HF in F1. exists m'. split; [exact Em'|]. split; [exact (proj1 F1)|]. intros z1 n2 L1 E2 _. change (nlp_at (drift_at_mp 1) z1 [1] = Ok n2) in E2.
    rewrite (drift_at_cost 1 z1 n2 (eq_trans L1 Lz') E2), (drift_at_cost 1 z' m' Lz' Em'). apply Rle_refl.
  - intros (m & Em & Fm & B). rewrite <- (same_ok _ _ _ _ _ En Em) in *. pose proof (B _ n0 (eq_trans L0 (eq_sym Lz)) E0 F0) as Y. rewrite C, C0 in Y. lra.
Qed.
Print Assumptions C89_bounds_refuted.
(** the same problem with b given meets the hypotheses *)
Example C89_case : forall c, exists (z z' : list R) n, let mp := drift_mp c c in let mp' := with_ocp mp (reparam (mp_ocp mp) (drift_at c)) in
  input_ok mp (fun _ => None) (fun _ => None) z [1] /\ input_ok mp' (fun _ => None) (fun _ => None) z' [1] /\ put_in (mp_ocp mp) (drift_at c) (fun _ => [c]) /\ same_but mp mp' z z' /\
  nlp_at mp z [1] = Ok n /\ feasible n.
Proof.
  intros c. destruct (drift_point c c c ltac:(lra)) as (Lz & _ & n & En & F & _).
  destruct (fix_drop (drift_mp c c) (drift_at c) _ _ (drift_z c) (drift_at_ok c) (drift_at_scales c)) as (z' & Lz' & HS). change (length z' = 1 * nvars (drift_at_mp c))%nat in Lz'. rewrite Nat.mul_1_l in Lz'.
  exists (drift_z c), z', n. intros mp mp'. split; [exact (drift_in c c _ ltac:(lra) Lz)|]. split; [exact (drift_at_in c z' Lz')|]. split; [exact (drift_put c)|]. split; [exact HS|]. split; [exact En|exact F].
Qed.
