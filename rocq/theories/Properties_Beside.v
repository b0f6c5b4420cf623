(** Property C84: two problems beside each other in one. *)
From Coq Require Import Reals Arith Lia Lra String List.
From Verif Require Import Num PyList Mat Poly Roots Colloc Ocp Transcribe Spec SpecOcp SpecCoord SpecBeside NumR BesideR ExOcp ExBeside.
Import ListNotations.
Open Scope R_scope.
Open Scope list_scope.

(** * C84 *)
(** a point of the joint problem meets its constraints exactly when its parts meet theirs, and the objectives add up *)
Theorem C84_beside : forall (mp : mpo Rnum) (oa ob : ocp Rnum) npath nterm npa nta npb ntb (z za zb p : list R), beside (mp_ocp mp) oa ob ->
  input_ok mp npath nterm z p -> input_ok (with_ocp mp oa) npa nta za p -> input_ok (with_ocp mp ob) npb ntb zb p -> parts mp oa ob z za zb ->
  exists n na nb, nlp_at mp z p = Ok n /\ nlp_at (with_ocp mp oa) za p = Ok na /\ nlp_at (with_ocp mp ob) zb p = Ok nb /\
    n_f n = n_f na + n_f nb /\ (feasible n <-> feasible na /\ feasible nb).
Proof. exact beside_thm. Qed.
Print Assumptions C84_beside.
(** every point of the joint problem has parts *)
Theorem C84_parts : forall (mp : mpo Rnum) (oa ob : ocp Rnum) npa nta npb ntb (z : list R), beside (mp_ocp mp) oa ob -> ocp_ok oa npa nta -> ocp_ok ob npb ntb -> scales_pos oa -> scales_pos ob ->
  exists za zb : list R, length za = (o_nph oa * nvars (with_ocp mp oa))%nat /\ length zb = (o_nph ob * nvars (with_ocp mp ob))%nat /\ parts mp oa ob z za zb.
Proof. exact parts_exist. Qed.
Print Assumptions C84_parts.
(** solutions of the two problems that end at the same times are together a solution of the joint one *)
Theorem C84_join : forall (mp : mpo Rnum) (oa ob : ocp Rnum) npath nterm npa nta npb ntb (z za zb p : list R), beside (mp_ocp mp) oa ob ->
  input_ok mp npath nterm z p -> input_ok (with_ocp mp oa) npa nta za p -> input_ok (with_ocp mp ob) npb ntb zb p -> parts mp oa ob z za zb ->
  best (with_ocp mp oa) p za -> best (with_ocp mp ob) p zb -> best mp p z.
Proof. exact beside_join. Qed.
Print Assumptions C84_join.
(** if a problem gives its times, its part of a solution of the joint problem is a solution of it *)
Theorem C84_split : forall (mp : mpo Rnum) (oa ob : ocp Rnum) npath nterm npa nta npb ntb (z za zb p : list R), beside (mp_ocp mp) oa ob ->
  input_ok mp npath nterm z p -> input_ok (with_ocp mp oa) npa nta za p -> input_ok (with_ocp mp ob) npb ntb zb p -> parts mp oa ob z za zb ->
  best mp p z -> (times_given oa -> best (with_ocp mp oa) p za) /\ (times_given ob -> best (with_ocp mp ob) p zb).
Proof. exact beside_split. Qed.
Print Assumptions C84_split.
(** not so when the times are free: the two problems have to agree on them *)
Theorem C84_times_refuted : exists (mp : mpo Rnum) (oa ob : ocp Rnum) npath nterm npa nta npb ntb (z za zb p : list R), beside (mp_ocp mp) oa ob /\
  input_ok mp npath nterm z p /\ input_ok (with_ocp mp oa) npa nta za p /\ input_ok (with_ocp mp ob) npb ntb zb p /\ parts mp oa ob z za zb /\
  best mp p z /\ ~ best (with_ocp mp oa) p za.
Proof.
  destruct movers_free as (z & za & zb & Lz & La & Lb & HP & HB & HN).
  exists (movers_mp (1 + 1) (1 + -2) 1 2), (movers 1 1 1 2), (movers 1 (-2) 1 2), (fun _ => Some 2%nat), (fun _ => None), (fun _ => Some 1%nat), (fun _ => None), (fun _ => Some 1%nat), (fun _ => None), z, za, zb, [1].
  split; [apply (movers_beside 1 1 1 (-2) 1 2); lra|]. split; [apply (movers_in (1 + 1) (1 + -2) 1 2 z); [lia|lra|exact Lz]|]. split; [apply (movers_in 1 1 1 2 za); [lia|lra|exact La]|].
  split; [apply (movers_in 1 (-2) 1 2 zb); [lia|lra|exact Lb]|]. split; [exact HP|]. split; [exact HB|exact HN].
Qed.
Print Assumptions C84_times_refuted.
(** for any numbers of states, a joint problem with given times, a point of it and its parts, all solutions *)
Example C84_case : forall n m c d t, (1 <= n)%nat -> (1 <= m)%nat -> exists z za zb : list R, let mp := movers_mp (n + m) (c + d) t t in
  beside (mp_ocp mp) (movers n c t t) (movers m d t t) /\ times_given (movers n c t t) /\ times_given (movers m d t t) /\
  input_ok mp (fun _ => Some (n + m)%nat) (fun _ => None) z [1] /\ input_ok (with_ocp mp (movers n c t t)) (fun _ => Some n) (fun _ => None) za [1] /\
  input_ok (with_ocp mp (movers m d t t)) (fun _ => Some m) (fun _ => None) zb [1] /\ parts mp (movers n c t t) (movers m d t t) z za zb /\
  best mp [1] z /\ best (with_ocp mp (movers n c t t)) [1] za /\ best (with_ocp mp (movers m d t t)) [1] zb.
Proof.
  intros n m c d t Hn Hm. destruct (movers_given n m c d t Hn Hm) as (z & za & zb & Lz & La & Lb & HP & HB & HBa & HBb). exists z, za, zb. intros mp.
  split; [apply movers_beside; lra|]. split; [apply movers_times|]. split; [apply movers_times|]. split; [apply movers_in; [lia|lra|exact Lz]|]. split; [apply (movers_in n c t t za); [exact Hn|lra|exact La]|].
  split; [apply (movers_in m d t t zb); [exact Hm|lra|exact Lb]|]. auto.
Qed.
