(** Property C85: the functions of a problem outside its bounds do not matter. *)
From Coq Require Import Reals Arith Lia Lra String List.
From Verif Require Import Num PyList Mat Poly Roots Colloc Ocp Transcribe Spec SpecOcp SpecCoord SpecLocal NumR LocalR ExOcp ExBeside ExLocal.
Import ListNotations.
Open Scope R_scope.
Open Scope list_scope.

(** * C85 *)
(** functions that agree within the bounds give the same feasible points, with the same objective *)
Theorem C85_feasible : forall (mp : mpo Rnum) dyn path mayer run term npath nterm np' nt' (z p : list R), let o' := with_functions (mp_ocp mp) dyn path mayer run term in
  input_ok mp npath nterm z p -> ocp_ok o' np' nt' -> alike_within (mp_ocp mp) dyn path mayer run term ->
  exists n n', nlp_at mp z p = Ok n /\ nlp_at (with_ocp mp o') z p = Ok n' /\ (feasible n' <-> feasible n) /\ (feasible n -> n_f n' = n_f n).
Proof. exact local_thm. Qed.
Print Assumptions C85_feasible.
(** and the same solutions *)
Theorem C85_solutions : forall (mp : mpo Rnum) dyn path mayer run term npath nterm np' nt' (z p : list R), let o' := with_functions (mp_ocp mp) dyn path mayer run term in
  input_ok mp npath nterm z p -> ocp_ok o' np' nt' -> alike_within (mp_ocp mp) dyn path mayer run term -> (best (with_ocp mp o') p z <-> best mp p z).
Proof. exact local_best. Qed.
Print Assumptions C85_solutions.
(** the initial state of the first phase counts although it may be outside the bounds *)
Theorem C85_start_refuted : exists (mp : mpo Rnum) dyn npath nterm np' nt' (z p : list R) n n', let o := mp_ocp mp in let o' := with_functions o dyn (o_path o) (o_mayer o) (o_run o) (o_term o) in
  input_ok mp npath nterm z p /\ ocp_ok o' np' nt' /\
  (forall ph f g x u t a, nth_error (o_dyn o) ph = Some f -> nth_error dyn ph = Some g -> length x = o_nx o ->
     (forall s, (s < o_nx o)%nat -> within (bnd ph (o_lbx o) s) (bnd ph (o_ubx o) s) (nth s x 0)) -> g x u t a = f x u t a) /\
  nlp_at mp z p = Ok n /\ nlp_at (with_ocp mp o') z p = Ok n' /\ feasible n /\ ~ feasible n'.
Proof.
  set (f := fun x : R => if Rlt_dec x 0 then 1 else 0).
  destruct (late_case (fun _ => 0)) as (z & n & Lz & Ez & En & HF). destruct (late_case f) as (z' & n' & Lz' & Ez' & En' & HF').
  assert (z' = z) as -> by (rewrite Ez, Ez'; reflexivity).
  exists (late_mp (fun _ => 0)), (late_dyn f), (fun _ => None), (fun _ => None), (fun _ => None), (fun _ => None), z, [1], n, n'. intros o o'.
  split; [exact (late_in _ z Lz)|]. split; [exact (late_ok f)|]. split; [|split; [exact En|split; [exact En'|split]]].
  - intros [|ph] g h x u t a Eg Eh Lx HX; [|destruct ph; discriminate Eg]. injection Eg as <-. injection Eh as <-. do 3 f_equal. unfold f. destruct (HX 0%nat (le_n 1)) as (A & _). cbn in A. destruct (Rlt_dec (nth 0 x 0) 0) as [H|H]; [exfalso; exact (Rlt_not_le _ _ H A)|reflexivity].
  - apply HF. split; reflexivity.
  - intros F. apply HF' in F. destruct F as (F & _). unfold f in F. destruct (Rlt_dec (-1) 0); lra.
Qed.
Print Assumptions C85_start_refuted.
(** controls cut at 1, where a path constraint has them, and final states without their signs, where bounds keep them non-negative *)
Example C85_case : forall n c lo hi, (1 <= n)%nat -> lo <= hi -> let mp := movers_mp n c lo hi in let o := mp_ocp mp in
  alike_within o cut_dyn (o_path o) (abs_mayer c) (o_run o) (o_term o) /\ ocp_ok (cut_movers n c lo hi) (fun _ => Some n) (fun _ => None) /\
  exists (z : list R) m, input_ok mp (fun _ => Some n) (fun _ => None) z [1] /\ nlp_at mp z [1] = Ok m /\ feasible m.
Proof.
  intros n c lo hi Hn Hlh mp o. split; [exact (cut_alike n c lo hi)|]. split; [exact (cut_ok n c lo hi Hn Hlh)|].
  destruct (movers_rest n c lo hi lo Hn ltac:(lra)) as (z & m & Lz & _ & En & F & _). exists z, m. split; [exact (movers_in n c lo hi z Hn Hlh Lz)|]. split; [exact En|exact F].
Qed.
