(** Property C80: phases and links in another order. *)
From Coq Require Import String Reals List Arith Lia Lra.
From Verif Require Import Num PyList Ocp Colloc Transcribe Spec SpecOcp SpecCoord SpecRenum NumR RenumR ExRenum.
Import ListNotations.
Open Scope R_scope.
Open Scope list_scope.

(** * C80 *)
(** the first phase stays first: corresponding points are feasible together and have the same objective *)
Theorem C80_points : forall sg (mp mp' : mpo Rnum), mp_nseg mp' = mp_nseg mp -> mp_orders mp' = mp_orders mp -> mp_cf mp' = mp_cf mp ->
  renumbered sg (mp_ocp mp) (mp_ocp mp') ->
  forall npath nterm npath' nterm' (z p z' p' : list R), sg 0%nat = 0%nat -> input_ok mp npath nterm z p -> input_ok mp' npath' nterm' z' p' ->
  same_phases sg mp mp' z p z' p' ->
  exists n n', nlp_at mp z p = Ok n /\ nlp_at mp' z' p' = Ok n' /\ (feasible n <-> feasible n') /\ n_f n = n_f n'.
Proof. exact renum_thm. Qed.
Print Assumptions C80_points.
(** every point and every list of widths has a counterpart *)
Theorem C80_all : forall sg (mp mp' : mpo Rnum), mp_nseg mp' = mp_nseg mp -> mp_orders mp' = mp_orders mp -> mp_cf mp' = mp_cf mp ->
  renumbered sg (mp_ocp mp) (mp_ocp mp') ->
  forall npath nterm npath' nterm' (z p : list R), input_ok mp npath nterm z p -> ocp_ok (mp_ocp mp') npath' nterm' -> scales_pos (mp_ocp mp') ->
  exists z' p' : list R, input_ok mp' npath' nterm' z' p' /\ same_phases sg mp mp' z p z' p'.
Proof. exact renum_exists. Qed.
Print Assumptions C80_all.
(** the first phase stays first: a point solves the problem if and only if its counterpart solves the renumbered one *)
Theorem C80_solutions : forall sg (mp mp' : mpo Rnum), mp_nseg mp' = mp_nseg mp -> mp_orders mp' = mp_orders mp -> mp_cf mp' = mp_cf mp ->
  renumbered sg (mp_ocp mp) (mp_ocp mp') ->
  forall npath nterm npath' nterm' (z p z' p' : list R), sg 0%nat = 0%nat -> input_ok mp npath nterm z p -> input_ok mp' npath' nterm' z' p' ->
  same_phases sg mp mp' z p z' p' -> best mp p z <-> best mp' p' z'.
Proof. exact renum_best. Qed.
Print Assumptions C80_solutions.
(** the first phase has a role of its own: its first state is fixed to x00, also when a link leads into it *)
Theorem C80_first_refuted : exists sg mp mp' npath nterm npath' nterm' z p z' p' n n', input_ok mp npath nterm z p /\ input_ok mp' npath' nterm' z' p' /\
  mp_nseg mp' = mp_nseg mp /\ mp_orders mp' = mp_orders mp /\ mp_cf mp' = mp_cf mp /\ renumbered sg (mp_ocp mp) (mp_ocp mp') /\ same_phases sg mp mp' z p z' p' /\
  nlp_at mp z p = Ok n /\ nlp_at mp' z' p' = Ok n' /\ feasible n /\ ~ feasible n'.
Proof. exact first_matters. Qed.
Print Assumptions C80_first_refuted.
(** three phases, the last two exchanged and the links listed the other way round: a feasible point and its counterpart, both with objective 5 / 2 *)
Example C80_case : renumbered exch relay relay' /\ exists z z' p' n n',
  input_ok relay_mp relay_npath relay_nterm z relay_p /\ input_ok relay_mp' relay_npath' relay_nterm z' p' /\ same_phases exch relay_mp relay_mp' z relay_p z' p' /\
  nlp_at relay_mp z relay_p = Ok n /\ nlp_at relay_mp' z' p' = Ok n' /\ feasible n /\ feasible n' /\ n_f n = 5 / 2 /\ n_f n' = 5 / 2.
Proof. split; [exact relay_renumbered|exact relay_case]. Qed.
