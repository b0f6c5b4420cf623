(** Property C92: dissipative problems contract on every Radau mesh. *)
From Coq Require Import Reals Arith Lia Lra String List.
From Verif Require Import Num PyList Mat Poly Roots Colloc Ocp Transcribe Spec SpecOcp SpecHadapt SpecTrack SpecFlow SpecContract NumR ContractR ExOcp ExDeterm ExContract.
Import ListNotations.
Open Scope R_scope.
Open Scope list_scope.

(** * C92 *)
(** if the state equations are dissipative, the states of two feasible points with the same times, parameters and controls of a phase come no further apart
    from one end of a segment to a later one; Radau nodes or segments of degree one of any length *)
Theorem C92_contract : forall (mp : mpo Rnum) npath nterm (z z' p : list R) n n' ph, input_ok mp npath nterm z p -> input_ok mp npath nterm z' p -> widths_ok (mp_nseg mp) (o_nph (mp_ocp mp)) p ->
  nlp_at mp z p = Ok n -> nlp_at mp z' p = Ok n' -> feasible n -> feasible n' -> (ph < o_nph (mp_ocp mp))%nat -> (forall q, In q (mp_orders mp) -> cf_scheme (mp_cf mp) = "LGR"%string \/ q = 1%nat) ->
  let o := mp_ocp mp in let y := user_traj mp z ph in let y' := user_traj mp z' ph in y_t0 y < y_tf y ->
  y_t0 y' = y_t0 y -> y_tf y' = y_tf y -> (forall i, (i < o_na o)%nat -> y_a y' i = y_a y i) -> (forall i c, (i < total_nodes (mp_orders mp))%nat -> (c < o_nu o)%nat -> y_u y i c = y_u y' i c) ->
  dissipative o ph (a_of o y) (y_t0 y) (y_tf y) ->
  forall k k', (k <= k')%nat -> (k' <= length (mp_orders mp))%nat -> gap2 o y y' (offset (mp_orders mp) k') <= gap2 o y y' (offset (mp_orders mp) k).
Proof. intros mp npath nterm z z' p n n' ph H1 H2 H3 H4 H5 H6 H7 H8 H9 o y y' H10 H11 H12 H13 H14. exact (proj1 (contract_thm mp npath nterm z z' p n n' ph H1 H2 H3 H4 H5 H6 H7 H8 H9 H10 H11 H12 H13 H14)). Qed.
Print Assumptions C92_contract.
(** if they are strictly so, the controls and the first states determine the states, however long the segments (compare C86) *)
Theorem C92_determined : forall (mp : mpo Rnum) npath nterm (z z' p : list R) n n' ph, input_ok mp npath nterm z p -> input_ok mp npath nterm z' p -> widths_ok (mp_nseg mp) (o_nph (mp_ocp mp)) p ->
  nlp_at mp z p = Ok n -> nlp_at mp z' p = Ok n' -> feasible n -> feasible n' -> (ph < o_nph (mp_ocp mp))%nat -> (forall q, In q (mp_orders mp) -> cf_scheme (mp_cf mp) = "LGR"%string \/ q = 1%nat) ->
  let o := mp_ocp mp in let y := user_traj mp z ph in let y' := user_traj mp z' ph in y_t0 y < y_tf y ->
  y_t0 y' = y_t0 y -> y_tf y' = y_tf y -> (forall i, (i < o_na o)%nat -> y_a y' i = y_a y i) -> (forall i c, (i < total_nodes (mp_orders mp))%nat -> (c < o_nu o)%nat -> y_u y i c = y_u y' i c) ->
  strictly_dissipative o ph (a_of o y) (y_t0 y) (y_tf y) -> (forall s, (s < o_nx o)%nat -> y_x y 0 s = y_x y' 0 s) -> same_traj mp y' y.
Proof. intros mp npath nterm z z' p n n' ph H1 H2 H3 H4 H5 H6 H7 H8 H9 o y y' H10 H11 H12 H13 H14. exact (proj2 (contract_thm mp npath nterm z z' p n n' ph H1 H2 H3 H4 H5 H6 H7 H8 H9 H10 H11 H12 H13 H14)). Qed.
Print Assumptions C92_determined.
(** C92_contract does not hold for the Chebyshev nodes of degree two: a point that turns about the origin moves away from a point at rest there; all else is as above *)
Theorem C92_scheme_refuted : exists (mp : mpo Rnum) npath nterm (z z' p : list R) n n', input_ok mp npath nterm z p /\ input_ok mp npath nterm z' p /\ widths_ok (mp_nseg mp) (o_nph (mp_ocp mp)) p /\
  nlp_at mp z p = Ok n /\ nlp_at mp z' p = Ok n' /\ feasible n /\ feasible n' /\ (1 < o_nph (mp_ocp mp))%nat /\ cf_scheme (mp_cf mp) = "CGL"%string /\ mp_orders mp = [1; 2]%nat /\
  let o := mp_ocp mp in let y := user_traj mp z 1 in let y' := user_traj mp z' 1 in y_t0 y < y_tf y /\ y_t0 y' = y_t0 y /\ y_tf y' = y_tf y /\ o_na o = 0%nat /\
  (forall i c, (i < total_nodes (mp_orders mp))%nat -> (c < o_nu o)%nat -> y_u y i c = y_u y' i c) /\ dissipative o 1 (a_of o y) (y_t0 y) (y_tf y) /\
  gap2 o y y' (offset (mp_orders mp) 1) = 37 /\ gap2 o y y' (offset (mp_orders mp) 2) = 45.
Proof.
  destruct wide_point as (z & n & Lz & (X & U & T0 & TF & _) & En & F). destruct still4_point as (z' & n' & Lz' & (X' & U' & T0' & TF' & _) & En' & F').
  exists (spin_mp 0 [1; 2]%nat "CGL"), (fun _ => None), (fun _ => None), z, z', even, n, n'.
  split; [exact (spin_in 0 [1; 2]%nat "CGL" z eq_refl wide_pos ltac:(cbn; auto) Lz)|]. split; [exact (spin_in 0 [1; 2]%nat "CGL" z' eq_refl wide_pos ltac:(cbn; auto) Lz')|]. split; [exact even_ok|].
  split; [exact En|]. split; [exact En'|]. split; [exact F|]. split; [exact F'|]. split; [cbn; lia|]. split; [reflexivity|]. split; [reflexivity|].
  intros o y y'. fold y in X, U, T0, TF. fold y' in X', U', T0', TF'. split; [rewrite T0, TF; cbn; lra|]. split; [rewrite T0, T0'; reflexivity|]. split; [rewrite TF, TF'; reflexivity|]. split; [reflexivity|].
  split; [intros i c Hi Hc; rewrite (U i c Hi Hc), (U' i c Hi Hc); reflexivity|]. split; [apply spin_diss; lra|].
  split; (unfold gap2, dotdiff; cbn [o_nx o mp_ocp spin_mp spin Rsum]; rewrite !X, !X' by (cbn; lia); cbn; ring).
Qed.
Print Assumptions C92_scheme_refuted.
(** nor without dissipation: x' = x on two segments of degree one *)
Theorem C92_growing_refuted : exists (mp : mpo Rnum) npath nterm (z z' p : list R) n n', input_ok mp npath nterm z p /\ input_ok mp npath nterm z' p /\ widths_ok (mp_nseg mp) (o_nph (mp_ocp mp)) p /\
  nlp_at mp z p = Ok n /\ nlp_at mp z' p = Ok n' /\ feasible n /\ feasible n' /\ (forall q, In q (mp_orders mp) -> q = 1%nat) /\
  let o := mp_ocp mp in let y := user_traj mp z 0 in let y' := user_traj mp z' 0 in y_t0 y < y_tf y /\ y_t0 y' = y_t0 y /\ y_tf y' = y_tf y /\ o_na o = 0%nat /\
  (forall i c, (i < total_nodes (mp_orders mp))%nat -> (c < o_nu o)%nat -> y_u y i c = y_u y' i c) /\
  gap2 o y y' (offset (mp_orders mp) 0) = 0 /\ gap2 o y y' (offset (mp_orders mp) 2) = 1.
Proof.
  destruct (growing_point 2 0 (or_introl eq_refl)) as (z & n & Lz & (X & U & T0 & TF & _) & En & F). destruct (growing_point 2 1 (or_intror eq_refl)) as (z' & n' & Lz' & (X' & U' & T0' & TF' & _) & En' & F').
  exists (growing_mp 2), (fun _ => None), (fun _ => None), z, z', [1 / 2; 1 / 2], n, n'. split; [exact (growing_in 2 z Lz)|]. split; [exact (growing_in 2 z' Lz')|]. split; [exact halves|].
  split; [exact En|]. split; [exact En'|]. split; [exact F|]. split; [exact F'|]. split; [intros q [<-|[<-|[]]]; reflexivity|].
  intros o y y'. fold y in X, U, T0, TF. fold y' in X', U', T0', TF'. split; [rewrite T0, TF; cbn; lra|]. split; [rewrite T0, T0'; reflexivity|]. split; [rewrite TF, TF'; reflexivity|]. split; [reflexivity|].
  split; [intros i c Hi Hc; rewrite (U i c Hi Hc), (U' i c Hi Hc); reflexivity|].
  split; (unfold gap2, dotdiff; cbn [o_nx o mp_ocp growing_mp growing Rsum]; rewrite !X, !X' by (cbn; lia); cbn; ring).
Qed.
Print Assumptions C92_growing_refuted.
(** turning on Radau nodes meets the hypotheses of C92_contract; the distance shrinks *)
Example C92_case : exists (z z' : list R) n n', let mp := spin_mp 0 [1; 1]%nat "LGR" in let p := even in
  input_ok mp (fun _ => None) (fun _ => None) z p /\ input_ok mp (fun _ => None) (fun _ => None) z' p /\ widths_ok (mp_nseg mp) (o_nph (mp_ocp mp)) p /\
  nlp_at mp z p = Ok n /\ nlp_at mp z' p = Ok n' /\ feasible n /\ feasible n' /\ cf_scheme (mp_cf mp) = "LGR"%string /\
  let o := mp_ocp mp in let y := user_traj mp z 1 in let y' := user_traj mp z' 1 in y_t0 y < y_tf y /\ y_t0 y' = y_t0 y /\ y_tf y' = y_tf y /\ o_na o = 0%nat /\
  (forall i c, (i < total_nodes (mp_orders mp))%nat -> (c < o_nu o)%nat -> y_u y i c = y_u y' i c) /\ dissipative o 1 (a_of o y) (y_t0 y) (y_tf y) /\
  gap2 o y y' (offset (mp_orders mp) 1) = 4 /\ gap2 o y y' (offset (mp_orders mp) 2) = 2.
Proof.
  destruct turned_point as (z & n & Lz & (X & U & T0 & TF & _) & En & F). destruct still_point as (z' & n' & Lz' & (X' & U' & T0' & TF' & _) & En' & F').
  exists z, z', n, n'. intros mp p.
  split; [exact (spin_in 0 [1; 1]%nat "LGR" z eq_refl ones_pos ltac:(cbn; auto) Lz)|]. split; [exact (spin_in 0 [1; 1]%nat "LGR" z' eq_refl ones_pos ltac:(cbn; auto) Lz')|]. split; [exact even_ok|].
  split; [exact En|]. split; [exact En'|]. split; [exact F|]. split; [exact F'|]. split; [reflexivity|].
  intros o y y'. fold mp y in X, U, T0, TF. fold mp y' in X', U', T0', TF'. split; [rewrite T0, TF; cbn; lra|]. split; [rewrite T0, T0'; reflexivity|]. split; [rewrite TF, TF'; reflexivity|]. split; [reflexivity|].
  split; [intros i c Hi Hc; rewrite (U i c Hi Hc), (U' i c Hi Hc); reflexivity|]. split; [apply spin_diss; lra|].
  split; (unfold gap2, dotdiff; cbn [o_nx o mp mp_ocp spin_mp spin Rsum]; rewrite !X, !X' by (cbn; lia); cbn; ring).
Qed.
(** a point that fades under a force meets those of C92_determined *)
Example C92_determined_case : exists (z : list R) n, let mp := spin_mp 1 [1; 1]%nat "LGR" in let p := even in
  input_ok mp (fun _ => None) (fun _ => None) z p /\ widths_ok (mp_nseg mp) (o_nph (mp_ocp mp)) p /\ nlp_at mp z p = Ok n /\ feasible n /\ cf_scheme (mp_cf mp) = "LGR"%string /\
  let o := mp_ocp mp in let y := user_traj mp z 1 in y_t0 y < y_tf y /\ strictly_dissipative o 1 (a_of o y) (y_t0 y) (y_tf y) /\ y_x y 0 0 = 2 /\ y_x y 2 0 = 1.
Proof.
  destruct faded_point as (z & n & Lz & (X & U & T0 & TF & _) & En & F). exists z, n. intros mp p. split; [exact (spin_in 1 [1; 1]%nat "LGR" z eq_refl ones_pos ltac:(cbn; auto) Lz)|]. split; [exact even_ok|].
  split; [exact En|]. split; [exact F|]. split; [reflexivity|]. intros o y. fold mp y in X, U, T0, TF. split; [rewrite T0, TF; cbn; lra|]. split; [apply spin_strict|].
  split; [exact (X 0%nat 0%nat ltac:(cbn; lia) ltac:(cbn; lia))|exact (X 2%nat 0%nat ltac:(cbn; lia) ltac:(cbn; lia))].
Qed.
