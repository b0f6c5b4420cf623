(** Property C96: distances of states on segments of degree one. *)
From Coq Require Import Reals Arith Lia Lra String List.
From Verif Require Import Num PyList Mat Poly Roots Colloc Ocp Transcribe Spec SpecOcp SpecHadapt SpecTrack SpecContract SpecForget SpecSpread NumR SpreadR ExOcp ExContract ExForget.
Import ListNotations.
Open Scope R_scope.
Open Scope list_scope.

(** * C96 *)
(** if the state equations drive two states apart at the rate [L] or less, which may be negative, the distance of the states of two feasible points with the same times, parameters
    and controls of a phase is at most divided by 1 - L * duration on a segment of degree one, whatever the scheme *)
Theorem C96_spread : forall (mp : mpo Rnum) npath nterm (z z' p : list R) n n' ph, input_ok mp npath nterm z p -> input_ok mp npath nterm z' p -> widths_ok (mp_nseg mp) (o_nph (mp_ocp mp)) p ->
  nlp_at mp z p = Ok n -> nlp_at mp z' p = Ok n' -> feasible n -> feasible n' -> (ph < o_nph (mp_ocp mp))%nat ->
  let o := mp_ocp mp in let w := width mp p ph in let y := user_traj mp z ph in let y' := user_traj mp z' ph in y_t0 y < y_tf y ->
    y_t0 y' = y_t0 y -> y_tf y' = y_tf y -> (forall i, (i < o_na o)%nat -> y_a y' i = y_a y i) -> (forall i c, (i < total_nodes (mp_orders mp))%nat -> (c < o_nu o)%nat -> y_u y i c = y_u y' i c) ->
    forall L, spreading o ph (a_of o y) (y_t0 y) (y_tf y) L -> forall k, nth_error (mp_orders mp) k = Some 1%nat -> L * lasts w y k <= 1 ->
    gap2 o y y' (offset (mp_orders mp) (S k)) * ((1 - L * lasts w y k) * (1 - L * lasts w y k)) <= gap2 o y y' (offset (mp_orders mp) k).
Proof. exact spread_thm. Qed.
Print Assumptions C96_spread.
(** a case that meets the hypotheses and in which both sides are equal, so that the factor cannot be improved *)
Example C96_case : exists (z z' : list R) n n', let mp := ebb_mp in let p := even in
  input_ok mp (fun _ => None) (fun _ => None) z p /\ input_ok mp (fun _ => None) (fun _ => None) z' p /\ widths_ok (mp_nseg mp) (o_nph (mp_ocp mp)) p /\
  nlp_at mp z p = Ok n /\ nlp_at mp z' p = Ok n' /\ feasible n /\ feasible n' /\ (1 < o_nph (mp_ocp mp))%nat /\
  let o := mp_ocp mp in let w := width mp p 1 in let y := user_traj mp z 1 in let y' := user_traj mp z' 1 in y_t0 y < y_tf y /\ y_t0 y' = y_t0 y /\ y_tf y' = y_tf y /\ o_na o = 0%nat /\
  (forall i c, (i < total_nodes (mp_orders mp))%nat -> (c < o_nu o)%nat -> y_u y i c = y_u y' i c) /\ spreading o 1 (a_of o y) (y_t0 y) (y_tf y) (- (1 / 2)) /\
  nth_error (mp_orders mp) 1 = Some 1%nat /\ - (1 / 2) * lasts w y 1 <= 1 /\ gap2 o y y' (offset (mp_orders mp) 1) = 1 /\
  gap2 o y y' (offset (mp_orders mp) 2) * ((1 - - (1 / 2) * lasts w y 1) * (1 - - (1 / 2) * lasts w y 1)) = 1.
Proof.
  destruct (ebb_point 1) as (z & n & Lz & (X & U & T0 & TF & _) & En & F). destruct (ebb_point 0) as (z' & n' & Lz' & (X' & U' & T0' & TF' & _) & En' & F').
  exists z, z', n, n'. intros mp p. split; [exact (ebb_in z Lz)|]. split; [exact (ebb_in z' Lz')|]. split; [exact even_ok|]. split; [exact En|]. split; [exact En'|]. split; [exact F|]. split; [exact F'|]. split; [cbn; lia|].
  intros o w y y'. fold mp y in X, U, T0, TF. fold mp y' in X', U', T0', TF'. split; [rewrite T0, TF; cbn; lra|]. split; [rewrite T0, T0'; reflexivity|]. split; [rewrite TF, TF'; reflexivity|]. split; [reflexivity|].
  split; [intros i c Hi Hc; rewrite (U i c Hi Hc), (U' i c Hi Hc); reflexivity|].
  split. { intros t u x x' Ht. eapply Rle_trans; [exact (ebb_strong (a_of o y) (y_t0 y) (y_tf y) t u x x' Ht)|]. apply Req_le. change (o_nx o) with (o_nx ebb). ring. }
  assert (EL : lasts w y 1 = 1) by (unfold lasts; rewrite T0, TF; change ((3 - 1) * (1 / 2) = 1); field).
  split; [reflexivity|]. split; [rewrite EL; lra|].
  split; [unfold gap2, dotdiff; cbn [o_nx o mp mp_ocp ebb_mp ebb Rsum]; rewrite !X, !X' by (cbn; lia); cbn; ring|].
  rewrite EL. unfold gap2, dotdiff; cbn [o_nx o mp mp_ocp ebb_mp ebb Rsum]; rewrite !X, !X' by (cbn; lia); cbn; field.
Qed.
(** the bound fails without the condition that the segment is short compared with 1 / L *)
Theorem C96_long_refuted : ~ (forall (mp : mpo Rnum) npath nterm (z z' p : list R) n n' ph, input_ok mp npath nterm z p -> input_ok mp npath nterm z' p -> widths_ok (mp_nseg mp) (o_nph (mp_ocp mp)) p ->
  nlp_at mp z p = Ok n -> nlp_at mp z' p = Ok n' -> feasible n -> feasible n' -> (ph < o_nph (mp_ocp mp))%nat ->
  let o := mp_ocp mp in let w := width mp p ph in let y := user_traj mp z ph in let y' := user_traj mp z' ph in y_t0 y < y_tf y ->
    y_t0 y' = y_t0 y -> y_tf y' = y_tf y -> (forall i, (i < o_na o)%nat -> y_a y' i = y_a y i) -> (forall i c, (i < total_nodes (mp_orders mp))%nat -> (c < o_nu o)%nat -> y_u y i c = y_u y' i c) ->
    forall L, spreading o ph (a_of o y) (y_t0 y) (y_tf y) L -> forall k, nth_error (mp_orders mp) k = Some 1%nat ->
    gap2 o y y' (offset (mp_orders mp) (S k)) * ((1 - L * lasts w y k) * (1 - L * lasts w y k)) <= gap2 o y y' (offset (mp_orders mp) k)).
Proof.
  intros H. destruct (ebb_point 1) as (z & n & Lz & (X & U & T0 & TF & _) & En & F). destruct (ebb_point 0) as (z' & n' & Lz' & (X' & U' & T0' & TF' & _) & En' & F').
  set (mp := ebb_mp) in *. set (o := mp_ocp mp). set (w := width mp even 1). set (y := user_traj mp z 1) in *. set (y' := user_traj mp z' 1) in *.
  assert (EL : lasts w y 1 = 1) by (unfold lasts; rewrite T0, TF; change ((3 - 1) * (1 / 2) = 1); field).
  assert (B : gap2 o y y' (offset (mp_orders mp) 2) * ((1 - 4 * lasts w y 1) * (1 - 4 * lasts w y 1)) <= gap2 o y y' (offset (mp_orders mp) 1)).
  { apply (H mp (fun _ => None) (fun _ => None) z z' even n n' 1%nat (ebb_in z Lz) (ebb_in z' Lz') even_ok En En' F F').
    - cbn; lia.
    - fold y. rewrite T0, TF. cbn. lra.
    - fold y y'. rewrite T0, T0'. reflexivity.
    - fold y y'. rewrite TF, TF'. reflexivity.
    - intros i Hi. exfalso. cbn in Hi. lia.
    - intros i c Hi Hc. fold y y'. rewrite (U i c Hi Hc), (U' i c Hi Hc). reflexivity.
    - fold y. intros t u x x' Ht. eapply Rle_trans; [exact (ebb_strong _ _ _ t u x x' Ht)|]. unfold dotdiff. cbn [o_nx mp mp_ocp ebb_mp ebb Rsum]. pose proof (Rle_0_sqr (x 0%nat - x' 0%nat)) as S. unfold Rsqr in S. lra.
    - reflexivity. }
  rewrite EL in B. unfold gap2, dotdiff in B. cbn [o_nx o mp mp_ocp ebb_mp ebb Rsum] in B. rewrite !X, !X' in B by (cbn; lia). cbn in B. lra.
Qed.
Print Assumptions C96_long_refuted.
