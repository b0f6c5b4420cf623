(** Property C94: segments of degree one keep every convex law. *)
From Coq Require Import Reals Arith Lia Lra String List.
From Verif Require Import Num PyList Mat Poly Roots Colloc Ocp Transcribe Spec SpecOcp SpecHadapt SpecTrack SpecEuler NumR EulerR ExOcp ExDeterm ExContract ExEuler.
Import ListNotations.
Open Scope R_scope.
Open Scope list_scope.

(** * C94 *)
(** a convex function [V] of the states that the state equations do not increase within the bounds is no larger at the end of a segment of degree one than at its start,
    whatever the scheme and the length; with such segments only, it never grows, and in the first phase is at most its value at x00 *)
Theorem C94_convex : forall (mp : mpo Rnum) npath nterm (z p : list R) n ph V G, input_ok mp npath nterm z p -> widths_ok (mp_nseg mp) (o_nph (mp_ocp mp)) p -> nlp_at mp z p = Ok n -> feasible n -> (ph < o_nph (mp_ocp mp))%nat ->
  let o := mp_ocp mp in let y := user_traj mp z ph in y_t0 y < y_tf y -> supports (o_nx o) V G -> not_growing o ph (a_of o y) (y_t0 y) (y_tf y) G ->
    (forall k, nth_error (mp_orders mp) k = Some 1%nat -> V (y_x y (offset (mp_orders mp) (S k))) <= V (y_x y (offset (mp_orders mp) k))) /\
    ((forall q, In q (mp_orders mp) -> q = 1%nat) -> (forall i i', (i <= i')%nat -> (i' < total_nodes (mp_orders mp))%nat -> V (y_x y i') <= V (y_x y i)) /\
      (ph = 0%nat -> forall i, (i < total_nodes (mp_orders mp))%nat -> V (y_x y i) <= V (fun s => nth s (nth 0 (o_x00 o) []) 0))).
Proof. exact euler_thm. Qed.
Print Assumptions C94_convex.
(** not so for degree two on the Chebyshev nodes: a positive quantity that wanes in proportion to itself becomes negative *)
Theorem C94_degree_refuted : exists (mp : mpo Rnum) npath nterm (z p : list R) n V G, input_ok mp npath nterm z p /\ widths_ok (mp_nseg mp) (o_nph (mp_ocp mp)) p /\ nlp_at mp z p = Ok n /\ feasible n /\
  nth_error (mp_orders mp) 1 = Some 2%nat /\ let o := mp_ocp mp in let y := user_traj mp z 0 in y_t0 y < y_tf y /\ supports (o_nx o) V G /\ not_growing o 0 (a_of o y) (y_t0 y) (y_tf y) G /\
  V (y_x y (offset (mp_orders mp) 1)) = 0 /\ V (y_x y (offset (mp_orders mp) 2)) = 1 / 7 /\ y_x y 0 0 = 1 /\ y_x y (offset (mp_orders mp) 2) 0 = - (1 / 7).
Proof.
  destruct overdrawn_point as (z & n & Lz & (X & U & T0 & TF & _) & En & F). exists (wane_mp [1; 2]%nat "CGL"), (fun _ => None), (fun _ => None), z, [1 / 2; 1 / 2], n, debt, debt_slope.
  split; [exact (wane_in [1; 2]%nat "CGL" z eq_refl wide_pos ltac:(cbn; auto) Lz)|]. split; [exact halves|]. split; [exact En|]. split; [exact F|]. split; [reflexivity|].
  intros o y. fold y in X, U, T0, TF. split; [rewrite T0, TF; cbn; lra|]. split; [exact debt_supports|]. split; [apply debt_not_growing|].
  pose proof (X 0%nat 0%nat ltac:(cbn; lia) ltac:(cbn; lia)) as X0. pose proof (X 1%nat 0%nat ltac:(cbn; lia) ltac:(cbn; lia)) as X1. pose proof (X 3%nat 0%nat ltac:(cbn; lia) ltac:(cbn; lia)) as X3.
  change (y_x y 0 0 = 1) in X0. change (y_x y 1 0 = 1) in X1. change (y_x y 3 0 = - (1 / 7)) in X3. change (offset (mp_orders (wane_mp [1%nat; 2%nat] "CGL")) 1) with 1%nat. change (offset (mp_orders (wane_mp [1%nat; 2%nat] "CGL")) 2) with 3%nat.
  unfold debt. split; [rewrite X1; apply Rmax_left; lra|]. split; [rewrite X3, Rmax_right; lra|]. split; [exact X0|exact X3].
Qed.
Print Assumptions C94_degree_refuted.
(** that problem on segments of degree one meets the hypotheses of C94_convex *)
Example C94_case : exists (z : list R) n, let mp := wane_mp [1; 1]%nat "LGR" in let p := [1 / 2; 1 / 2] in
  input_ok mp (fun _ => None) (fun _ => None) z p /\ widths_ok (mp_nseg mp) (o_nph (mp_ocp mp)) p /\ nlp_at mp z p = Ok n /\ feasible n /\ (0 < o_nph (mp_ocp mp))%nat /\ (forall q, In q (mp_orders mp) -> q = 1%nat) /\
  let o := mp_ocp mp in let y := user_traj mp z 0 in y_t0 y < y_tf y /\ supports (o_nx o) debt debt_slope /\ not_growing o 0 (a_of o y) (y_t0 y) (y_tf y) debt_slope /\ y_x y 1 0 = 1 /\ y_x y 2 0 = 1 / 2.
Proof.
  destruct halved_point as (z & n & Lz & (X & U & T0 & TF & _) & En & F). exists z, n. intros mp p.
  split; [exact (wane_in [1; 1]%nat "LGR" z eq_refl ones_pos ltac:(cbn; auto) Lz)|]. split; [exact halves|]. split; [exact En|]. split; [exact F|]. split; [cbn; lia|]. split; [intros q [<-|[<-|[]]]; reflexivity|].
  intros o y. fold mp y in X, U, T0, TF. split; [rewrite T0, TF; cbn; lra|]. split; [exact debt_supports|]. split; [apply debt_not_growing|].
  split; [exact (X 1%nat 0%nat ltac:(cbn; lia) ltac:(cbn; lia))|exact (X 2%nat 0%nat ltac:(cbn; lia) ltac:(cbn; lia))].
Qed.
