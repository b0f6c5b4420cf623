(** Property C91: what the rows of a program are and depend on. *)
From Coq Require Import Reals Arith Lia Lra String.
From Coquelicot Require Import Coquelicot.
From Coq Require Import List.
From Verif Require Import Num PyList Mat Poly Roots Colloc Ocp Transcribe Spec SpecOcp SpecSparse NumR SparseR ExOcp ExStable ExSparse.
Import ListNotations.
Open Scope R_scope.
Open Scope list_scope.

(** * C91 *)
(** each row of the state equations, and each row of the controls at mid-points *)
Theorem C91_values : forall (mp : mpo Rnum) npath nterm (z p : list R), input_ok mp npath nterm z p ->
  exists rs n, mapM (c_roots (mp_cf mp)) (mp_orders mp) = Ok rs /\ nlp_at mp z p = Ok n /\ forall ph, (ph < o_nph (mp_ocp mp))%nat ->
  let o := mp_ocp mp in let N := total_nodes (mp_orders mp) in let w := width mp p ph in let y := user_traj mp z ph in
  (length (c_g (g_block mp npath nterm n ph 0)) = o_nx o * N)%nat /\
  (forall s i k j (c : list R), (s < o_nx o)%nat -> owned (mp_orders mp) i k j -> seg_interp (mp_orders mp) k (nth k rs []) (fun i => y_x y i s) c ->
    nth (s * N + i) (c_g (g_block mp npath nterm n ph 0)) 0 =
      nth s (o_scale_x o) 0 * (Derive (peval c) (nth j (nth k rs []) 0) - seg_h (mp_cf mp) w y k * nth s (dyn_val o ph y i (seg_time (mp_cf mp) w y k (nth j (nth k rs []) 0))) 0)) /\
  ((nth ph (o_midu o) false && some_finite o ph)%bool = true -> (length (c_g (g_block mp npath nterm n ph 3)) = o_nu o * (N - 1))%nat /\
   forall q k r j (c : list R), (q < o_nu o)%nat -> nth_error (mp_orders mp) k = Some r -> (j < r)%nat -> seg_interp (mp_orders mp) k (nth k rs []) (fun i => y_u y i q) c ->
    nth (q * (N - 1) + (offset (mp_orders mp) k + j)) (c_g (g_block mp npath nterm n ph 3)) 0 =
      nth q (o_scale_u o) 0 * peval c ((nth j (nth k rs []) 0 + nth (S j) (nth k rs []) 0) / 2)).
Proof. exact row_values. Qed.
Print Assumptions C91_values.
(** the row of state s and node i depends on the values of state s on the segment of the node, on states and controls at the node,
    and on times and parameters of the phase; the row of a control at a mid-point depends on this control on the segment *)
Theorem C91_sparse : forall (mp : mpo Rnum) npath nterm (z z' p : list R), input_ok mp npath nterm z p -> input_ok mp npath nterm z' p ->
  exists n n', nlp_at mp z p = Ok n /\ nlp_at mp z' p = Ok n' /\ forall ph, (ph < o_nph (mp_ocp mp))%nat ->
  let o := mp_ocp mp in let N := total_nodes (mp_orders mp) in let y := user_traj mp z ph in let y' := user_traj mp z' ph in
  (forall s i k j, (s < o_nx o)%nat -> owned (mp_orders mp) i k j -> same_frame o y y' -> same_node o i y y' -> same_seg (mp_orders mp) k (fun i => y_x y i s) (fun i => y_x y' i s) ->
    nth (s * N + i) (c_g (g_block mp npath nterm n ph 0)) 0 = nth (s * N + i) (c_g (g_block mp npath nterm n' ph 0)) 0) /\
  ((nth ph (o_midu o) false && some_finite o ph)%bool = true -> forall q k r j, (q < o_nu o)%nat -> nth_error (mp_orders mp) k = Some r -> (j < r)%nat ->
    same_seg (mp_orders mp) k (fun i => y_u y i q) (fun i => y_u y' i q) ->
    nth (q * (N - 1) + (offset (mp_orders mp) k + j)) (c_g (g_block mp npath nterm n ph 3)) 0 = nth (q * (N - 1) + (offset (mp_orders mp) k + j)) (c_g (g_block mp npath nterm n' ph 3)) 0).
Proof. exact sparse_thm. Qed.
Print Assumptions C91_sparse.
(** the times cannot be left out, even when the state equations do not depend on time *)
Theorem C91_times_refuted : exists (mp : mpo Rnum) npath nterm (z z' p : list R) n n', input_ok mp npath nterm z p /\ input_ok mp npath nterm z' p /\ nlp_at mp z p = Ok n /\ nlp_at mp z' p = Ok n' /\
  (forall f x u t t' a, In f (o_dyn (mp_ocp mp)) -> f x u t a = f x u t' a) /\ let y := user_traj mp z 0 in let y' := user_traj mp z' 0 in
  (forall i s, (i < total_nodes (mp_orders mp))%nat -> (s < o_nx (mp_ocp mp))%nat -> y_x y i s = y_x y' i s) /\ (forall i c, (i < total_nodes (mp_orders mp))%nat -> (c < o_nu (mp_ocp mp))%nat -> y_u y i c = y_u y' i c) /\
  o_na (mp_ocp mp) = 0%nat /\ owned (mp_orders mp) 0 0 0 /\ nth 0 (c_g (g_block mp npath nterm n 0 0)) 0 <> nth 0 (c_g (g_block mp npath nterm n' 0 0)) 0.
Proof.
  destruct (odd_row 1 0) as (n & En & V). destruct (odd_row 2 0) as (n' & En' & V'). destruct (odd_traj 1 0) as (X & U & _). destruct (odd_traj 2 0) as (X' & U' & _).
  exists (pushed_mp 1), (fun _ => None), (fun _ => None), (odd_z 1 0), (odd_z 2 0), [1 / 2; 1 / 2], n, n'. split; [apply odd_in|]. split; [apply odd_in|]. split; [exact En|]. split; [exact En'|].
  split; [intros f x u t t' a [<-|[]]; reflexivity|]. intros y y'. split; [intros i s Hi Hs; exact (eq_trans (X i s Hi Hs) (eq_sym (X' i s Hi Hs)))|].
  split; [intros i c Hi Hc; exact (eq_trans (U i c Hi Hc) (eq_sym (U' i c Hi Hc)))|]. split; [reflexivity|]. split; [exists 1%nat; cbn; repeat split; auto|]. rewrite V, V'. lra.
Qed.
Print Assumptions C91_times_refuted.
(** two points that differ at the last node meet the hypotheses for the rows of the first segment *)
Example C91_case : let mp := pushed_mp 1 in input_ok mp (fun _ => None) (fun _ => None) (odd_z 1 0) [1 / 2; 1 / 2] /\ input_ok mp (fun _ => None) (fun _ => None) (odd_z 1 5) [1 / 2; 1 / 2] /\
  let o := mp_ocp mp in let y := user_traj mp (odd_z 1 0) 0 in let y' := user_traj mp (odd_z 1 5) 0 in y_x y 2 0 <> y_x y' 2 0 /\
  owned (mp_orders mp) 1 0 1 /\ same_frame o y y' /\ same_node o 1 y y' /\ same_seg (mp_orders mp) 0 (fun i => y_x y i 0%nat) (fun i => y_x y' i 0%nat).
Proof.
  intros mp. split; [apply odd_in|]. split; [apply odd_in|]. intros o y y'. destruct (odd_traj 1 0) as (X & U & T0 & TF & _). destruct (odd_traj 1 5) as (X' & U' & T0' & TF' & _).
  fold mp y in X, U, T0, TF. fold mp y' in X', U', T0', TF'.
  assert (E : forall i, (i < 2)%nat -> y_x y i 0%nat = y_x y' i 0%nat).
  { intros i Hi. rewrite (X i 0%nat ltac:(cbn; lia) ltac:(cbn; lia)), (X' i 0%nat ltac:(cbn; lia) ltac:(cbn; lia)). destruct i as [|[|i]]; [reflexivity|reflexivity|lia]. }
  split. { rewrite (X 2%nat 0%nat ltac:(cbn; lia) ltac:(cbn; lia)), (X' 2%nat 0%nat ltac:(cbn; lia) ltac:(cbn; lia)). cbn. lra. }
  split; [exists 1%nat; cbn; repeat split; auto|]. split; [split; [rewrite T0, T0'; reflexivity|split; [rewrite TF, TF'; reflexivity|intros i Hi; cbn in Hi; lia]]|].
  split. { split; [intros [|s] Hs; [apply E; lia|cbn in Hs; lia]|]. intros c Hc. rewrite (U 1%nat c ltac:(cbn; lia) Hc), (U' 1%nat c ltac:(cbn; lia) Hc). reflexivity. }
  intros i Hi. apply E. cbn in Hi. lia.
Qed.
