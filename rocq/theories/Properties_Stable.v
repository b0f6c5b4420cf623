(** Property C90: the states depend on the start and the controls in a stable way. *)
From Coq Require Import Reals Arith Lia Lra String List.
From Verif Require Import Num PyList Mat Poly Roots Colloc Ocp Transcribe Spec SpecOcp SpecHadapt SpecTrack SpecStable NumR StableR ExOcp ExDeterm ExStable.
Import ListNotations.
Open Scope R_scope.
Open Scope list_scope.

(** * C90 *)
(** there is a constant, which depends on the scheme and the largest order only, such that on fine meshes the states of two feasible points
    with the same parameters and times of a phase differ by a multiple of the differences of their first states and controls that does not depend on the mesh *)
Theorem C90_stable : forall (cf : ccfg Rnum) Q, cfg_ok cf -> exists C, 0 <= C /\ forall (mp : mpo Rnum) npath nterm (z z' p : list R) n n' ph,
  mp_cf mp = cf -> (forall q, In q (mp_orders mp) -> (q <= Q)%nat) -> input_ok mp npath nterm z p -> input_ok mp npath nterm z' p -> widths_ok (mp_nseg mp) (o_nph (mp_ocp mp)) p ->
  nlp_at mp z p = Ok n -> nlp_at mp z' p = Ok n' -> feasible n -> feasible n' -> (ph < o_nph (mp_ocp mp))%nat ->
  let o := mp_ocp mp in let w := width mp p ph in let y := user_traj mp z ph in let y' := user_traj mp z' ph in y_t0 y < y_tf y ->
  forall L M dl et, 0 <= L -> 0 <= M -> 0 <= dl -> 0 <= et -> lipschitz2 o ph (a_of o y) (y_t0 y) (y_tf y) L M -> (forall k, (k < length (mp_orders mp))%nat -> 2 * (C * L * lasts w y k) <= 1) ->
    y_t0 y' = y_t0 y -> y_tf y' = y_tf y -> (forall i, (i < o_na o)%nat -> y_a y' i = y_a y i) ->
    (forall i c, (i < total_nodes (mp_orders mp))%nat -> (c < o_nu o)%nat -> Rabs (y_u y i c - y_u y' i c) <= et) -> (forall s, (s < o_nx o)%nat -> Rabs (y_x y 0 s - y_x y' 0 s) <= dl) ->
    forall i s, (i < total_nodes (mp_orders mp))%nat -> (s < o_nx o)%nat ->
      Rabs (y_x y i s - y_x y' i s) <= exp (2 * C * L * (y_tf y - y_t0 y)) * (dl + C * M * (y_tf y - y_t0 y) * et).
Proof. exact stable_thm. Qed.
Print Assumptions C90_stable.
(** the bound that holds for solutions of the state equations, which is the above without the constant, does not hold for feasible points: x' = x + u *)
Theorem C90_flow_refuted : exists (mp : mpo Rnum) npath nterm (z z' p : list R) n n' L M et, input_ok mp npath nterm z p /\ input_ok mp npath nterm z' p /\ widths_ok (mp_nseg mp) (o_nph (mp_ocp mp)) p /\
  nlp_at mp z p = Ok n /\ nlp_at mp z' p = Ok n' /\ feasible n /\ feasible n' /\ let o := mp_ocp mp in let y := user_traj mp z 0 in let y' := user_traj mp z' 0 in
  y_t0 y < y_tf y /\ lipschitz2 o 0 (a_of o y) (y_t0 y) (y_tf y) L M /\ y_t0 y' = y_t0 y /\ y_tf y' = y_tf y /\ o_na o = 0%nat /\
  (forall i c, (i < total_nodes (mp_orders mp))%nat -> (c < o_nu o)%nat -> Rabs (y_u y i c - y_u y' i c) <= et) /\ (forall s, (s < o_nx o)%nat -> y_x y' 0 s = y_x y 0 s) /\
  Rabs (y_x y 2 0 - y_x y' 2 0) > exp (L * (y_tf y - y_t0 y)) * (M * (y_tf y - y_t0 y) * et).
Proof.
  destruct (pushed_point (9 / 5) 0 ltac:(lra)) as (z & n & Lz & (X & U & T0 & TF & _) & En & F). destruct (pushed_point (9 / 5) 1 ltac:(lra)) as (z' & n' & Lz' & (X' & U' & T0' & TF' & _) & En' & F').
  exists (pushed_mp (9 / 5)), (fun _ => None), (fun _ => None), z, z', [1 / 2; 1 / 2], n, n', 1, 1, 1. split; [exact (pushed_in _ z Lz)|]. split; [exact (pushed_in _ z' Lz')|]. split; [exact halves|].
  split; [exact En|]. split; [exact En'|]. split; [exact F|]. split; [exact F'|]. intros o y y'. fold y in X, U, T0, TF. fold y' in X', U', T0', TF'.
  split; [rewrite T0, TF; cbn; lra|]. split; [apply pushed_lip|]. split; [rewrite T0, T0'; reflexivity|]. split; [rewrite TF, TF'; reflexivity|]. split; [reflexivity|].
  split; [intros i c Hi Hc; rewrite (U i c Hi Hc), (U' i c Hi Hc); apply push_near; [lra|exact Hi]|]. split; [intros s Hs; rewrite (X 0%nat s ltac:(cbn; lia) Hs), (X' 0%nat s ltac:(cbn; lia) Hs); reflexivity|].
  rewrite (X 2%nat 0%nat ltac:(cbn; lia) ltac:(cbn; lia)), (X' 2%nat 0%nat ltac:(cbn; lia) ltac:(cbn; lia)), T0, TF. exact push_far.
Qed.
Print Assumptions C90_flow_refuted.
(** whatever the constant, that problem on short segments meets the hypotheses of C90_stable *)
Example C90_case : forall C, 0 <= C -> exists (T : R) (z z' : list R) n n', let mp := pushed_mp T in cfg_ok (mp_cf mp) /\ (forall q, In q (mp_orders mp) -> (q <= 1)%nat) /\
  input_ok mp (fun _ => None) (fun _ => None) z [1 / 2; 1 / 2] /\ input_ok mp (fun _ => None) (fun _ => None) z' [1 / 2; 1 / 2] /\ widths_ok (mp_nseg mp) (o_nph (mp_ocp mp)) [1 / 2; 1 / 2] /\
  nlp_at mp z [1 / 2; 1 / 2] = Ok n /\ nlp_at mp z' [1 / 2; 1 / 2] = Ok n' /\ feasible n /\ feasible n' /\
  let o := mp_ocp mp in let y := user_traj mp z 0 in let y' := user_traj mp z' 0 in y_t0 y < y_tf y /\ lipschitz2 o 0 (a_of o y) (y_t0 y) (y_tf y) 1 1 /\
  (forall k, (k < length (mp_orders mp))%nat -> 2 * (C * 1 * lasts (width mp [1 / 2; 1 / 2] 0) y k) <= 1) /\ y_t0 y' = y_t0 y /\ y_tf y' = y_tf y /\
  (forall i c, (i < total_nodes (mp_orders mp))%nat -> (c < o_nu o)%nat -> Rabs (y_u y i c - y_u y' i c) <= 1) /\ (forall s, (s < o_nx o)%nat -> Rabs (y_x y 0 s - y_x y' 0 s) <= 0) /\
  y_x y' 2 0 <> y_x y 2 0.
Proof.
  intros C HC. assert (HT : 0 < / (C + 1)) by (apply Rinv_0_lt_compat; lra). assert (HT1 : / (C + 1) <= 1) by (rewrite <- Rinv_1; apply Rinv_le_contravar; lra).
  destruct (pushed_point (/ (C + 1)) 0 ltac:(lra)) as (z & n & Lz & (X & U & T0 & TF & _) & En & F). destruct (pushed_point (/ (C + 1)) 1 ltac:(lra)) as (z' & n' & Lz' & (X' & U' & T0' & TF' & _) & En' & F').
  exists (/ (C + 1)), z, z', n, n'. intros mp. split; [apply demo_cf_ok; cbn; auto|]. split; [intros q [<-|[<-|[]]]; lia|]. split; [exact (pushed_in _ z Lz)|]. split; [exact (pushed_in _ z' Lz')|].
  split; [exact halves|]. split; [exact En|]. split; [exact En'|]. split; [exact F|]. split; [exact F'|].
  intros o y y'. fold mp y in T0, TF, X, U. fold mp y' in T0', TF', X', U'. split; [rewrite T0, TF; exact HT|]. split; [apply pushed_lip|].
  split. { intros k Hk. unfold lasts. rewrite T0, TF. cbn [push y_t0 y_tf].
    assert (W : width mp [1 / 2; 1 / 2] 0 k = 1 / 2) by (destruct k as [|[|k]]; [reflexivity|reflexivity|cbn in Hk; lia]). rewrite W.
    assert (E : C * / (C + 1) = 1 - / (C + 1)) by (field; lra). replace (2 * (C * 1 * ((/ (C + 1) - 0) * (1 / 2)))) with (C * / (C + 1)) by lra. lra. }
  split; [rewrite T0, T0'; reflexivity|]. split; [rewrite TF, TF'; reflexivity|].
  split; [intros i c Hi Hc; rewrite (U i c Hi Hc), (U' i c Hi Hc); apply push_near; [lra|exact Hi]|].
  split; [intros s Hs; rewrite (X 0%nat s ltac:(cbn; lia) Hs), (X' 0%nat s ltac:(cbn; lia) Hs); apply push_start|].
  rewrite (X 2%nat 0%nat ltac:(cbn; lia) ltac:(cbn; lia)), (X' 2%nat 0%nat ltac:(cbn; lia) ltac:(cbn; lia)). apply push_apart. lra.
Qed.
