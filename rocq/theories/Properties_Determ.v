(** Property C86: on fine meshes the controls determine the states. *)
From Coq Require Import Reals Arith Lia Lra String List.
From Verif Require Import Num PyList Mat Poly Roots Colloc Ocp Transcribe Spec SpecOcp SpecHadapt SpecTrack SpecFlow NumR DetermR ExOcp ExDeterm.
Import ListNotations.
Open Scope R_scope.
Open Scope list_scope.

(** * C86 *)
(** there is a constant, which depends on the scheme and the largest order only, such that two feasible points with the same first states, controls,
    parameters and times of a phase have the same states there, if every segment is shorter than 1 over the constant and the Lipschitz constant of the state equations *)
Theorem C86_determined : forall (cf : ccfg Rnum) Q, cfg_ok cf -> exists C, 0 <= C /\ forall (mp : mpo Rnum) npath nterm (z z' p : list R) n n' ph,
  mp_cf mp = cf -> (forall q, In q (mp_orders mp) -> (q <= Q)%nat) -> input_ok mp npath nterm z p -> input_ok mp npath nterm z' p -> widths_ok (mp_nseg mp) (o_nph (mp_ocp mp)) p ->
  nlp_at mp z p = Ok n -> nlp_at mp z' p = Ok n' -> feasible n -> feasible n' -> (ph < o_nph (mp_ocp mp))%nat ->
  let o := mp_ocp mp in let w := width mp p ph in let y := user_traj mp z ph in let y' := user_traj mp z' ph in y_t0 y < y_tf y ->
  forall L, lipschitz o ph (a_of o y) (y_t0 y) (y_tf y) L -> (forall k, (k < length (mp_orders mp))%nat -> C * L * lasts w y k < 1) ->
    y_t0 y' = y_t0 y -> y_tf y' = y_tf y -> (forall i, (i < o_na o)%nat -> y_a y' i = y_a y i) ->
    (forall i c, (i < total_nodes (mp_orders mp))%nat -> (c < o_nu o)%nat -> y_u y' i c = y_u y i c) -> (forall s, (s < o_nx o)%nat -> y_x y' 0 s = y_x y 0 s) ->
    same_traj mp y' y.
Proof. exact determined_thm. Qed.
Print Assumptions C86_determined.
(** not so on coarse meshes: x' = x on two segments of length 1; all else is as above *)
Theorem C86_coarse_refuted : exists (mp : mpo Rnum) npath nterm (z z' p : list R) n n', input_ok mp npath nterm z p /\ input_ok mp npath nterm z' p /\ widths_ok (mp_nseg mp) (o_nph (mp_ocp mp)) p /\
  nlp_at mp z p = Ok n /\ nlp_at mp z' p = Ok n' /\ feasible n /\ feasible n' /\ let o := mp_ocp mp in let y := user_traj mp z 0 in let y' := user_traj mp z' 0 in
  y_t0 y < y_tf y /\ lipschitz o 0 (a_of o y) (y_t0 y) (y_tf y) 1 /\ y_t0 y' = y_t0 y /\ y_tf y' = y_tf y /\ o_na o = 0%nat /\
  (forall i c, (i < total_nodes (mp_orders mp))%nat -> (c < o_nu o)%nat -> y_u y' i c = y_u y i c) /\ (forall s, (s < o_nx o)%nat -> y_x y' 0 s = y_x y 0 s) /\
  y_x y 2 0 = 0 /\ y_x y' 2 0 = 1.
Proof.
  destruct (growing_point 2 0 (or_introl eq_refl)) as (z & n & Lz & (X & U & T0 & TF & _) & En & F). destruct (growing_point 2 1 (or_intror eq_refl)) as (z' & n' & Lz' & (X' & U' & T0' & TF' & _) & En' & F').
  exists (growing_mp 2), (fun _ => None), (fun _ => None), z, z', [1 / 2; 1 / 2], n, n'. split; [exact (growing_in 2 z Lz)|]. split; [exact (growing_in 2 z' Lz')|]. split; [exact halves|].
  split; [exact En|]. split; [exact En'|]. split; [exact F|]. split; [exact F'|]. intros o y y'. fold y in X, U, T0, TF. fold y' in X', U', T0', TF'.
  split; [rewrite T0, TF; cbn; lra|]. split; [apply growing_lip|]. split; [rewrite T0, T0'; reflexivity|]. split; [rewrite TF, TF'; reflexivity|]. split; [reflexivity|].
  split; [intros i c Hi Hc; rewrite (U i c Hi Hc), (U' i c Hi Hc); reflexivity|]. split; [intros s Hs; rewrite (X 0%nat s ltac:(cbn; lia) Hs), (X' 0%nat s ltac:(cbn; lia) Hs); reflexivity|].
  split; [exact (X 2%nat 0%nat ltac:(cbn; lia) ltac:(cbn; lia))|exact (X' 2%nat 0%nat ltac:(cbn; lia) ltac:(cbn; lia))].
Qed.
Print Assumptions C86_coarse_refuted.
(** whatever the constant, that problem on short segments meets the hypotheses of C86_determined *)
Example C86_case : forall C, 0 <= C -> exists (T : R) (z : list R) n, let mp := growing_mp T in cfg_ok (mp_cf mp) /\ (forall q, In q (mp_orders mp) -> (q <= 1)%nat) /\
  input_ok mp (fun _ => None) (fun _ => None) z [1 / 2; 1 / 2] /\ widths_ok (mp_nseg mp) (o_nph (mp_ocp mp)) [1 / 2; 1 / 2] /\ nlp_at mp z [1 / 2; 1 / 2] = Ok n /\ feasible n /\
  let o := mp_ocp mp in let y := user_traj mp z 0 in y_t0 y < y_tf y /\ lipschitz o 0 (a_of o y) (y_t0 y) (y_tf y) 1 /\
  forall k, (k < length (mp_orders mp))%nat -> C * 1 * lasts (width mp [1 / 2; 1 / 2] 0) y k < 1.
Proof.
  intros C HC. assert (HT : 0 < / (C + 1)) by (apply Rinv_0_lt_compat; lra). destruct (growing_point (/ (C + 1)) 0 (or_introl eq_refl)) as (z & n & Lz & (X & U & T0 & TF & _) & En & F).
  exists (/ (C + 1)), z, n. intros mp. split; [apply demo_cf_ok; cbn; auto|]. split; [intros q [<-|[<-|[]]]; lia|]. split; [exact (growing_in _ z Lz)|]. split; [exact halves|]. split; [exact En|]. split; [exact F|].
  intros o y. fold mp y in T0, TF. split; [rewrite T0, TF; exact HT|]. split; [apply growing_lip|]. intros k Hk. unfold lasts. rewrite T0, TF. cbn [spike y_t0 y_tf].
  assert (W : width mp [1 / 2; 1 / 2] 0 k = 1 / 2) by (destruct k as [|[|k]]; [reflexivity|reflexivity|cbn in Hk; lia]). rewrite W.
  assert (E : C * / (C + 1) = 1 - / (C + 1)) by (field; lra). replace (C * 1 * ((/ (C + 1) - 0) * (1 / 2))) with (C * / (C + 1) / 2) by lra. lra.
Qed.
