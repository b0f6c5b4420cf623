(** Property C95: strongly dissipative problems forget their start on every Radau mesh. *)
From Coq Require Import Reals Arith Lia Lra String List.
From Verif Require Import Num PyList Mat Poly Roots Colloc Ocp Transcribe Spec SpecOcp SpecHadapt SpecTrack SpecContract SpecForget NumR ForgetR ExOcp ExContract ExForget.
Import ListNotations.
Open Scope R_scope.
Open Scope list_scope.

(** * C95 *)
(** there is a positive constant, which depends on the scheme and the largest order only, such that the squared distance of the states of two feasible points
    with the same times, parameters and controls of a phase is divided by 1 + constant * rate * duration on every segment, and over all segments so far *)
Theorem C95_forget : forall (cf : ccfg Rnum) Q, cfg_ok cf -> exists c, 0 < c /\ forall (mp : mpo Rnum) npath nterm (z z' p : list R) n n' ph,
  mp_cf mp = cf -> (forall q, In q (mp_orders mp) -> (q <= Q)%nat /\ (cf_scheme cf = "LGR"%string \/ q = 1%nat)) -> input_ok mp npath nterm z p -> input_ok mp npath nterm z' p -> widths_ok (mp_nseg mp) (o_nph (mp_ocp mp)) p ->
  nlp_at mp z p = Ok n -> nlp_at mp z' p = Ok n' -> feasible n -> feasible n' -> (ph < o_nph (mp_ocp mp))%nat ->
  let o := mp_ocp mp in let w := width mp p ph in let y := user_traj mp z ph in let y' := user_traj mp z' ph in y_t0 y < y_tf y ->
    y_t0 y' = y_t0 y -> y_tf y' = y_tf y -> (forall i, (i < o_na o)%nat -> y_a y' i = y_a y i) -> (forall i c, (i < total_nodes (mp_orders mp))%nat -> (c < o_nu o)%nat -> y_u y i c = y_u y' i c) ->
    forall mu, 0 <= mu -> strongly_dissipative o ph (a_of o y) (y_t0 y) (y_tf y) mu ->
    (forall k, (k < length (mp_orders mp))%nat -> gap2 o y y' (offset (mp_orders mp) (S k)) * (1 + c * mu * lasts w y k) <= gap2 o y y' (offset (mp_orders mp) k)) /\
    (forall k, (k <= length (mp_orders mp))%nat -> gap2 o y y' (offset (mp_orders mp) k) * (1 + c * mu * (seg_start w y k - y_t0 y)) <= gap2 o y y' 0).
Proof. exact forget_thm. Qed.
Print Assumptions C95_forget.
(** the exponential rate of the solutions of the state equations is not reached *)
Theorem C95_exponential_refuted : exists (mp : mpo Rnum) npath nterm (z z' p : list R) n n' mu, cfg_ok (mp_cf mp) /\ (forall q, In q (mp_orders mp) -> cf_scheme (mp_cf mp) = "LGR"%string \/ q = 1%nat) /\
  input_ok mp npath nterm z p /\ input_ok mp npath nterm z' p /\ widths_ok (mp_nseg mp) (o_nph (mp_ocp mp)) p /\ nlp_at mp z p = Ok n /\ nlp_at mp z' p = Ok n' /\ feasible n /\ feasible n' /\ (1 < o_nph (mp_ocp mp))%nat /\
  let o := mp_ocp mp in let w := width mp p 1 in let y := user_traj mp z 1 in let y' := user_traj mp z' 1 in y_t0 y < y_tf y /\ y_t0 y' = y_t0 y /\ y_tf y' = y_tf y /\ o_na o = 0%nat /\
  (forall i c, (i < total_nodes (mp_orders mp))%nat -> (c < o_nu o)%nat -> y_u y i c = y_u y' i c) /\ 0 < mu /\ strongly_dissipative o 1 (a_of o y) (y_t0 y) (y_tf y) mu /\
  gap2 o y y' (offset (mp_orders mp) 2) > exp (- (2 * mu * lasts w y 1)) * gap2 o y y' (offset (mp_orders mp) 1).
Proof.
  destruct (ebb_point 1) as (z & n & Lz & (X & U & T0 & TF & _) & En & F). destruct (ebb_point 0) as (z' & n' & Lz' & (X' & U' & T0' & TF' & _) & En' & F').
  exists ebb_mp, (fun _ => None), (fun _ => None), z, z', even, n, n', (1 / 2). split; [apply demo_cf_ok; cbn; auto|]. split; [intros q _; left; reflexivity|].
  split; [exact (ebb_in z Lz)|]. split; [exact (ebb_in z' Lz')|]. split; [exact even_ok|]. split; [exact En|]. split; [exact En'|]. split; [exact F|]. split; [exact F'|]. split; [cbn; lia|].
  intros o w y y'. fold y in X, U, T0, TF. fold y' in X', U', T0', TF'. split; [rewrite T0, TF; cbn; lra|]. split; [rewrite T0, T0'; reflexivity|]. split; [rewrite TF, TF'; reflexivity|]. split; [reflexivity|].
  split; [intros i c Hi Hc; rewrite (U i c Hi Hc), (U' i c Hi Hc); reflexivity|]. split; [lra|]. split; [apply ebb_strong|].
  assert (G1 : gap2 o y y' (offset (mp_orders ebb_mp) 1) = 1) by (unfold gap2, dotdiff; cbn [o_nx o mp_ocp ebb_mp ebb Rsum]; rewrite !X, !X' by (cbn; lia); cbn; ring).
  assert (G2 : gap2 o y y' (offset (mp_orders ebb_mp) 2) = 4 / 9) by (unfold gap2, dotdiff; cbn [o_nx o mp_ocp ebb_mp ebb Rsum]; rewrite !X, !X' by (cbn; lia); cbn; field).
  rewrite G1, G2. unfold lasts. rewrite T0, TF. exact slow.
Qed.
Print Assumptions C95_exponential_refuted.
(** fading points meet the hypotheses of C95_forget *)
Example C95_case : exists (z z' : list R) n n', let mp := ebb_mp in let p := even in cfg_ok (mp_cf mp) /\ (forall q, In q (mp_orders mp) -> (q <= 1)%nat /\ (cf_scheme (mp_cf mp) = "LGR"%string \/ q = 1%nat)) /\
  input_ok mp (fun _ => None) (fun _ => None) z p /\ input_ok mp (fun _ => None) (fun _ => None) z' p /\ widths_ok (mp_nseg mp) (o_nph (mp_ocp mp)) p /\
  nlp_at mp z p = Ok n /\ nlp_at mp z' p = Ok n' /\ feasible n /\ feasible n' /\ (1 < o_nph (mp_ocp mp))%nat /\
  let o := mp_ocp mp in let y := user_traj mp z 1 in let y' := user_traj mp z' 1 in y_t0 y < y_tf y /\ y_t0 y' = y_t0 y /\ y_tf y' = y_tf y /\ o_na o = 0%nat /\
  (forall i c, (i < total_nodes (mp_orders mp))%nat -> (c < o_nu o)%nat -> y_u y i c = y_u y' i c) /\ strongly_dissipative o 1 (a_of o y) (y_t0 y) (y_tf y) (1 / 2) /\ gap2 o y y' 0 = 4.
Proof.
  destruct (ebb_point 1) as (z & n & Lz & (X & U & T0 & TF & _) & En & F). destruct (ebb_point 0) as (z' & n' & Lz' & (X' & U' & T0' & TF' & _) & En' & F').
  exists z, z', n, n'. intros mp p. split; [apply demo_cf_ok; cbn; auto|]. split; [intros q [<-|[<-|[]]]; split; auto|].
  split; [exact (ebb_in z Lz)|]. split; [exact (ebb_in z' Lz')|]. split; [exact even_ok|]. split; [exact En|]. split; [exact En'|]. split; [exact F|]. split; [exact F'|]. split; [cbn; lia|].
  intros o y y'. fold mp y in X, U, T0, TF. fold mp y' in X', U', T0', TF'. split; [rewrite T0, TF; cbn; lra|]. split; [rewrite T0, T0'; reflexivity|]. split; [rewrite TF, TF'; reflexivity|]. split; [reflexivity|].
  split; [intros i c Hi Hc; rewrite (U i c Hi Hc), (U' i c Hi Hc); reflexivity|]. split; [apply ebb_strong|].
  unfold gap2, dotdiff; cbn [o_nx o mp mp_ocp ebb_mp ebb Rsum]; rewrite !X, !X' by (cbn; lia); cbn; ring.
Qed.
