(** Worked examples for the program with variable segment widths. *)
From Coq Require Import String.
From Coq Require Import Reals.
From Coquelicot Require Import Coquelicot.
From Coq Require Import List Lia Lra Bool Arith.
From Verif Require Import Num PyList Mat Poly Roots Colloc Ocp Transcribe Solve Adaptive Spec SpecOcp SpecSolve SpecHadapt SpecResid SpecAdapt
  NumR ListR PolyR CollocR ScaleR NlpMain ExOcp ExNlp AdaptThm AdaptMain.
Import ListNotations.
Open Scope R_scope.

(** two phases, three segments, with the class's default bounds and tolerances *)
Lemma rich_ad_input : exists z, ad_input_ok (default_acfg (N := Rnum) 2) rich_mp rich_npath rich_nterm z.
Proof.
  exists (repeat 1 (2 * ad_nvars rich_mp)).
  constructor; [exact rich_mp_ok|exact rich_ok|exact rich_scales|apply repeat_length|reflexivity..].
Qed.

(** a state at rest, one control, two segments of order one; any control values *)
Section Rest.
Variables (dc : bool) (u : nat -> nat -> R).
Definition rest_mp : mpo Rnum := demo_mp 1 0 [1] false dc [0] [0] 2.
Definition rest_ac : acfg Rnum := default_acfg (N := Rnum) 1.
Lemma rest_point : exists z n, ad_input_ok rest_ac rest_mp (fun _ => None) (fun _ => None) z /\
  a_nlp_at rest_ac rest_mp z = Ok n /\ feasible n /\
  mapM (c_roots (mp_cf rest_mp)) (mp_orders rest_mp) = Ok (repeat [-1; 1] 2) /\
  same_traj rest_mp (ad_traj rest_mp z 0) (rest u 0 1) /\
  (forall k, (k < 2)%nat -> ad_width rest_mp z 0 k = 1 / 2).
Proof.
  assert (P1 : forall s, In s [1] -> 0 < s) by (intros s [<-|[]]; lra).
  set (mp := demo_mp 1 0 [1] false false [0] [0] 2).
  destruct (demo_z 1 0 [1] false false [0] [0] eq_refl eq_refl eq_refl P1 (le_n 1) 2 ltac:(lia) u 1 [1 / 2; 1 / 2] ltac:(lra) eq_refl)
    as (z0 & n0 & Hin & Hn & Hs & Hf & _). fold mp in Hin, Hn, Hs, Hf.
  destruct (ad_join mp z0 [1 / 2; 1 / 2] (in_z _ _ _ _ _ Hin) (in_p _ _ _ _ _ Hin)) as (z & Hz & Hsame).
  assert (Hain : ad_input_ok rest_ac mp (fun _ => None) (fun _ => None) z).
  { constructor; [exact (in_mpo _ _ _ _ _ Hin)|exact (in_ocp _ _ _ _ _ Hin)|exact (in_sc _ _ _ _ _ Hin)|exact Hz|reflexivity..]. }
  destruct (ad_vs_fixed rest_ac mp _ _ z Hain z0 [1 / 2; 1 / 2] (in_z _ _ _ _ _ Hin) (in_p _ _ _ _ _ Hin) Hsame) as (rs & n & n0' & E1 & E2 & E3 & _ & E5).
  rewrite Hn in E3. injection E3 as <-. pose proof (demo_roots 1 0 [1] false false [0] [0] 2) as Er. fold mp in Er. rewrite Er in E1. injection E1 as <-.
  destruct (Hsame 0%nat ltac:(cbn; lia)) as [Hsame0 Hw0].
  assert (Ht : same_traj mp (ad_traj mp z 0) (rest u 0 1)) by (eapply same_trans; [exact Hsame0|exact Hs]).
  assert (Hw : forall k, (k < 2)%nat -> ad_width mp z 0 k = 1 / 2).
  { intros k Hk. rewrite Hw0 by (cbn; lia). destruct k as [|[|k]]; [reflexivity..|lia]. }
  exists z, n. split.
  { constructor; [apply demo_mp_ok; auto|apply (demo_ok 1 0 [1] false dc [0] [0]); auto|apply (demo_scales 1 0 [1] false dc [0] [0]); auto|exact Hz|reflexivity..]. }
  split; [exact E2|]. split; [|split; [exact Er|split; [exact Ht|exact Hw]]].
  apply E5.
  - intros [|ph] Hph; [reflexivity|cbn in Hph; lia].
  - split; [apply Hf; split; intros C; discriminate|]. intros ph Hph w y. cbn in Hph. assert (ph = 0)%nat as -> by lia. unfold w, y. clear w y.
    destruct Ht as (Hx & _). split; [|split; [|split; [|split]]].
    + unfold width_sum_ok. cbn [mp demo_mp mp_orders repeat length Rsum]. fold mp. rewrite !Hw by lia. lra.
    + intros k Hk. cbn in Hk. rewrite Hw by lia. change (within (Fin (@nlit Rnum 1 10000)) (Fin 1) (1 / 2)). rewrite nlit_R. unfold within; cbn [above below]. lra.
    + intros k p j q c Hk Hj Hq Hc. cbn in Hq. destruct q as [|q]; [|lia]. cbn. split; exact I.
    + intros k p j q c Hk Hj Hq Hc. cbn in Hq. destruct q as [|q]; [|lia]. cbn. split; exact I.
    + intros _ k p j s cx cu Hk Hj Hq [Hc _].
      assert (Hk2 : (k < 2)%nat) by (change 2%nat with (length (mp_orders mp)); apply nth_error_Some; congruence).
      assert (s = 0)%nat as -> by (cbn in Hq; lia). specialize (Hc 0%nat ltac:(cbn; lia)).
      pose proof (demo_line 2 k _ _ Hk2 Hc) as L. unfold defect.
      rewrite (line_Derive _ 0 0) by (intros x'; rewrite L, !Hx by (cbn; lia); cbn [rest y_x]; lra).
      unfold rate. replace (nth 0 (dyn_along _ _ _ _ _ _ _) 0) with 0 by reflexivity.
      replace (_ * (_ * _)) with 0 by ring. rewrite Rabs_R0. change (0 <= @nlit Rnum 1 1000). rewrite nlit_R. lra.
Qed.
End Rest.

(** the program does not look at du_continuity *)
Lemma ducont_ignored : exists ac mp npath nterm z n rs, ad_input_ok ac mp npath nterm z /\
  mapM (c_roots (mp_cf mp)) (mp_orders mp) = Ok rs /\ a_nlp_at ac mp z = Ok n /\ feasible n /\
  nth 0 (o_ducont (mp_ocp mp)) false = true /\ ~ ducont_ok mp rs 0 (ad_traj mp z 0) /\
  (forall k, (k < mp_nseg mp)%nat -> ad_width mp z 0 k = 1 / 2).
Proof.
  set (u := fun (i : nat) (c : nat) => match i with 1%nat => 1 | _ => 0 end).
  destruct (rest_point true u) as (z & n & H1 & H2 & H3 & H4 & H5 & H6).
  exists rest_ac, (rest_mp true), (fun _ => None), (fun _ => None), z, n, (repeat [-1; 1] 2).
  split; [exact H1|]. split; [exact H4|]. split; [exact H2|]. split; [exact H3|]. split; [reflexivity|]. split; [|exact H6].
  intros C. destruct H5 as (_ & Hu & _).
  assert (I1 : seg_interp (mp_orders (rest_mp true)) 0 (nth 0 (repeat [-1; 1] 2) []) (fun i => y_u (ad_traj (rest_mp true) z 0) i 0) [1 / 2; 1 / 2]).
  { split; [cbn; lia|]. intros [|[|j]] Hj; [| |cbn in Hj; lia]; rewrite Hu by (cbn; lia); cbn; field. }
  assert (I2 : seg_interp (mp_orders (rest_mp true)) 1 (nth 1 (repeat [-1; 1] 2) []) (fun i => y_u (ad_traj (rest_mp true) z 0) i 0) [1 / 2; - (1 / 2)]).
  { split; [cbn; lia|]. intros [|[|j]] Hj; [| |cbn in Hj; lia]; rewrite Hu by (cbn; lia); cbn; field. }
  specialize (C eq_refl 0%nat 0%nat _ _ ltac:(cbn; lia) ltac:(cbn; lia) I1 I2).
  rewrite (line_Derive _ (1 / 2) (1 / 2)) in C by (intros; cbn; ring). rewrite (line_Derive _ (1 / 2) (- (1 / 2))) in C by (intros; cbn; ring). lra.
Qed.

(** solving *)
Definition rest_env (z : list R) : env (N := Rnum) := Env (N := Rnum) (Ok tt) (fun _ _ => Ok tt) (fun _ _ _ => Ok [("x", z); ("f", [0])]%string).
Lemma rest_solves z : length z = 10%nat -> exists s', a_solve (rest_mp false) (rest_env z) (Sargs (N := Rnum) (Some [("x", z)]%string) false "ipopt" 0 1) (fresh [[]; []])
  = (s', Ok [("x", z); ("f", [0])]%string).
Proof.
  intros Hz. do 11 (destruct z as [|? z]; try discriminate). eexists. reflexivity.
Qed.
