(** Runs of the module function solve. *)
From Coq Require Import String.
From Coq Require Import Reals.
From Coq Require Import List Lia Lra Bool Arith.
From Verif Require Import Num PyList Mat Poly Roots Colloc Ocp Transcribe Solve Hadapt Resid Adaptive Post Top
  Spec SpecOcp SpecSolve SpecHadapt SpecResid SpecLoop SpecAdapt SpecPost SpecTop NumR TopR ExOcp ExResid.
Import ListNotations.
Open Scope R_scope.
Open Scope list_scope.

(** the system at rest, solve(ocp, 2, 1): the solver returns the state at rest *)
Lemma still_run : exists z s' post, input_ok still_mp (fun _ => None) (fun _ => None) z (even still_mp) /\
  (exists n, nlp_at still_mp z (even still_mp) = Ok n /\ feasible n) /\
  top_solve still_rc (fun _ => still_env z) true (mp_ocp still_mp) 2 (OInt 1) (mp_cf still_mp) [[0%nat]] still_args false true (fresh [[]; []])
    = (s', Ok (still_mp, post)).
Proof.
  destruct still_z as (z & Hin & _ & Hf). assert (Ee : even still_mp = [1 / 2; 1 / 2]) by reflexivity.
  exists z. rewrite Ee.
  destruct (top_total still_rc (fun _ => still_env z) true (mp_ocp still_mp) 2 (OInt 1) (mp_cf still_mp) [[0%nat]] still_args false true (fresh [[]; []])
    still_mp (fun _ => None) (fun _ => None) [1 / 2; 1 / 2]) as (s' & post & H).
  - repeat split. cbn. intros p [<-|[<-|[]]]; reflexivity.
  - exact (in_mpo _ _ _ _ _ Hin).
  - exact (in_ocp _ _ _ _ _ Hin).
  - exact (in_sc _ _ _ _ _ Hin).
  - discriminate.
  - reflexivity.
  - exact still_widths.
  - split; [reflexivity|]. split; [reflexivity|]. intros calls v i. exists [("x", z); ("f", [0])]%string, z, [0]. repeat split. exact (in_z _ _ _ _ _ Hin).
  - intros ph Hph. exists "spectral"%string. cbn in Hph. split; [replace ph with 0%nat by lia; reflexivity|]. cbn; auto.
  - exists s', post. auto.
Qed.
(** a problem with two phases and three segments of different orders; the user gives the widths *)
Definition rich_env : env (N := Rnum) :=
  Env (N := Rnum) (Ok tt) (fun _ _ => Ok tt) (fun _ _ _ => Ok [("x", repeat 1 (2 * nvars rich_mp)); ("f", [0])]%string).
Lemma rich_run : exists s' post,
  top_solve (Rcfg 9 ["spectral"; "mid-points"]%string) (fun _ => rich_env) false (mp_ocp rich_mp) 3 (OList (mp_orders rich_mp)) (mp_cf rich_mp) [[0; 1]%nat]
    (Sargs (N := Rnum) None false "ipopt" 0 1) true true (fresh [[]; [("nlp_sw_params", VNums rich_p)]]%string) = (s', Ok (rich_mp, post)) /\
  input_ok rich_mp rich_npath rich_nterm (repeat 1 (2 * nvars rich_mp)) rich_p /\ phases_ok rich_mp [0; 1]%nat.
Proof.
  destruct (top_total (Rcfg 9 ["spectral"; "mid-points"]%string) (fun _ => rich_env) false (mp_ocp rich_mp) 3 (OList (mp_orders rich_mp)) (mp_cf rich_mp) [[0; 1]%nat]
    (Sargs (N := Rnum) None false "ipopt" 0 1) true true (fresh [[]; [("nlp_sw_params", VNums rich_p)]]%string)
    rich_mp rich_npath rich_nterm rich_p) as (s' & post & H).
  - repeat split.
  - exact rich_mp_ok.
  - exact rich_ok.
  - exact rich_scales.
  - discriminate.
  - reflexivity.
  - exact rich_widths.
  - split; [reflexivity|]. split; [reflexivity|]. intros calls v i. exists [("x", repeat 1 (2 * nvars rich_mp)); ("f", [0])]%string, (repeat 1 (2 * nvars rich_mp)), [0]. split; [reflexivity|]. split; [reflexivity|]. split; [apply repeat_length|reflexivity].
  - intros ph Hph. cbn in Hph. destruct ph as [|[|ph]]; [exists "spectral"%string|exists "mid-points"%string|lia]; (split; [reflexivity|cbn; auto]).
  - exists s', post. split; [exact H|]. split; [exact rich_input|]. split; [discriminate|]. cbn. intros ph [<-|[<-|[]]]; lia.
Qed.
