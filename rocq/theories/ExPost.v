(** Worked examples for retrieved results. *)
From Coq Require Import String.
From Coq Require Import Reals.
From Coq Require Import List Lia Lra Bool Arith.
From Verif Require Import Num PyList Mat Poly Roots Colloc Ocp Transcribe Solve Hadapt Resid Adaptive Post
  Spec SpecOcp SpecSolve SpecHadapt SpecResid SpecAdapt SpecPost
  NumR ListR PolyR CollocR ScaleR NlpMain ExOcp ExNlp ExAdapt ResidMain ExResid PostR PostThm PostGrid PostMain PostTotal.
Import ListNotations.
Open Scope R_scope.
Open Scope list_scope.

(** objects of both classes, for a problem of two phases, three segments, one parameter *)
Lemma rich_post sc : exists y po, made_by_mpopt rich_mp sc [[0; 1]%nat] (width rich_mp rich_p) y po /\
  phases_ok rich_mp (asked [[0; 1]%nat] []) /\ phases_ok rich_mp (asked [[0; 1]%nat] [1]%nat).
Proof.
  destruct (process_ok (Rcfg 9 ["fixed"; "fixed"]%string) rich_mp [[0; 1]%nat] rich_p (repeat 1 (2 * nvars rich_mp)) sc) as (po & E); [discriminate|].
  exists (user_traj rich_mp (repeat 1 (2 * nvars rich_mp))), po. split; [|split].
  - exists (Rcfg 9 ["fixed"; "fixed"]%string), rich_npath, rich_nterm, (repeat 1 (2 * nvars rich_mp)), rich_p, false, false.
    split; [exact rich_input|]. auto.
  - split; [discriminate|]. intros ph [<-|[<-|[]]]; cbn; lia.
  - split; [discriminate|]. intros ph [<-|[]]; cbn; lia.
Qed.
Lemma rich_post_adaptive sc : exists w y po, made_by_adaptive rich_mp sc [[0; 1]%nat] w y po /\
  phases_ok rich_mp (asked [[0; 1]%nat] [1; 0; 1]%nat).
Proof.
  destruct rich_ad_input as (z & Hin). unfold made_by_adaptive.
  exists (ad_width rich_mp z), (ad_traj rich_mp z). eexists. split.
  - exists (Rcfg 9 []), (default_acfg (N := Rnum) 2), rich_npath, rich_nterm, z, [], false, false. split; [exact Hin|]. split; [reflexivity|]. auto.
  - split; [discriminate|]. intros ph [<-|[<-|[<-|[]]]]; cbn; lia.
Qed.

(** one state, one control, two parameters with different scales *)
Definition twop : ocp Rnum :=
  Ocp (N := Rnum) 1 1 2 1
    [fun _ _ _ _ => Ok [0]] [fun _ _ _ _ => Ok None] [fun _ _ _ _ _ => Ok (Some 0)]
    [fun _ _ _ _ => Ok (Some 0)] [fun _ _ _ _ _ => Ok None] []
    [1] [1] [2; 1 / 2] 1 [[0]] [[0]] [[0]] [[0]] [[0]] [[1]] [[1; 1]]
    [[NInf]] [[PInf]] [[NInf]] [[PInf]] [[NInf; NInf]] [[PInf; PInf]]
    [[Fin 0]] [[Fin 0]] [[Fin 0]] [[PInf]] [] [] [false] [Fin (-15)] [Fin 15] [true] [false].
Lemma twop_ok : ocp_ok twop (fun _ => None) (fun _ => None).
Proof.
  constructor; [|cbn; lia|..].
  { constructor; cbn; auto; try (apply shaped1; reflexivity).
    - split; [reflexivity|]. intros H. lia.
    - split; [reflexivity|]. intros H. lia.
    - intros [|i] [|j] Hi Hj; try lia; cbn; auto.
    - intros [|i] [|j] Hi Hj; try lia; cbn; auto.
    - intros [|i] [|[|j]] Hi Hj; try lia; cbn; auto.
    - intros [|i] [|j] Hi Hj; try lia; cbn; lra.
    - intros [|i] [|j] Hi Hj; try lia; cbn; auto.
    - intros i j Hi Hj; lia. }
  - intros ph f x u t a H _ _ _. one ph H; eexists; split; reflexivity.
  - intros ph f x u t a H _ _ _. one ph H; eexists; reflexivity.
  - intros ph f xf tf x0 t0 a H _ _ _. one ph H; eexists; reflexivity.
  - intros ph f x u t a H _ _ _. one ph H; reflexivity.
  - intros ph f xf tf x0 t0 a H _ _ _. one ph H; reflexivity.
  - reflexivity.
  - reflexivity.
  - reflexivity.
  - reflexivity.
  - reflexivity.
  - intros; cbn; lia.
  - intros i j [].
  - cbn. lia.
  - intros H. cbn in H. lia.
Qed.
Definition twop_mp : mpo Rnum := Mpo twop 1 [1]%nat (demo_cf "LGR").
(** state, state, control, control, t0, tf, parameters in solver units *)
Definition twop_z : list R := [0; 0; 0; 0; 0; 1; 6; 5].
Lemma twop_input : input_ok twop_mp (fun _ => None) (fun _ => None) twop_z [1].
Proof.
  constructor; [|exact twop_ok| |reflexivity|reflexivity].
  - constructor; cbn [twop_mp mp_cf mp_nseg mp_orders]; [apply demo_cf_ok; cbn; auto|reflexivity|lia|]. intros p [<-|[]]; lia.
  - constructor; cbn; [intros s [<-|[]]; lra|intros s [<-|[]]; lra|intros s [<-|[<-|[]]]; lra|lra].
Qed.
(** the parameters are 3 and 10; retrieved in user units they are the matrix [[3; 12]; [5/2; 10]] *)
Lemma twop_wrong : exists y po dn di, made_by_mpopt twop_mp false [[0]%nat] (width twop_mp [1]) y po /\
  y_a (y 0%nat) 0 = 3 /\ y_a (y 0%nat) 1 = 10 /\
  get_data po [] false = Ok dn /\ get_data po [] true = Ok di /\
  nr (pd_a dn) = 2%nat /\ nc (pd_a dn) = 2%nat /\ mget (pd_a dn) 0 1 = 12 /\ mget (pd_a dn) 1 0 = 5 / 2 /\
  nr (pd_a di) = 2%nat /\ nc (pd_a di) = 2%nat /\ mget (pd_a di) 0 1 = 12 /\ mget (pd_a di) 1 0 = 5 / 2.
Proof.
  destruct (process_ok (Rcfg 9 ["fixed"]%string) twop_mp [[0]%nat] [1] twop_z false) as (po & E); [discriminate|].
  assert (Hm : made_by_mpopt twop_mp false [[0]%nat] (width twop_mp [1]) (user_traj twop_mp twop_z) po).
  { exists (Rcfg 9 ["fixed"]%string), (fun _ => None), (fun _ => None), twop_z, [1], false, false. split; [exact twop_input|]. auto. }
  destruct (params_square twop_mp false [[0]%nat] _ _ po (or_introl Hm) []) as (dn & di & En & Ei & A1 & A2 & B1 & B2 & H).
  { split; [discriminate|]. intros ph [<-|[]]. cbn. lia. }
  { reflexivity. }
  exists (user_traj twop_mp twop_z), po, dn, di. split; [exact Hm|].
  destruct (H 0%nat 0%nat 0%nat 1%nat eq_refl ltac:(cbn; lia) ltac:(cbn; lia)) as (P1 & P2 & _).
  destruct (H 0%nat 0%nat 1%nat 0%nat eq_refl ltac:(cbn; lia) ltac:(cbn; lia)) as (Q1 & Q2 & _).
  cbn in P1, P2, Q1, Q2, A1, A2, B1, B2. split; [cbn; lra|]. split; [cbn; lra|]. split; [exact En|]. split; [exact Ei|].
  repeat split; auto; (etransitivity; [eassumption|]); nred; field.
Qed.

(** ** refinement of grids *)
Lemma grid_more : non_uniform_grid (N := Rnum) [0; 1] 4 = Ok [0; 1 / 4; 1 / 2; 3 / 4; 1].
Proof.
  destruct (non_uniform_ok [0; 1] 4 ltac:(cbn; lia)) as (k & r & E & Hk & Hl & Hp & Hm & Hs). rewrite E. f_equal. nred.
  assert (k = 2)%nat as ->.
  { destruct k as [|[|[|k]]]; cbn in Hl.
    - destruct Hs as [Hs|Hs]; lia.
    - destruct Hs as [Hs|Hs]; lia.
    - reflexivity.
    - specialize (Hm 2%nat ltac:(lia)). cbn in Hm. lia. }
  cbn in Hl. destruct r as [|a [|b [|c [|d [|e [|]]]]]]; cbn in Hl; try lia.
  pose proof (Hp 0%nat 0%nat ltac:(cbn; lia) ltac:(cbn; lia)) as P0. pose proof (Hp 0%nat 1%nat ltac:(cbn; lia) ltac:(cbn; lia)) as P1.
  pose proof (Hp 0%nat 2%nat ltac:(cbn; lia) ltac:(cbn; lia)) as P2. pose proof (Hp 0%nat 3%nat ltac:(cbn; lia) ltac:(cbn; lia)) as P3.
  pose proof (Hp 0%nat 4%nat ltac:(cbn; lia) ltac:(cbn; lia)) as P4. cbn in P0, P1, P2, P3, P4.
  subst. repeat (f_equal; [field|]). f_equal. field.
Qed.

(** ** residual data: two phases of two segments *)
Definition res_time : list (list (list R)) := [[[0; 1]; [2; 3]]; [[4; 5]; [6; 7]]].
Definition res_vals : list (list (option (list (list R)))) :=
  [[Some [[0]; [1]]; Some [[2]; [3]]]; [Some [[4]; [5]]; Some [[6]; [7]]]].
Lemma res_present ph : (ph < 2)%nat -> present res_time res_vals ph /\ uniform 2 (nth ph res_time []) /\ length (nth ph res_time []) = 2%nat.
Proof.
  intros H. destruct ph as [|[|ph]]; [| |lia]; (split; [|split; [intros t [<-|[<-|[]]]; reflexivity|reflexivity]]);
    (split; [cbn; lia|]; split; [cbn; lia|]; split; [discriminate|]; repeat constructor).
Qed.
(** ragged: the first segment has one point more than the others *)
Definition rag_time : list (list (list R)) := [[[0; 1; 2]; [3; 4]]; [[5; 6; 7]; [8; 9]]].
Definition rag_vals : list (list (option (list (list R)))) :=
  [[Some [[0]; [1]; [2]]; Some [[3]; [4]]]; [Some [[5]; [6]; [7]]; Some [[8]; [9]]]].
Lemma rag_present ph : (ph < 2)%nat -> present rag_time rag_vals ph /\ (forall m, ~ uniform m (nth ph rag_time [])) /\ length (nth ph rag_time []) = 2%nat.
Proof.
  intros H. destruct ph as [|[|ph]]; [| |lia]; (split; [|split; [|reflexivity]]);
    [split; [cbn; lia|]; split; [cbn; lia|]; split; [discriminate|]; repeat constructor| |
     split; [cbn; lia|]; split; [cbn; lia|]; split; [discriminate|]; repeat constructor|];
    (intros m U; pose proof (U _ (or_introl eq_refl)) as U1; pose proof (U _ (or_intror (or_introl eq_refl))) as U2; cbn in U1, U2; lia).
Qed.

(** the residuals of the states are computed and then dropped *)
Lemma fixed_known : forall ph, (ph < 2)%nat -> exists g, nth_error (r_grid (Rcfg 9 ["fixed"; "fixed"]%string)) ph = Some g /\ grid_known g.
Proof. intros [|[|ph]] H; [| |lia]; exists "fixed"%string; split; [reflexivity|left; reflexivity|reflexivity|left; reflexivity]. Qed.
Lemma states_dropped : exists rc mp npath nterm z p plots po, input_ok mp npath nterm z p /\ widths_ok (mp_nseg mp) (o_nph (mp_ocp mp)) p /\
  process_results rc mp plots p z false true false = Ok po /\ po_resid po = None.
Proof.
  destruct (process_total (Rcfg 9 ["fixed"; "fixed"]%string) rich_mp rich_npath rich_nterm (repeat 1 (2 * nvars rich_mp)) rich_p [[0]%nat] false true false
    rich_input ltac:(discriminate) rich_widths fixed_known) as (po & E).
  exists (Rcfg 9 ["fixed"; "fixed"]%string), rich_mp, rich_npath, rich_nterm, (repeat 1 (2 * nvars rich_mp)), rich_p, [[0]%nat], po.
  split; [exact rich_input|]. split; [exact rich_widths|]. split; [exact E|]. eapply residuals_none. exact E.
Qed.
