(** The refinement of a system at rest ends below its tolerance (example). *)
From Coq Require Import String.
From Coq Require Import Reals List Lia Lra Bool Arith.
From Coquelicot Require Import Coquelicot.
From Verif Require Import Num PyList Mat Poly Roots Colloc Ocp Transcribe Solve Hadapt Resid Refine.
From Verif Require Import Spec SpecOcp SpecSolve SpecHadapt SpecResid NumR ResidR ResidThm ResidMain RefineR RefineThm TotalR ExOcp ExResid SpecLoop LoopR CertR.
Import ListNotations.
Open Scope R_scope.
Open Scope list_scope.

Lemma bounded (l : list R) : exists b, 0 < b /\ forall x, In x l -> Rabs x < b.
Proof.
  induction l as [|x l (b & H0 & H)]; [exists 1; split; [lra|intros x []]|]. exists (b + Rabs x). pose proof (Rabs_pos x). split; [lra|].
  intros y [<-|Hy]; [lra|]. specialize (H y Hy). lra.
Qed.
Lemma still_met : exists z t s' sol pre k e,
  let H := refine_cfg still_rc still_mp [t] [1 / 100] [1] (1 / 2) "residual" "merge_split" in
  mp_nseg still_mp = 2%nat /\ refines (call_options H still_args (fresh [[]; []])) /\
  h_solve (still_env z) still_mp true H still_args 1 (fresh [[]; []]) = (s', Ok sol) /\ st_info s' = pre ++ [(k, e)] /\ converged [t] e.
Proof.
  destruct still_z as (z & Hin & Hy & _). pose proof (equal_widths_ok still_mp ltac:(cbn; lia)) as Hw.
  assert (Hin' : input_ok still_mp (fun _ => None) (fun _ => None) z (Solve.equal_widths still_mp)).
  { destruct Hin as [A B C D _]. constructor; auto. }
  assert (Hg : forall ph, (ph < 1)%nat -> exists g, nth_error (r_grid still_rc) ph = Some g /\ grid_known g).
  { intros [|ph] Hph; [|lia]. eexists. split; [reflexivity|]. unfold grid_known. cbn. auto. }
  destruct (own_residuals still_rc still_mp _ _ z _ Hin' Hw (le_n 1) "spectral"%string eq_refl ltac:(unfold grid_known; cbn; auto)) as (ts & res & Er & _).
  destruct (bounded (concat (map entries res))) as (t & Ht & Hb).
  set (H := refine_cfg still_rc still_mp [t] [1 / 100] [1] (1 / 2) "residual" "merge_split").
  assert (Hpos : forall x, In x ([1 / 100] ++ [1]) -> 0 < x) by (intros x [<-|[<-|[]]]; lra).
  assert (Hne : no_equal_area (call_options H still_args (fresh [[]; []]))) by (intros _; eexists; split; [reflexivity|discriminate]).
  assert (Hr : refines (call_options H still_args (fresh [[]; []]))) by (eexists; split; [reflexivity|auto]).
  assert (R : exists s' sol, h_solve (still_env z) still_mp true H still_args 1 (fresh [[]; []]) = (s', Ok sol) /\ full_solution still_mp sol /\ sol = [("x", z); ("f", [0])]%string).
  { apply (solve_satisfies (fun sol => sol = [("x", z); ("f", [0])]%string) still_rc still_mp (fun _ => None) (fun _ => None)); cbn [still_mp demo_mp mp_ocp demo o_nph o_nx length]; auto; try lia.
    - exact (in_mpo _ _ _ _ _ Hin).
    - exact (in_ocp _ _ _ _ _ Hin).
    - exact (in_sc _ _ _ _ _ Hin).
    - intros calls v i. eexists. split; [reflexivity|]. split; [exact (still_full z Hin Hy)|reflexivity].
    all: try discriminate. all: cbn; lia. }
  destruct R as (s' & sol & Es & _ & Esol).
  destruct (solve_stops (still_env z) still_mp true H still_args 1 (fresh [[]; []]) s' sol ltac:(cbn; lia) ltac:(cbn; lia) Es) as (w & e & St & [(_ & X & _)|(_ & l & new & Hl & Hc & Hf & Hi & _ & Hk)]); [discriminate X|].
  injection St as Ew _.
  destruct (reported_error still_rc still_mp [t] [1 / 100] [1] (1 / 2) "residual" "merge_split" (still_env z) true still_args 1 (fresh [[]; []]) s' sol
    ltac:(cbn; lia) ltac:(cbn; lia) ltac:(cbn; lia) Hr Es) as (w' & z' & ts' & res' & v & pre & A & B & C & [D1 D2] & F).
  exists z, t, s', sol, pre, (st_iter s'), (Some v). cbv zeta. fold H. split; [reflexivity|]. split; [exact Hr|]. split; [exact Es|]. split; [exact F|].
  destruct Hk as (p & x & El & Ex & Ev). pose proof (rf_some _ _ _ _ _ Hl) as L. rewrite El, app_length in L. cbn in L. destruct p as [|y p]; [|cbn in L; lia]. cbn [app] in El.
  pose proof (rf_first _ _ _ _ _ Hl x [] El) as Ef. rewrite A in Ev. injection Ev as Ev. assert (E1 : w' = Solve.equal_widths still_mp).
  { rewrite Ev, Ef, <- Ew. symmetry. apply even_R. }
  rewrite Esol in B. injection B as <-. rewrite E1 in C. pose proof (eq_trans (eq_sym Er) C) as X. injection X as _ <-.
  exists v. split; [reflexivity|]. intros y [<-|[]]. destruct D2 as [->|(x0 & Hx & ->)]; [exact Ht|exact (Hb x0 Hx)].
Qed.
