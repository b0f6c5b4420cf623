(** Worked cases and counterexamples for residual grids and residuals. *)
From Coq Require Import String.
From Coq Require Import Reals List Lia Lra Bool Arith ZArith QArith.
From Coquelicot Require Import Coquelicot.
From Verif Require Import Num PyList Mat Poly Roots Colloc Ocp Transcribe Solve Hadapt Resid Refine.
From Verif Require Import Spec SpecOcp SpecSolve SpecHadapt SpecResid NumR ListR CompR BlockR NlpR NlpThm NlpMain ExOcp.
From Verif Require Import HadaptR GridR GridThm ResidR ResidThm ResidMain RefineR RefineThm TotalR.
Import ListNotations.
Open Scope R_scope.
Open Scope list_scope.

(** ** widths of the worked problem *)
Lemma rich_widths : widths_ok 3 2 rich_p.
Proof.
  split; [reflexivity|]. intros [|[|ph]] Hph; [..|lia]; (split; [reflexivity|split; [|cbn; lra]]);
    cbn; intros w Hw; repeat (destruct Hw as [<-|Hw]; [lra|]); destruct Hw.
Qed.

(** ** in binary64 ten widths 0.1 sum to less than 1: the last requested node is lost *)
Definition tenth : list Fnum := repeat (nlit (N := Fnum) 1 10) 10.
Lemma float_end_lost :
  option_map (@List.length _) (match interpolation_taus (N := Fnum) [n1] tenth n0 n1 with Ok ts => Some (List.concat ts) | Raise _ => None end) = Some 0%nat /\
  option_map (@List.length _) (match interpolation_taus (N := Fnum) [n1] [nlit 1 2; nlit 1 2] n0 n1 with Ok ts => Some (List.concat ts) | Raise _ => None end) = Some 1%nat.
Proof. split; vm_compute; reflexivity. Qed.
(** widths within the tolerance that sum to less than 1 lose it over the reals as well *)
Lemma short_widths_lose : exists ws ts, (forall w, In w ws -> 0 < w) /\ Rabs (total ws - 1) < 1 / 1000000 /\
  interpolation_taus (N := Rnum) [-1; 0; 1] ws (-1) 1 = Ok ts /\ ~ In 1 (positions (-1) 1 ws ts) /\ length (positions (-1) 1 ws ts) = 1%nat.
Proof.
  set (ws := [1 / 2; 1 / 2 - 1 / 10000000]). exists ws.
  assert (Hs : Rabs (total ws - 1) < 1 / 1000000).
  { unfold ws, total. cbn [fold_right]. apply Rabs_def1; lra. }
  assert (Hw : forall w, In w ws -> 0 < w) by (intros w [<-|[<-|[]]]; lra).
  destruct (taus_tol_thm [-1; 0; 1] ws (-1) 1 ltac:(lra) ltac:(intros; apply Rlt_le, Hw; auto) Hs) as (ts & E & _ & _ & HP).
  exists ts. split; [exact Hw|]. split; [exact Hs|]. split; [exact E|].
  assert (EP : part 0 (total ws) (map (frac (-1) 1) [-1; 0; 1]) = [frac (-1) 1 0]).
  { unfold part. cbn [map filter]. unfold ws, total, frac. cbn [fold_right].
    destruct (Rlt_dec 0 ((-1 - -1) / (1 - -1))); [exfalso; lra|].
    destruct (Rlt_dec 0 ((0 - -1) / (1 - -1))); [|exfalso; lra].
    destruct (Rle_dec ((0 - -1) / (1 - -1)) _) as [|C]; [|exfalso; lra].
    destruct (Rlt_dec 0 ((1 - -1) / (1 - -1))); [|exfalso; lra].
    destruct (Rle_dec ((1 - -1) / (1 - -1)) _) as [C|]; [exfalso; lra|]. reflexivity. }
  rewrite EP in HP. apply Permutation.Permutation_sym, Permutation.Permutation_length_1_inv in HP. rewrite HP. split; [|reflexivity].
  intros [C|[]]. unfold frac in C. lra.
Qed.

(** ** the fixed grid of a phase with several segments contains the end node *)
Lemma fixed_contains_end : exists rc mp sw ph ts, mpo_ok mp /\ widths_ok (mp_nseg mp) (o_nph (mp_ocp mp)) sw /\ (ph < o_nph (mp_ocp mp))%nat /\
  residual_grid rc mp sw ph (Some "fixed"%string) = Ok (Some ts) /\
  In 1 (positions (cf_tau0 (mp_cf mp)) (cf_tau1 (mp_cf mp)) (phase_part (mp_nseg mp) ph sw) ts).
Proof.
  destruct rich_widths as [_ Hp].
  destruct (fixed_grid_end (Rcfg 9 ["fixed"; "fixed"]%string) rich_mp rich_p 0 rich_mp_ok ltac:(cbn; lia) (Hp 0%nat ltac:(lia))) as (ts & E & _ & H).
  exists (Rcfg 9 ["fixed"; "fixed"]%string), rich_mp, rich_p, 0%nat, ts. split; [exact rich_mp_ok|]. split; [exact rich_widths|]. split; [cbn; lia|]. split; [exact E|exact H].
Qed.

(** ** the grid type configured for the second phase is not used *)
Definition mixed : rcfg := Rcfg 9 ["spectral"; "mid-points"]%string.
Lemma mixed_known ph : (ph < 2)%nat -> exists g, nth_error (r_grid mixed) ph = Some g /\ grid_known g.
Proof. intros H. destruct ph as [|[|ph]]; [..|lia]; (eexists; split; [reflexivity|]); unfold grid_known; cbn; auto. Qed.
Lemma grid_type_ignored : exists rc mp npath nterm z p ts res own, input_ok mp npath nterm z p /\ widths_ok (mp_nseg mp) (o_nph (mp_ocp mp)) p /\
  dynamics_residuals rc mp p z None None false = Ok (ts, res) /\
  nth_error (r_grid rc) 1 = Some "mid-points"%string /\ residual_grid rc mp p 1 (Some "mid-points"%string) = Ok (Some own) /\
  map (@length R) (nth 1 ts []) <> map (@length R) own.
Proof.
  set (z := repeat 1 (2 * nvars rich_mp)). pose proof rich_input as Hin. fold z in Hin.
  destruct (mid_grid_thm mixed rich_mp rich_p 1 rich_mp_ok) as (own & Eo & Lo & _).
  destruct (spectral_grid_thm mixed rich_mp rich_p 0 rich_mp_ok) as (sp & Es & Ls & _).
  assert (Es' : forall ph, residual_grid mixed rich_mp rich_p ph (Some "spectral"%string) = Ok (Some sp)) by (intros ph; exact Es).
  set (nodes := map (fun _ => sp) (seq 0 2)).
  assert (Lsp : length sp = length (mp_orders rich_mp)) by (apply (f_equal (@length nat)) in Ls; rewrite !map_length in Ls; exact Ls).
  destruct (residuals_all mixed rich_mp _ _ z rich_p nodes None Hin) as (rs & ts & res & Ers & Ed & Lts & Lr & HA).
  { reflexivity. }
  { intros taus [<-|[<-|[]]]; exact Lsp. }
  exists mixed, rich_mp, rich_npath, rich_nterm, z, rich_p, ts, res, own. split; [exact Hin|]. split; [exact rich_widths|].
  split; [|split; [reflexivity|split; [exact Eo|]]].
  - etransitivity; [|exact Ed]. apply (residuals_one_grid mixed rich_mp rich_p z None false "spectral"%string (fun _ => sp)); [reflexivity|]. intros ph _. apply Es'.
  - rewrite Lo. destruct (HA 1%nat ltac:(cbn; lia)) as (L1 & _ & Hex & Hv). destruct (Hex 0%nat ltac:(cbn; lia)) as (cx & cu & Hc).
    assert (E0 : nth_error (nth 1 nodes []) 0 = Some (nth 0 sp [])).
    { change (nth 1 nodes []) with sp. apply nth_error_nth'. rewrite Lsp. cbn. lia. }
    destruct (Hv 0%nat _ cx cu E0 Hc) as [Et _]. intros C. apply (f_equal (fun l => nth 0 l 0%nat)) in C. cbn [rich_mp mp_orders nth] in C.
    assert (C' : length (nth 0 (nth 1 ts []) []) = 3%nat) by (rewrite <- C; symmetry; apply (nth_map_in (@length R)); cbn in L1 |- *; nred; lia).
    pose proof (nth_error_nth _ _ [] Et) as En. apply (f_equal (@length R)) in En. rewrite map_length in En. clear C. assert (C : length (nth 0 sp []) = 3%nat) by (nred; congruence).
    apply (f_equal (fun l => nth 0 l 0%nat)) in Ls. assert (Ls' : length (nth 0 sp []) = 10%nat).
    { etransitivity; [symmetry; apply (nth_map_in (@length R) sp 0 0%nat []); nred; rewrite Lsp; cbn; lia|exact Ls]. }
    nred. lia.
Qed.

(** ** a system at rest: one state with zero dynamics, two segments of order one, phase from 0 to 1 *)
Definition still_mp : mpo Rnum := demo_mp 1 0 [1] false false [0] [0] 2.
Lemma still_z : exists z, input_ok still_mp (fun _ => None) (fun _ => None) z [1 / 2; 1 / 2] /\
  same_traj still_mp (user_traj still_mp z 0) (rest (fun _ _ => 0) 0 1) /\ (exists n, nlp_at still_mp z [1 / 2; 1 / 2] = Ok n /\ feasible n).
Proof.
  destruct (demo_z 1 0 [1] false false [0] [0] eq_refl eq_refl eq_refl ltac:(intros s [<-|[]]; lra) ltac:(lia) 2 ltac:(lia) (fun _ _ => 0) 1 [1 / 2; 1 / 2] ltac:(lra) eq_refl)
    as (z & n & H1 & H2 & H3 & H4 & _).
  exists z. split; [exact H1|]. split; [exact H3|]. exists n. split; [exact H2|]. apply H4. split; intros C; discriminate.
Qed.
Lemma still_roots : mapM (c_roots (mp_cf still_mp)) (mp_orders still_mp) = Ok [[-1; 1]; [-1; 1]].
Proof. exact (demo_roots 1 0 [1] false false [0] [0] 2). Qed.
Lemma still_widths : widths_ok 2 1 [1 / 2; 1 / 2].
Proof.
  split; [reflexivity|]. intros [|ph] Hph; [|lia]. split; [reflexivity|]. split; [|cbn; lra]. cbn. intros w [<-|[<-|[]]]; lra.
Qed.
Lemma still_dyn cx cu y tau t s : nth s (dyn_along (mp_ocp still_mp) 0 y cx cu tau t) 0 = 0.
Proof. destruct s as [|[|s]]; reflexivity. Qed.
Definition still_nodes : list (list (list R)) := [[[0]; [0]]].
(** relative residuals of a state that does not move do not exist *)
Lemma relative_fails : exists mp npath nterm z p nodes n, input_ok mp npath nterm z p /\ widths_ok (mp_nseg mp) (o_nph (mp_ocp mp)) p /\
  length nodes = o_nph (mp_ocp mp) /\ (forall taus, In taus nodes -> length taus = length (mp_orders mp)) /\
  nlp_at mp z p = Ok n /\ feasible n /\
  forall rc gt, (exists out, dynamics_residuals rc mp p z (Some nodes) gt false = Ok out) /\
                dynamics_residuals rc mp p z (Some nodes) gt true = Raise AssertionError.
Proof.
  destruct still_z as (z & Hin & Hy & n & En & Hf). exists still_mp, (fun _ => None), (fun _ => None), z, [1 / 2; 1 / 2], still_nodes, n.
  split; [exact Hin|]. split; [exact still_widths|]. split; [reflexivity|]. split; [intros taus [<-|[]]; reflexivity|]. split; [exact En|]. split; [exact Hf|].
  intros rc gt.
  destruct (residuals_relative rc still_mp _ _ z [1 / 2; 1 / 2] still_nodes gt Hin eq_refl ltac:(intros taus [<-|[]]; reflexivity)) as (S & HS & Hd & _ & Hno).
  split; [eauto|]. apply Hno. intros C. specialize (C 0%nat ltac:(cbn; lia)).
  destruct (residuals_phase_thm rc still_mp _ _ z [1 / 2; 1 / 2] Hin 0%nat ltac:(cbn; lia) [[0]; [0]] eq_refl) as (rs & segs & Ers & Es & Ls & Hex & Hv).
  specialize (HS 0%nat [[0]; [0]] eq_refl). assert (segs = S 0%nat) by (nred; congruence). subst segs.
  assert (Hall : forall seg m row, In seg (S 0%nat) -> sr_f seg = Some m -> In row m -> nth 0 row 0 = 0).
  { intros seg m row Hseg Hm Hrow. destruct (In_nth_error _ _ Hseg) as (k & Ek).
    assert (Hk : (k < 2)%nat) by (change 2%nat with (length (mp_orders still_mp)); rewrite <- Ls; exact (MeshR.nth_error_lt _ _ _ Ek)).
    destruct (Hex k Hk) as (cx & cu & Hc). specialize (Hv k [0] cx cu). rewrite Hv in Ek; [|destruct k as [|[|k]]; [reflexivity..|lia]|exact Hc].
    injection Ek as Ek. rewrite <- Ek in Hm. injection Hm as Hm. rewrite <- Hm in Hrow.
    destruct Hrow as [<-|[]]. cbn [vec still_mp demo_mp mp_ocp demo o_nx seq map nth]. unfold rate. rewrite still_dyn. nred. cbn. ring. }
  destruct (Hex 0%nat ltac:(cbn; lia)) as (cx & cu & Hc). specialize (Hv 0%nat [0] cx cu eq_refl Hc).
  set (seg := Segres _ _ _) in Hv. pose proof (nth_error_In _ _ Hv) as Hs0.
  destruct (C (state_rows still_mp (defect still_mp (width still_mp [1 / 2; 1 / 2] 0) 0 (user_traj still_mp z 0) 0 cx cu) [0])) with (j := 0%nat) (v := 0) as [D _].
  - apply (in_map (@sr_r Rnum)) in Hs0. exact Hs0.
  - cbn. lia.
  - split; [lra|]. split; [|auto]. intros m row Hm Hrow. apply in_map_iff in Hm. destruct Hm as (sg & Em & Hsg).
    pose proof (Hall sg m row Hsg Em Hrow) as E0. nred. rewrite E0, Rabs_R0. lra.
  - lra.
Qed.
(** the hypotheses of the theorem on exact integration *)
Lemma still_exact z : same_traj still_mp (user_traj still_mp z 0) (rest (fun _ _ => 0) 0 1) ->
  forall k cx cu, (k < 2)%nat -> seg_polys still_mp [[-1; 1]; [-1; 1]] (user_traj still_mp z 0) k cx cu ->
  forall s, (s < 1)%nat -> (length ([] : list R) <= 1)%nat /\ forall x, -1 <= x <= 1 ->
    is_derive (peval (cx s)) x (rate still_mp (width still_mp [1 / 2; 1 / 2] 0) 0 (user_traj still_mp z 0) k cx cu s x) /\
    nth s (dyn_along (mp_ocp still_mp) 0 (user_traj still_mp z 0) cx cu x (seg_time (mp_cf still_mp) (width still_mp [1 / 2; 1 / 2] 0) (user_traj still_mp z 0) k x)) 0 = peval [] x.
Proof.
  intros (Hx & _) k cx cu Hk [Hc _] s Hs. split; [cbn; lia|]. intros x _. rewrite still_dyn. split; [|reflexivity].
  unfold rate. rewrite still_dyn. rewrite Rmult_0_r.
  specialize (Hc s Hs). pose proof (demo_line 2 k _ _ Hk Hc) as L.
  eapply line_derive with (a := 0). intros x'. rewrite L. rewrite !Hx by (cbn; lia). cbn [rest y_x]. lra.
Qed.

(** ** the refinement loop on the system at rest *)
Definition still_env (z : list R) : env (N := Rnum) := Env (N := Rnum) (Ok tt) (fun _ _ => Ok tt) (fun _ _ _ => Ok [("x", z); ("f", [0])]%string).
Definition still_rc : rcfg := Rcfg 9 ["spectral"]%string.
Lemma still_timed z : input_ok still_mp (fun _ => None) (fun _ => None) z [1 / 2; 1 / 2] -> same_traj still_mp (user_traj still_mp z 0) (rest (fun _ _ => 0) 0 1) ->
  timed_solution still_mp [("x", z); ("f", [0])]%string.
Proof.
  intros Hin (_ & _ & H0 & H1 & _) x [= <-]. split; [exact (in_z _ _ _ _ _ Hin)|]. intros ph Hph. cbn in Hph. assert (ph = 0)%nat as -> by lia.
  rewrite H0, H1. cbn. lra.
Qed.
Lemma still_full z : input_ok still_mp (fun _ => None) (fun _ => None) z [1 / 2; 1 / 2] -> same_traj still_mp (user_traj still_mp z 0) (rest (fun _ _ => 0) 0 1) ->
  full_solution still_mp [("x", z); ("f", [0])]%string.
Proof. intros H1 H2. split; [exact (still_timed z H1 H2)|]. split; eexists; reflexivity. Qed.
Definition still_args : sargs (N := Rnum) := Sargs (N := Rnum) None false "ipopt" 0 1.
Lemma still_loop : exists z s' sol c l,
  h_solve (still_env z) still_mp true (refine_cfg still_rc still_mp [1 / 100] [1 / 100] [1] (1 / 2) "residual" "merge_split") still_args 5 (fresh [[]; []]) = (s', Ok sol) /\
  st_calls s' = c :: l /\ exists w, used_widths c = Some w /\ widths_ok 2 1 w.
Proof.
  destruct still_z as (z & Hin & Hy & _). set (H := refine_cfg still_rc still_mp [1 / 100] [1 / 100] [1] (1 / 2) "residual" "merge_split").
  assert (Hg : forall ph, (ph < 1)%nat -> exists g, nth_error (r_grid still_rc) ph = Some g /\ grid_known g).
  { intros [|ph] Hph; [|lia]. eexists. split; [reflexivity|]. unfold grid_known. cbn. auto. }
  assert (Hpos : forall x, In x ([1 / 100] ++ [1]) -> 0 < x) by (intros x [<-|[<-|[]]]; lra).
  assert (Hne : no_equal_area (call_options H still_args (fresh [[]; []]))) by (intros _; eexists; split; [reflexivity|discriminate]).
  assert (R : exists s' sol, h_solve (still_env z) still_mp true H still_args 5 (fresh [[]; []]) = (s', Ok sol) /\ full_solution still_mp sol).
  { apply (solve_succeeds still_rc still_mp (fun _ => None) (fun _ => None)); cbn [still_mp demo_mp mp_ocp demo o_nph o_nx length]; auto; try lia.
    - exact (in_mpo _ _ _ _ _ Hin).
    - exact (in_ocp _ _ _ _ _ Hin).
    - exact (in_sc _ _ _ _ _ Hin).
    - intros calls v i. eexists. split; [reflexivity|]. exact (still_full z Hin Hy).
    all: try discriminate. all: cbn; lia. }
  destruct R as (s' & sol & Er & _).
  pose proof (loop_widths still_rc still_mp (fun _ => None) (fun _ => None) [1 / 100] [1 / 100] [1] (1 / 2) "residual" "merge_split" (still_env z) true still_args 5 (fresh [[]; []]) s' (Ok sol)
    (in_mpo _ _ _ _ _ Hin) (in_ocp _ _ _ _ _ Hin) (in_sc _ _ _ _ _ Hin) (le_n 1) (le_n 1) Hg (le_n 1) (le_n 1) (le_n 1) Hpos) as L. cbv zeta in L. fold H in L.
  destruct L as (new & En & Hw).
  - intros calls v i out [= <-]. exact (still_timed z Hin Hy).
  - discriminate.
  - discriminate.
  - discriminate.
  - cbn. lia.
  - exact Hne.
  - exact Er.
  - destruct (HsolveR.h_solve_inv _ _ _ _ _ _ _ _ _ Er) as (new' & En' & _ & _ & _ & _ & _ & Hs). destruct (Hs sol eq_refl) as (_ & Hnil & _).
    cbn [fresh st_calls app] in En, En'. assert (Enn : new' = new) by congruence. rewrite Enn in Hnil.
    destruct new as [|c l]; [discriminate (Hnil eq_refl)|]. exists z, s', sol, c, l. split; [exact Er|]. split; [exact En|]. apply Hw. left. reflexivity.
Qed.
Lemma still_slope : exists z, input_ok still_mp (fun _ => None) (fun _ => None) z [1 / 2; 1 / 2] /\ widths_ok 2 1 [1 / 2; 1 / 2] /\
  y_t0 (user_traj still_mp z 0) < y_tf (user_traj still_mp z 0).
Proof.
  destruct still_z as (z & Hin & (_ & _ & H0 & H1 & _) & _). exists z. split; [exact Hin|]. split; [exact still_widths|]. rewrite H0, H1. cbn. lra.
Qed.
Lemma still_states rc : exists z res, states_residuals rc still_mp [1 / 2; 1 / 2] z (Some [0%nat]) (Some still_nodes) false = Ok res.
Proof.
  destruct still_z as (z & Hin & _). exists z. destruct (states_all rc still_mp _ _ z [1 / 2; 1 / 2] still_nodes [0%nat] Hin eq_refl) as (rs & res & _ & E & _).
  - intros taus [<-|[]]. split; [reflexivity|]. intros pts [<-|[<-|[]]]; constructor; [easy|constructor|easy|constructor].
  - intros ph [<-|[]]. cbn. lia.
  - exists res. exact E.
Qed.
