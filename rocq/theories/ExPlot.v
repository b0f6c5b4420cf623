(** Worked examples for plots. *)
From Coq Require Import String.
From Coq Require Import Reals.
From Coq Require Import List Lia Lra Bool Arith.
From Verif Require Import Num PyList Mat Poly Roots Colloc Ocp Transcribe Solve Hadapt Resid Adaptive Post Plot
  Spec SpecOcp SpecSolve SpecHadapt SpecResid SpecLoop SpecAdapt SpecPost SpecPlot
  NumR ListR GridR GridThm ExOcp ResidMain ExResid PostMain PostTotal ExPost PlotR PlotMain PlotThm PlotResid RefineThm PlotEvol.
Import ListNotations.
Open Scope R_scope.
Open Scope list_scope.
Local Notation canvas := (canvas (N := Rnum)).

(** two phases, residuals at spectral points: the plot of the first phase shows the residuals of both *)
Definition rich_rc : rcfg := Rcfg 9 ["spectral"; "spectral"]%string.
Lemma rich_plot : exists po ts rs, process_results rich_rc rich_mp [[0; 1]%nat] rich_p (repeat 1 (2 * nvars rich_mp)) false false true = Ok po /\
  dynamics_residuals rich_rc rich_mp rich_p (repeat 1 (2 * nvars rich_mp)) None None false = Ok (ts, rs) /\
  phases_ok rich_mp (asked [[0; 1]%nat] [0%nat]) /\
  length (concat (nth 0 ts [])) = 30%nat /\ length (concat (concat ts)) = 60%nat /\
  forall s : canvas, exists s' r c, plot_phases po (Some [0%nat]) true true None None solid "" s = (s', Ok r) /\
    In c (cs_curves s') /\ cv_ax c = Axis (S (cs_figs s)) 1 2 2 /\ cv_label c = Some "dx 1"%string /\ cv_t c = concat (concat ts).
Proof.
  assert (Hg : forall ph, (ph < o_nph (mp_ocp rich_mp))%nat -> exists g, nth_error (r_grid rich_rc) ph = Some g /\ grid_known g).
  { intros ph Hph. exists "spectral"%string. cbn in Hph. destruct ph as [|[|ph]]; [| |lia]; (split; [reflexivity|cbn; auto]). }
  destruct (process_total rich_rc rich_mp rich_npath rich_nterm (repeat 1 (2 * nvars rich_mp)) rich_p [[0; 1]%nat] false false true rich_input ltac:(discriminate) rich_widths Hg) as (po & E).
  assert (Hph : phases_ok rich_mp (asked [[0; 1]%nat] [0%nat])) by (split; [discriminate|intros ph [<-|[]]; cbn; lia]).
  set (G := fun ph => match residual_grid rich_rc rich_mp rich_p ph (Some "spectral"%string) with Ok (Some t) => t | _ => [] end).
  assert (HG : forall ph, residual_grid rich_rc rich_mp rich_p ph (Some "spectral"%string) = Ok (Some (G ph)) /\ map (@length R) (G ph) = [10; 10; 10]%nat).
  { intros ph. unfold G. destruct (spectral_grid_thm rich_rc rich_mp rich_p ph rich_mp_ok) as (t & Et & L & _). rewrite Et. split; [reflexivity|exact L]. }
  destruct (solution_errors rich_rc rich_mp rich_npath rich_nterm (repeat 1 (2 * nvars rich_mp)) rich_p "spectral" G rich_input eq_refl) as (ts & rs & Ed & He & Lt & HL).
  { intros ph _. destruct (HG ph) as (A & B). split; [exact A|]. split; [rewrite <- (map_length (@length R) (G ph)), B; reflexivity|].
    destruct (G ph) as [|[|x a] l]; try discriminate B; discriminate. }
  exists po, ts, rs. split; [exact E|]. split; [exact Ed|]. split; [exact Hph|].
  assert (Len : forall (q : list (list R)), map (@length R) q = [10; 10; 10]%nat -> length (concat q) = 30%nat).
  { intros q Hq. destruct q as [|a [|b [|c [|]]]]; try discriminate Hq. cbn in Hq. inversion Hq. cbn. rewrite !app_length. cbn. lia. }
  assert (L0 : length (concat (nth 0 ts [])) = 30%nat) by (apply Len; rewrite <- (proj2 (HG 0%nat)); apply HL; cbn; lia).
  assert (L1 : length (concat (nth 1 ts [])) = 30%nat) by (apply Len; rewrite <- (proj2 (HG 1%nat)); apply HL; cbn; lia).
  split; [exact L0|]. split.
  - cbn in Lt. destruct ts as [|a [|b [|]]]; try discriminate Lt. cbn [nth] in L0, L1. cbn [concat]. rewrite app_nil_r, concat_app, app_length. nred. rewrite L0, L1. reflexivity.
  - intros s. destruct (solution_plot rich_rc rich_mp rich_npath rich_nterm _ rich_p [[0; 1]%nat] false "spectral" po (Some [0%nat]) true "-" "" None None s
      rich_input eq_refl (or_intror eq_refl) E Hph ltac:(cbn; lia) ltac:(cbn; lia)) as (ts' & rs' & roots & dn & di & Ed' & _ & _ & _ & Hp).
    assert (Et : ts' = ts) by congruence. subst ts'.
    eexists _, _, (Curve (N := Rnum) (Axis (S (cs_figs s)) 1 2 2) (concat (concat ts)) _ _ _). split; [exact Hp|]. cbn [cs_curves].
    split; [apply in_or_app; right; apply in_or_app; right; left; reflexivity|]. repeat split.
Qed.

(** two phases, two segments of different widths, residuals on the fixed grid: the phases have their
    points in different segments, and the plot raises ValueError *)
Definition uneven_mp : mpo Rnum := Mpo rich 2 [1; 1]%nat (demo_cf "LGR").
Definition uneven_p : list R := [1 / 2; 1 / 2; 3 / 4; 1 / 4].
Definition uneven_z : list R := repeat 1 (2 * nvars uneven_mp).
Definition uneven_rc : rcfg := Rcfg 2 ["fixed"; "fixed"]%string.
Lemma uneven_mp_ok : mpo_ok uneven_mp.
Proof.
  constructor; cbn [uneven_mp mp_cf mp_nseg mp_orders]; [apply demo_cf_ok; cbn; auto|reflexivity|lia|]. intros p [<-|[<-|[]]]; lia.
Qed.
Lemma uneven_input : input_ok uneven_mp rich_npath rich_nterm uneven_z uneven_p.
Proof. constructor; [exact uneven_mp_ok|exact rich_ok|exact rich_scales|apply repeat_length|reflexivity]. Qed.
Lemma uneven_widths : widths_ok 2 2 uneven_p.
Proof.
  split; [reflexivity|]. intros [|[|ph]] Hph; [| |lia]; (split; [reflexivity|]; split; [|cbn; lra]); intros x [<-|[<-|[]]]; lra.
Qed.
Lemma uneven_grid ph (ws : list R) : partition 2 ws -> phase_part 2 ph uneven_p = ws -> exists a b m, residual_grid uneven_rc uneven_mp uneven_p ph (Some "fixed"%string) = Ok (Some [a; b]) /\
  (forall x, In x a -> position (-1) 1 ws 0 x <= nth 0 ws 0) /\ (forall x, In x b -> nth 0 ws 0 < position (-1) 1 ws 1 x) /\
  (m <= 3)%nat /\ (forall i, (1 <= i <= 3)%nat -> ((i <= m)%nat <-> INR i / INR 3 <= nth 0 ws 0)) /\
  map (position (-1) 1 ws 0) a ++ map (position (-1) 1 ws 1) b = map (fun i => INR i / INR 3) (seq 1 (m - 1) ++ seq (S m) (3 - m)).
Proof.
  intros Hp Ep. destruct (fixed_grid_thm uneven_rc uneven_mp uneven_p ph uneven_mp_ok) as (ts & m & E & L & Hin & Hm & Hb & Hpos).
  { cbn [uneven_mp mp_nseg]. rewrite Ep. exact Hp. }
  cbn [uneven_mp mp_nseg mp_cf demo_cf cf_tau0 cf_tau1] in *. rewrite Ep in *. change (fixed_count uneven_rc uneven_mp - 1)%nat with 3%nat in *.
  destruct ts as [|a [|b [|]]]; try discriminate L. exists a, b, m. split; [exact E|].
  destruct Hp as (Lw & Hw & Ht). destruct ws as [|w0 [|w1 [|]]]; try discriminate Lw. pose proof (Hw w0 ltac:(cbn; auto)). pose proof (Hw w1 ltac:(cbn; auto)).
  split; [|split; [|split; [exact Hm|split; [exact Hb|]]]].
  - intros x Hx. destruct (Hin a x ltac:(cbn; auto) Hx) as [A B]. unfold position, frac. cbn. nra.
  - intros x Hx. destruct (Hin b x ltac:(cbn; auto) Hx) as [A B]. unfold position, frac. cbn. nra.
  - unfold positions in Hpos. cbn [length seq map concat nth] in Hpos. rewrite app_nil_r in Hpos. exact Hpos.
Qed.
Lemma uneven_first : exists b, residual_grid uneven_rc uneven_mp uneven_p 0 (Some "fixed"%string) = Ok (Some [[]; b]) /\ length b = 2%nat.
Proof.
  destruct (uneven_grid 0 [1 / 2; 1 / 2]) as (a & b & m & E & Ha & Hb & Hm & Hi & Hp); [apply (proj2 uneven_widths 0%nat); lia|reflexivity|]. cbn [nth] in *.
  pose proof (Hi 1%nat ltac:(lia)) as H1. pose proof (Hi 2%nat ltac:(lia)) as H2. cbn [INR] in H1, H2.
  assert (m = 1%nat). { assert ((1 <= m)%nat) by (apply H1; lra). assert (~ (2 <= m)%nat) by (intros C; apply H2 in C; lra). lia. } subst m. cbn [Nat.sub seq app map INR] in Hp.
  destruct a as [|x a].
  - exists b. split; [exact E|]. cbn [map app] in Hp. apply (f_equal (@length R)) in Hp. rewrite map_length in Hp. exact Hp.
  - exfalso. cbn [map app] in Hp. pose proof (f_equal (fun l => nth 0 l 0) Hp) as C. cbn [nth] in C. pose proof (Ha x (or_introl eq_refl)). lra.
Qed.
Lemma uneven_second : exists x x', residual_grid uneven_rc uneven_mp uneven_p 1 (Some "fixed"%string) = Ok (Some [[x]; [x']]).
Proof.
  destruct (uneven_grid 1 [3 / 4; 1 / 4]) as (a & b & m & E & Ha & Hb & Hm & Hi & Hp); [apply (proj2 uneven_widths 1%nat); lia|reflexivity|]. cbn [nth] in *.
  pose proof (Hi 2%nat ltac:(lia)) as H1. pose proof (Hi 3%nat ltac:(lia)) as H2. cbn [INR] in H1, H2.
  assert (m = 2%nat). { assert ((2 <= m)%nat) by (apply H1; lra). assert (~ (3 <= m)%nat) by (intros C; apply H2 in C; lra). lia. } subst m. cbn [Nat.sub seq app map INR] in Hp.
  destruct a as [|x a].
  - exfalso. destruct b as [|x b]; [discriminate Hp|]. pose proof (f_equal (fun l => nth 0 l 0) Hp) as C. cbn [nth map app] in C. pose proof (Hb x (or_introl eq_refl)). lra.
  - destruct a as [|x' a].
    + destruct b as [|x' [|]]; try discriminate Hp. exists x, x'. exact E.
    + exfalso. pose proof (f_equal (fun l => nth 1 l 0) Hp) as C. cbn [nth map app] in C. pose proof (Ha x' ltac:(cbn; auto)). lra.
Qed.
Lemma uneven_known : forall ph, (ph < o_nph (mp_ocp uneven_mp))%nat -> exists g, nth_error (r_grid uneven_rc) ph = Some g /\ grid_known g.
Proof. intros ph Hph. exists "fixed"%string. cbn in Hph. destruct ph as [|[|ph]]; [| |lia]; (split; [reflexivity|cbn; auto]). Qed.
Lemma uneven_phases : phases_ok uneven_mp (asked [[0; 1]%nat] [0; 1]%nat).
Proof. split; [discriminate|]. intros ph [<-|[<-|[]]]; cbn; lia. Qed.
Lemma uneven_plot : exists po, process_results uneven_rc uneven_mp [[0; 1]%nat] uneven_p uneven_z false false true = Ok po /\
  forall s : canvas, exists s', plot_results po [[0; 1]%nat] false true s = (s', Raise ValueError).
Proof.
  destruct (process_total uneven_rc uneven_mp rich_npath rich_nterm uneven_z uneven_p [[0; 1]%nat] false false true uneven_input ltac:(discriminate) uneven_widths uneven_known) as (po & E).
  exists po. split; [exact E|]. intros s.
  destruct uneven_first as (b & E0 & Lb). destruct uneven_second as (x & x' & E1).
  set (G := fun ph : nat => match ph with O => [[]; b] | _ => [[x]; [x']] end).
  destruct (solution_errors uneven_rc uneven_mp rich_npath rich_nterm uneven_z uneven_p "fixed" G uneven_input eq_refl) as (ts & rs & Ed & He & Lt & HL).
  { intros [|[|ph]] Hph; [| |cbn in Hph; lia]; (split; [assumption|]; split; [reflexivity|]); cbn; [rewrite app_nil_r; destruct b; [discriminate Lb|]|]; discriminate. }
  assert (Hna : ~ alike ts).
  { pose proof (HL 0%nat ltac:(cbn; lia)) as H0. pose proof (HL 1%nat ltac:(cbn; lia)) as H1. cbn in Lt. change (map (@length R) (nth 0 ts []) = [0%nat; length b]) in H0. change (map (@length R) (nth 1 ts []) = [1; 1]%nat) in H1. rewrite Lb in H0.
    destruct ts as [|p0 [|p1 [|]]]; try discriminate Lt. cbn [nth] in H0, H1.
    destruct p0 as [|u0 [|u1 [|]]]; try discriminate H0. destruct p1 as [|v0 [|v1 [|]]]; try discriminate H1. cbn in H0, H1. inversion H0 as [[A0 A1]]. inversion H1 as [[B0 B1]].
    intros [(m & H)|H].
    - pose proof (H [u0; u1] ltac:(cbn; auto) u0 ltac:(cbn; auto)). pose proof (H [u0; u1] ltac:(cbn; auto) u1 ltac:(cbn; auto)). nred. lia.
    - apply (H [v0; v1] ltac:(cbn; auto) 1%nat). intros t [<-|[<-|[]]]; [exact B0|exact (eq_trans B1 B0)]. }
  destruct (residuals_thm uneven_rc uneven_mp (trajectories uneven_mp) _ _ _ _ false po E) as (r & dx & Er & Ed' & Edx & Ex).
  assert (dx = (ts, rs)) by congruence. subst dx. destruct r as [rx rdx]. cbn [rd_x rd_dx] in Ex, Edx. subst rx rdx.
  assert (Hm : made_by_mpopt uneven_mp false [[0; 1]%nat] (width uneven_mp uneven_p) (user_traj uneven_mp uneven_z) po).
  { exists uneven_rc, rich_npath, rich_nterm, uneven_z, uneven_p, false, true. split; [exact uneven_input|]. auto. }
  destruct (plot_dynamics_thm uneven_mp false _ _ _ po (or_introl Hm) (Some [0; 1]%nat) true "-" "" uneven_phases ltac:(cbn; lia) ltac:(cbn; lia) ts rs None None s Er He)
    as (roots & dn & di & _ & _ & _ & _ & Hp).
  eexists. rewrite result_step. cbn [orb]. unfold solid. rewrite (Hp Hna). reflexivity.
Qed.
(** the same problem, residuals of the states: no point in the first segment *)
Lemma uneven_empty : exists res ph segs, states_residuals uneven_rc uneven_mp uneven_p uneven_z None None false = Ok res /\ In (ph, segs) res /\ In None segs.
Proof.
  destruct uneven_first as (b & E0 & Lb). destruct uneven_second as (x & x' & E1).
  set (G := fun ph : nat => match ph with O => [[]; b] | _ => [[x]; [x']] end).
  assert (HG : forall ph, (ph < 2)%nat -> exists g, nth_error (r_grid uneven_rc) ph = Some g /\ residual_grid uneven_rc uneven_mp uneven_p ph (Some g) = Ok (Some (G ph))).
  { intros [|[|ph]] Hph; [exists "fixed"%string; auto|exists "fixed"%string; auto|lia]. }
  rewrite (states_auto uneven_rc uneven_mp uneven_p uneven_z false G HG).
  destruct (states_all uneven_rc uneven_mp rich_npath rich_nterm uneven_z uneven_p (map G (seq 0 2)) (seq 0 2) uneven_input) as (rs & res & _ & Es & Ef & Hs).
  { reflexivity. }
  { intros taus Ht. apply in_map_iff in Ht. destruct Ht as (ph & <- & Hph). apply in_seq in Hph. split; [destruct ph; reflexivity|].
    destruct (HG ph ltac:(lia)) as (g & Eg & Er'). destruct (uneven_known ph ltac:(cbn; lia)) as (g' & Eg' & Hk). assert (g' = g) by congruence. subst g'.
    destruct (grid_nodup uneven_rc uneven_mp uneven_p ph g uneven_mp_ok (proj2 uneven_widths ph ltac:(lia)) Hk) as (ts & Et & _ & Hd).
    assert (Eq : ts = G ph) by congruence. rewrite <- Eq. exact Hd. }
  { intros ph Hph. apply in_seq in Hph. cbn. lia. }
  destruct res as [|[ph0 segs] res]; [discriminate Ef|]. cbn [map fst] in Ef. assert (ph0 = 0%nat) by (cbn in Ef; congruence). subst ph0.
  destruct (Hs 0%nat segs (or_introl eq_refl)) as (Ls & Hc & Hq & Hn). destruct (Hc 0%nat ltac:(cbn; lia)) as (cx & cu & Hp).
  destruct (Hq 0%nat [] cx cu eq_refl) as (cq & Hcq). pose proof (Hn 0%nat [] cx cu cq eq_refl Hp Hcq) as Hnone. cbv iota in Hnone.
  exists ((0%nat, segs) :: res), 0%nat, segs. split; [exact Es|]. split; [now left|]. eapply nth_error_In. exact Hnone.
Qed.
Lemma uneven_states : exists po, process_results uneven_rc uneven_mp [[0]%nat] uneven_p uneven_z false true true = Ok po /\
  forall s : canvas, exists s', plot_results po [[0]%nat] true true s = (s', Raise ValueError).
Proof.
  destruct (process_total uneven_rc uneven_mp rich_npath rich_nterm uneven_z uneven_p [[0]%nat] false true true uneven_input ltac:(discriminate) uneven_widths uneven_known) as (po & E).
  exists po. split; [exact E|]. intros s.
  destruct (residuals_thm uneven_rc uneven_mp (trajectories uneven_mp) _ _ _ _ true po E) as (r & dx & Er & _ & Edx & sx & Esx & Ex).
  destruct uneven_empty as (res & ph & segs & Es & Hr & Hnone).
  pose proof (f_equal (fun r => match r with Ok t => t | _ => [] end) (eq_trans (eq_sym Esx) Es)) as Eq. cbv beta iota in Eq. subst sx.
  assert (Hm : made_by_mpopt uneven_mp false [[0]%nat] (width uneven_mp uneven_p) (user_traj uneven_mp uneven_z) po).
  { exists uneven_rc, rich_npath, rich_nterm, uneven_z, uneven_p, true, true. split; [exact uneven_input|]. auto. }
  destruct r as [rx rdx]. cbn [rd_x] in Ex. subst rx.
  destruct (missing_thm uneven_mp false [[0]%nat] _ _ po (Some [0]%nat) true "-" "" None None s (map snd res) rdx segs (or_introl Hm)) as (roots & dn & di & _ & _ & _ & Hpl).
  - split; [discriminate|]. intros q [<-|[]]; cbn; lia.
  - cbn; lia.
  - cbn; lia.
  - exact Er.
  - apply in_map_iff. exists (ph, segs). auto.
  - exact Hnone.
  - eexists. rewrite result_step. cbn [orb]. unfold solid. rewrite Hpl. reflexivity.
Qed.

(** one state and sixteen controls: drawing the plots of process_results raises IndexError *)
Definition wide_mp : mpo Rnum := Mpo (demo 16 0 (repeat 1 16) false false (repeat 0 16) (repeat 0 16)) 2 [1; 1]%nat (demo_cf "LGR").
Lemma wide_input : input_ok wide_mp (fun _ => None) (fun _ => None) (repeat 1 (nvars wide_mp)) [1 / 2; 1 / 2].
Proof.
  constructor.
  - constructor; cbn [wide_mp mp_cf mp_nseg mp_orders]; [apply demo_cf_ok; cbn; auto|reflexivity|lia|]. intros p [<-|[<-|[]]]; lia.
  - apply demo_ok; try apply repeat_length; try lia.
  - apply demo_scales. intros x Hx. apply repeat_spec in Hx. subst x. lra.
  - rewrite repeat_length. cbn [wide_mp mp_ocp demo o_nph]. lia.
  - reflexivity.
Qed.
Lemma wide_plot rc : exists po, process_results rc wide_mp [[0]%nat] [1 / 2; 1 / 2] (repeat 1 (nvars wide_mp)) false false false = Ok po /\
  forall s : canvas, exists s', plot_results po [[0]%nat] false false s = (s', Raise IndexError) /\ length (cs_curves s') = (length (cs_curves s) + 16)%nat.
Proof.
  destruct (process_ok rc wide_mp [[0]%nat] [1 / 2; 1 / 2] (repeat 1 (nvars wide_mp)) false ltac:(discriminate)) as (po & E). exists po. split; [exact E|]. intros s.
  assert (Hm : made_by_mpopt wide_mp false [[0]%nat] (width wide_mp [1 / 2; 1 / 2]) (user_traj wide_mp (repeat 1 (nvars wide_mp))) po).
  { exists rc, (fun _ => None), (fun _ => None), (repeat 1 (nvars wide_mp)), [1 / 2; 1 / 2], false, false. split; [exact wide_input|]. auto. }
  destruct (plot_many_thm wide_mp false [[0]%nat] _ _ po (or_introl Hm) (Some [0]%nat) true "-" "" false s) as (rs & dn & di & _ & _ & Hi & Hp).
  - split; [discriminate|]. intros ph [<-|[]]; cbn; lia.
  - right. cbn. lia.
  - left. reflexivity.
  - eexists. split; [rewrite result_step; cbn [orb]; unfold solid; rewrite Hp; reflexivity|]. cbn [cs_curves]. rewrite app_length, firstn_length. f_equal.
    change (if 15 <? o_nx (mp_ocp wide_mp) then 15 else o_nx (mp_ocp wide_mp) + 15)%nat with 16%nat. apply Nat.min_l.
    unfold phase_curves, smooth_curves, curves_of. rewrite !app_length, !map_length, !seq_length. destruct Hi as (_ & B & _ & D' & _). rewrite B, D'. cbn. lia.
Qed.
Lemma uneven_same : same_grid uneven_rc uneven_mp "fixed".
Proof. intros [|[|ph]] H; cbn in H; [reflexivity|reflexivity|lia]. Qed.
Lemma rich_shown : exists y po, made_by_mpopt rich_mp false [[0; 1]%nat] (width rich_mp rich_p) y po /\
  phases_ok rich_mp (asked [[0; 1]%nat] (wanted (Some [1]%nat))) /\ po_resid po = None /\
  (o_nx (mp_ocp rich_mp) <= 15)%nat /\ (o_nu (mp_ocp rich_mp) <= 15)%nat.
Proof.
  destruct (process_ok rich_rc rich_mp [[0; 1]%nat] rich_p (repeat 1 (2 * nvars rich_mp)) false) as (po & E); [discriminate|].
  exists (user_traj rich_mp (repeat 1 (2 * nvars rich_mp))), po. split; [|split; [|split; [|cbn; lia]]].
  - exists rich_rc, rich_npath, rich_nterm, (repeat 1 (2 * nvars rich_mp)), rich_p, false, false. split; [exact rich_input|]. auto.
  - split; [discriminate|]. intros ph [<-|[]]; cbn; lia.
  - exact (residuals_none _ _ _ _ _ _ _ _ _ E).
Qed.
Lemma rich_both : exists po, process_results rich_rc rich_mp [[0; 1]%nat] rich_p (repeat 1 (2 * nvars rich_mp)) true true true = Ok po /\
  same_grid rich_rc rich_mp "spectral" /\ input_ok rich_mp rich_npath rich_nterm (repeat 1 (2 * nvars rich_mp)) rich_p /\
  widths_ok (mp_nseg rich_mp) (o_nph (mp_ocp rich_mp)) rich_p /\ phases_ok rich_mp (asked [[0; 1]%nat] (wanted None)).
Proof.
  destruct (process_total rich_rc rich_mp rich_npath rich_nterm (repeat 1 (2 * nvars rich_mp)) rich_p [[0; 1]%nat] true true true rich_input ltac:(discriminate) rich_widths) as (po & E).
  { intros ph Hph. exists "spectral"%string. cbn in Hph. destruct ph as [|[|ph]]; [| |lia]; (split; [reflexivity|cbn; auto]). }
  exists po. split; [exact E|]. split; [intros [|[|ph]] H; cbn in H; [reflexivity|reflexivity|lia]|]. split; [exact rich_input|]. split; [exact rich_widths|].
  split; [discriminate|]. intros ph [<-|[<-|[]]]; cbn; lia.
Qed.
Lemma rich_dims : dims_fit (o_nx (mp_ocp rich_mp)) (Nested [[0; 1]; [1]]%nat) /\ dims_fit (o_nu (mp_ocp rich_mp)) (dims_or None 1).
Proof.
  split.
  - split; [cbn; lia|]. intros l [<-|[<-|[]]]; split; cbn; try lia; intros j Hj; repeat (destruct Hj as [<-|Hj]; [lia|]); destruct Hj.
  - split; [discriminate|]. split; cbn; [lia|]. intros j [<-|[]]; lia.
Qed.

(** mid-points of segments with orders 3, 1 and 2: the norms of two phases cannot be drawn *)
Lemma rich_mid_drawn : exists rc mp npath nterm z p out, input_ok mp npath nterm z p /\ widths_ok (mp_nseg mp) (o_nph (mp_ocp mp)) p /\
  same_grid rc mp "mid-points" /\ dynamics_residuals rc mp p z None None false = Ok out /\
  forall s : canvas, dynamics_drawn rc mp p z None None false None None s = (Canvas (N := Rnum) (S (cs_figs s)) (cs_curves s), Raise ValueError).
Proof.
  set (rc := Rcfg 9 ["mid-points"; "mid-points"]%string).
  assert (H : forall s : canvas, exists out, dynamics_residuals rc rich_mp rich_p (repeat 1 (2 * nvars rich_mp)) None None false = Ok out /\
    dynamics_drawn rc rich_mp rich_p (repeat 1 (2 * nvars rich_mp)) None None false None None s = (Canvas (N := Rnum) (S (cs_figs s)) (cs_curves s), Raise ValueError)).
  { intros s. destruct (solution_drawn rc rich_mp rich_npath rich_nterm _ rich_p "mid-points" s rich_input eq_refl (or_introl eq_refl)) as (ts & rs & E & _ & H).
    exists (ts, rs). split; [exact E|]. apply H. intros [C|[C|(_ & m & C)]]; [discriminate C|discriminate C|].
    pose proof (C 3%nat ltac:(cbn; auto)). pose proof (C 1%nat ltac:(cbn; auto)). lia. }
  destruct (H (Canvas (N := Rnum) 0 [])) as (out & E & _).
  exists rc, rich_mp, rich_npath, rich_nterm, (repeat 1 (2 * nvars rich_mp)), rich_p, out. split; [exact rich_input|]. split; [exact rich_widths|].
  split; [intros [|[|ph]] Hp; cbn in Hp; [reflexivity|reflexivity|lia]|]. split; [exact E|]. intros s. destruct (H s) as (_ & _ & K). exact K.
Qed.
(** residuals of the first of two phases cannot be drawn *)
Lemma rich_some_drawn : exists rc mp npath nterm z p out, input_ok mp npath nterm z p /\ widths_ok (mp_nseg mp) (o_nph (mp_ocp mp)) p /\
  states_residuals rc mp p z (Some [0%nat]) None false = Ok out /\
  forall s : canvas, states_drawn rc mp p z (Some [0%nat]) None false None None s = (Canvas (N := Rnum) (S (cs_figs s)) (cs_curves s), Raise TypeError).
Proof.
  destruct (solution_states rich_rc rich_mp rich_npath rich_nterm (repeat 1 (2 * nvars rich_mp)) rich_p "spectral" rich_input rich_widths) as (res & segs & E & _).
  { intros [|[|ph]] H; cbn in H; [reflexivity|reflexivity|lia]. }
  { now right. }
  assert (E' : exists out, states_residuals rich_rc rich_mp rich_p (repeat 1 (2 * nvars rich_mp)) (Some [0%nat]) None false = Ok out).
  { unfold states_residuals_by in *. change (seq 0 (o_nph (mp_ocp rich_mp))) with [0; 1]%nat in E. cbn [mapM] in *.
    destruct (states_residuals_phase rich_rc rich_mp rich_p (repeat 1 (2 * nvars rich_mp)) None false 0) as [a|]; [|discriminate E]. cbn [bind]. eauto. }
  destruct E' as (out & E'). exists rich_rc, rich_mp, rich_npath, rich_nterm, (repeat 1 (2 * nvars rich_mp)), rich_p, out.
  split; [exact rich_input|]. split; [exact rich_widths|]. split; [exact E'|]. intros s.
  apply (states_missing_thm rich_rc rich_mp rich_p _ [0%nat] None false out 1 s E'); [cbn; lia|]. intros [C|[]]. discriminate C.
Qed.

(** two phases to be shown, the residuals of the second are missing *)
Lemma rich_refined tol method plots iter before (s : canvas) : tol = [0; 0] \/ tol = [1; 1] -> method <> "equal_area"%string -> (length plots <= 1)%nat ->
  exists w ts rs, dynamics_residuals rich_rc rich_mp rich_p (repeat 1 (2 * nvars rich_mp)) None None false = Ok (ts, rs) /\
    length (concat (concat ts)) = 60%nat /\ length (times ts 0) = 30%nat /\
    let '(f, a) := kept before s in
    refine_by_residual_drawn rich_rc rich_mp tol method plots iter rich_p (repeat 1 (2 * nvars rich_mp)) (option_map fst before) (option_map (fun fa => AxOne (snd fa)) before) s =
    (Canvas (N := Rnum) (figures before s) (cs_curves s ++ evolution_curves a "-" iter ts rs 0), Ok (w, (Some f, AxOne a))).
Proof.
  intros Ht Hm Hp.
  destruct (grid_lens rich_rc rich_mp "spectral" rich_p rich_mp_ok (or_intror eq_refl)) as (lens & G & Hpos & Ll & HG & _ & Hs). specialize (Hs eq_refl).
  destruct (solution_errors rich_rc rich_mp rich_npath rich_nterm _ rich_p "spectral" G rich_input eq_refl) as (ts & rs & E & _ & Lt & HL).
  { intros ph _. destruct (HG ph) as (A & B & C & _). auto. }
  destruct (refine_residual_ok rich_rc rich_mp rich_npath rich_nterm _ rich_p rich_input rich_widths ltac:(cbn; lia) "spectral" eq_refl ltac:(cbn; auto) tol method
    ltac:(destruct Ht as [E1|E1]; rewrite E1; cbn; lia) Hm) as (ws & e & Ew & _).
  exists (ws, e), ts, rs. split; [exact E|].
  assert (L3 : lens = [10; 10; 10]%nat).
  { cbn in Ll. destruct lens as [|a [|b [|c [|d l]]]]; cbn in Ll; try lia. rewrite (Hs a), (Hs b), (Hs c) by (cbn; auto). reflexivity. }
  assert (T : forall ph, (ph < 2)%nat -> length (times ts ph) = 30%nat).
  { intros ph Hph. unfold times. rewrite nsum_concat. destruct (HG ph) as (_ & _ & _ & D). pose proof (eq_trans (HL ph Hph) D) as Q.
    change (list (carrier Rnum)) with (list R) in *. rewrite Q, L3. reflexivity. }
  split; [|split; [apply T; lia|]].
  - refine (eq_trans (f_equal (@length R) (eq_sym (times_all ts 2 Lt))) _). cbn [seq map concat]. rewrite !app_length, !T by lia. reflexivity.
  - pose proof (residual_drawn rich_rc rich_mp rich_p _ ts rs ltac:(cbn; lia) ltac:(cbn; lia) E tol method plots iter before s Hp) as Q.
    destruct (kept before s) as [f a]. refine (eq_trans Q _). rewrite Ew. reflexivity.
Qed.
Lemma rich_phases : exists rc mp npath nterm z p ts rs w, input_ok mp npath nterm z p /\ widths_ok (mp_nseg mp) (o_nph (mp_ocp mp)) p /\ o_nph (mp_ocp mp) = 2%nat /\
  dynamics_residuals rc mp p z None None false = Ok (ts, rs) /\
  forall s : canvas, exists new fa, refine_by_residual_drawn rc mp [0; 0] "merge_split" [[0; 1]%nat] 0 p z None None s =
      (Canvas (N := Rnum) (S (cs_figs s)) (cs_curves s ++ new), Ok (w, fa)) /\
    forall c, In c new -> (length (cv_t c) < length (concat (concat ts)))%nat.
Proof.
  destruct (rich_refined [0; 0] "merge_split" [[0; 1]%nat] 0 None (Canvas (N := Rnum) 0 []) (or_introl eq_refl) ltac:(discriminate) ltac:(cbn; lia)) as (w & ts & rs & E & L60 & L30 & _).
  exists rich_rc, rich_mp, rich_npath, rich_nterm, (repeat 1 (2 * nvars rich_mp)), rich_p, ts, rs.
  destruct (refine_by_residual rich_rc rich_mp [0; 0] "merge_split" rich_p (repeat 1 (2 * nvars rich_mp))) as [w'|e'] eqn:Ew.
  - exists w'. split; [exact rich_input|]. split; [exact rich_widths|]. split; [reflexivity|]. split; [exact E|]. intros s.
    pose proof (residual_drawn rich_rc rich_mp rich_p _ ts rs ltac:(cbn; lia) ltac:(cbn; lia) E [0; 0] "merge_split" [[0; 1]%nat] 0 None s ltac:(cbn; lia)) as Q.
    cbn [kept figures option_map] in Q. eexists _, _. split; [refine (eq_trans Q _); rewrite Ew; reflexivity|].
    intros c Hc. unfold evolution_curves in Hc. cbv zeta in Hc. assert (Lc : length (cv_t c) = 30%nat) by (destruct Hc as [<-|[<-|[<-|[<-|[]]]]]; exact L30).
    change (list (carrier Rnum)) with (list R) in *. rewrite Lc. nred. rewrite L60. lia.
  - exfalso. destruct (refine_residual_ok rich_rc rich_mp rich_npath rich_nterm _ rich_p rich_input rich_widths ltac:(cbn; lia) "spectral" eq_refl ltac:(cbn; auto) [0; 0] "merge_split"
      ltac:(cbn; lia) ltac:(discriminate)) as (ws & e & Ew2 & _). pose proof (eq_trans (eq_sym Ew) Ew2) as K. discriminate K.
Qed.
(** a run of three refinements, the first two with number 0 *)
Lemma rich_run : forall s : canvas, exists s', let z := repeat 1 (2 * nvars rich_mp) in
  refinements (refine_by_residual_drawn rich_rc rich_mp [0; 0] "merge_split" [[0; 1]%nat]) None [(0%nat, rich_p, z); (0%nat, rich_p, z); (1%nat, rich_p, z)] s s'.
Proof.
  intros s. set (z := repeat 1 (2 * nvars rich_mp)).
  assert (St : forall iter before s, exists s1 w f a, refine_by_residual_drawn rich_rc rich_mp [0; 0] "merge_split" [[0; 1]%nat] iter rich_p z
    (option_map fst before) (option_map (fun fa => AxOne (snd fa)) before) s = (s1, Ok (w, (Some f, AxOne a)))).
  { intros iter before s0. destruct (rich_refined [0; 0] "merge_split" [[0; 1]%nat] iter before s0 (or_introl eq_refl) ltac:(discriminate) ltac:(cbn; lia)) as (w & ts & rs & _ & _ & _ & Q).
    destruct (kept before s0) as [f a]. eexists _, w, f, a. exact Q. }
  destruct (St 0%nat None s) as (s1 & w1 & f1 & a1 & E1). destruct (St 0%nat (Some (f1, a1)) s1) as (s2 & w2 & f2 & a2 & E2). destruct (St 1%nat (Some (f2, a2)) s2) as (s3 & w3 & f3 & a3 & E3).
  exists s3. cbv zeta. eapply one_more; [exact E1|]. eapply one_more; [exact E2|]. eapply one_more; [exact E3|]. constructor.
Qed.
