(** Attribute plot_residual_evolution (proofs). *)
From Coq Require Import String.
From Coq Require Import Reals.
From Coq Require Import List Lia Lra Bool Arith.
From Verif Require Import Num PyList Mat Poly Roots Colloc Ocp Transcribe Solve Hadapt Resid Adaptive Post Plot
  Spec SpecOcp SpecSolve SpecHadapt SpecResid SpecLoop SpecAdapt SpecPost SpecPlot NumR ListR NlpR GridR GridThm ResidR ResidMain PostR PostMain PostTotal RefineThm PostGrid PlotR PlotMain PlotThm PlotResid.
Import ListNotations.
Open Scope R_scope.
Open Scope list_scope.
Local Notation canvas := (canvas (N := Rnum)).
Local Notation curve := (curve (N := Rnum)).

(** the curves of one call, on the axes of before or on new ones *)
Lemma norms_kept sorted (t r : list R) name fmt before (s : canvas) :
  sorted = Ok (r, map CNum t) -> length t = length r ->
  let '(f, a) := kept before s in
  plot_norms (N := Rnum) sorted name (option_map fst before) (option_map (fun fa => AxOne (snd fa)) before) (Some (repeat fmt 15)) s =
  (Canvas (N := Rnum) (figures before s) (cs_curves s ++ [Curve (N := Rnum) a t r fmt (match name with Some x => Some (x ++ " ")%string | None => None end); Curve (N := Rnum) a t r "-" None]),
   Ok (Some f, AxOne a)).
Proof.
  intros E L. destruct (kept before s) as [f a] eqn:K.
  assert (A : axes_or (N := Rnum) (option_map fst before) (option_map (fun fa => AxOne (snd fa)) before) 1 1 s =
              (Canvas (N := Rnum) (figures before s) (cs_curves s), Ok (Some f, AxOne a))).
  { destruct before as [[f' a']|]; cbn in K |- *; inversion K; subst; [now destruct s|reflexivity]. }
  unfold plot_norms. unfold dbind at 1. nred. rewrite A. cbn [snd fst]. unfold dbind at 1, dlift at 1. subst sorted. cbn [snd fst].
  assert (Es : all_some (map (fun c : cell (N := Rnum) => match c with CNum x => Some x | CArr _ => None end) (map CNum t)) = Some t).
  { rewrite map_map. apply all_some_map. }
  unfold dbind at 1, dlift at 1. nred. rewrite Es. unfold dbind at 1, dlift at 1. cbn [the_axis].
  assert (Hr : map (fun i => mget (column (N := Rnum) r) i 0) (seq 0 (nr (column (N := Rnum) r))) = r).
  { unfold column. cbn [nr mget]. clear. induction r as [|x r IH]; cbn; [reflexivity|]. f_equal. rewrite <- seq_shift, map_map. exact IH. }
  unfold dbind at 1. rewrite plot_curve_ok; [|exact L|cbn; lia|cbn; lia].
  unfold dbind at 1. rewrite plot_curve_ok; [|exact L|cbn; lia|cbn; lia].
  unfold plus, dret. cbn [cs_figs cs_curves column nc seq map]. rewrite <- app_assoc. f_equal. f_equal. f_equal.
  unfold one, index_of. cbn [nth repeat tics_or solid app]. rewrite Hr. destruct name; reflexivity.
Qed.
Lemma norms_kept_refused sorted e name fmt before (s : canvas) : sorted = Raise e ->
  plot_norms (N := Rnum) sorted name (option_map fst before) (option_map (fun fa => AxOne (snd fa)) before) fmt s = (Canvas (N := Rnum) (figures before s) (cs_curves s), Raise e).
Proof. intros E. subst sorted. destruct before as [[f a]|]; destruct s; reflexivity. Qed.
Lemma string_app_assoc a b c : ((a ++ b) ++ c = a ++ b ++ c)%string.
Proof. induction a as [|x a IH]; cbn; congruence. Qed.
Lemma evolution_ok fmt plots iter ts rs before (s : canvas) : (length plots <= 1)%nat -> present ts rs 0 ->
  let '(f, a) := kept before s in
  plot_evolution (N := Rnum) fmt plots iter ts rs (option_map fst before) (option_map (fun fa => AxOne (snd fa)) before) s =
  (Canvas (N := Rnum) (figures before s) (cs_curves s ++ evolution_curves a fmt iter ts rs 0), Ok (Some f, AxOne a)).
Proof.
  intros Hp P. destruct (kept before s) as [f a] eqn:K.
  assert (E : sort_tuples (N := Rnum) ts rs plots = Ok (norms rs 0, map CNum (times ts 0))).
  { unfold sort_tuples. destruct (Nat.ltb_spec 1 (length plots)) as [C|_]; [lia|]. pose proof (sort_single ts rs 0 P) as Q. exact Q. }
  pose proof (matching_lengths _ _ _ P) as L.
  unfold plot_evolution. nred. rewrite E. unfold dbind at 1.
  pose proof (norms_kept (Ok (norms rs 0, map CNum (times ts 0))) _ _ (Some ("Iter " ++ show iter)%string) fmt before s eq_refl L) as Q. rewrite K in Q. nred. rewrite Q. clear Q. cbn [fst snd].
  pose proof (norms_kept (Ok (norms rs 0, map CNum (times ts 0))) _ _ None "-" (Some (f, a)) (Canvas (N := Rnum) (figures before s)
    (cs_curves s ++ [Curve (N := Rnum) a (times ts 0) (norms rs 0) fmt (Some (("Iter " ++ show iter) ++ " ")%string); Curve (N := Rnum) a (times ts 0) (norms rs 0) "-" None])) eq_refl L) as Q.
  cbn [kept option_map fst snd figures cs_figs cs_curves] in Q. unfold solid. nred. rewrite Q. clear Q. rewrite <- app_assoc. unfold evolution_curves. cbn [app]. rewrite string_app_assoc. reflexivity.
Qed.
Lemma evolution_refused fmt plots iter ts rs before (s : canvas) : (1 < length plots)%nat -> present ts rs 0 ->
  plot_evolution (N := Rnum) fmt plots iter ts rs (option_map fst before) (option_map (fun fa => AxOne (snd fa)) before) s =
  (Canvas (N := Rnum) (figures before s) (cs_curves s), Raise TypeError).
Proof.
  intros Hp (L1 & L2 & Hne & M). unfold plot_evolution. unfold dbind at 1. rewrite (norms_kept_refused _ TypeError); [reflexivity|].
  unfold sort_tuples. destruct (Nat.ltb_spec 1 (length plots)) as [_|C]; [|lia].
  unfold at_. destruct ts as [|t0 ts]; [cbn in L1; lia|]. destruct rs as [|r0 rs]; [cbn in L2; lia|]. cbn [nth_error bind]. cbn [nth] in *.
  unfold norm_residual, concat_. destruct r0 as [|x r0]; [inversion M; subst; congruence|]. reflexivity.
Qed.
Lemma residuals_present rc (mp : mpo Rnum) sw z ts rs : (0 < o_nph (mp_ocp mp))%nat -> (0 < mp_nseg mp)%nat ->
  dynamics_residuals rc mp sw z None None false = Ok (ts, rs) -> present ts rs 0.
Proof.
  intros Hph Hseg E. destruct (residuals_match rc mp (trajectories mp) sw z None None false ts rs E) as (Lt & Lr & H).
  destruct (H 0%nat Hph) as (A & B). split; [exact (eq_ind_r (fun n => (0 < n)%nat) Hph Lt)|]. split; [exact (eq_ind_r (fun n => (0 < n)%nat) Hph Lr)|]. split; [|exact B]. intros C. pose proof (eq_trans (eq_sym A) (f_equal (@length _) C)) as D. cbn in D. lia.
Qed.

Lemma lift_last {A B} (m : res A) (b : B) (s : canvas) : dbind (dlift m) (fun w => dret (w, b)) s = (s, (w <- m ;; Ok (w, b))).
Proof. now destruct m. Qed.

Section Step.
Variables (rc : rcfg) (mp : mpo Rnum) (sw z : list R) (ts : list (list (list R))) (rs : list (list (option (list (list R))))).
Hypothesis Hph : (0 < o_nph (mp_ocp mp))%nat.
Hypothesis Hseg : (0 < mp_nseg mp)%nat.
Hypothesis Hres : dynamics_residuals rc mp sw z None None false = Ok (ts, rs).
Theorem residual_drawn tol method plots iter before (s : canvas) : (length plots <= 1)%nat ->
  let '(f, a) := kept before s in
  refine_by_residual_drawn rc mp tol method plots iter sw z (option_map fst before) (option_map (fun fa => AxOne (snd fa)) before) s =
  (Canvas (N := Rnum) (figures before s) (cs_curves s ++ evolution_curves a "-" iter ts rs 0),
   (w <- refine_by_residual rc mp tol method sw z ;; Ok (w, (Some f, AxOne a)))).
Proof.
  intros Hp. pose proof (residuals_present _ _ _ _ _ _ Hph Hseg Hres) as P. pose proof (evolution_ok "-" plots iter ts rs before s Hp P) as Q.
  destruct (kept before s) as [f a]. unfold refine_by_residual_drawn, refine_by_residual. nred. unfold dbind at 1, dlift at 1. rewrite Hres. cbn [bind fst snd].
  unfold dbind at 1. nred. rewrite Q. unfold dbind, dlift, dret.
  destruct (widths_by_residual method (mp_nseg mp) (o_nph (mp_ocp mp)) sw tol rs); reflexivity.
Qed.
Theorem slope_drawn tol lbh ubh threshold plots iter before (s : canvas) : (length plots <= 1)%nat -> (iter < 75)%nat ->
  let '(f, a) := kept before s in
  refine_by_slope_drawn rc mp tol lbh ubh threshold plots iter sw z (option_map fst before) (option_map (fun fa => AxOne (snd fa)) before) s =
  (Canvas (N := Rnum) (figures before s) (cs_curves s ++ evolution_curves a (iter_mark iter) iter ts rs 0),
   (w <- refine_by_slope rc mp tol lbh ubh threshold sw z ;; Ok (w, (Some f, AxOne a)))).
Proof.
  intros Hp Hi. pose proof (residuals_present _ _ _ _ _ _ Hph Hseg Hres) as P. pose proof (evolution_ok (iter_mark iter) plots iter ts rs before s Hp P) as Q.
  assert (M : at_ iter_tics iter = Ok (iter_mark iter)).
  { clear - Hi. do 75 (destruct iter as [|iter]; [reflexivity|]). lia. }
  destruct (kept before s) as [f a]. unfold refine_by_slope_drawn, refine_by_slope. nred. unfold dbind at 1, dlift at 1. rewrite Hres. cbn [bind fst snd].
  unfold dbind at 1, dlift at 1. rewrite M. unfold dbind at 1. nred. rewrite Q. exact (lift_last _ _ _).
Qed.
Theorem residual_refused tol method plots iter before (s : canvas) : (1 < length plots)%nat ->
  refine_by_residual_drawn rc mp tol method plots iter sw z (option_map fst before) (option_map (fun fa => AxOne (snd fa)) before) s =
  (Canvas (N := Rnum) (figures before s) (cs_curves s), Raise TypeError).
Proof.
  intros Hp. pose proof (residuals_present _ _ _ _ _ _ Hph Hseg Hres) as P. pose proof (evolution_refused "-" plots iter ts rs before s Hp P) as Q.
  unfold refine_by_residual_drawn. nred. unfold dbind at 1, dlift at 1. rewrite Hres. cbn [fst snd]. unfold dbind at 1. nred. rewrite Q. reflexivity.
Qed.
Theorem slope_refused tol lbh ubh threshold plots iter before (s : canvas) : (1 < length plots)%nat -> (iter < 75)%nat ->
  refine_by_slope_drawn rc mp tol lbh ubh threshold plots iter sw z (option_map fst before) (option_map (fun fa => AxOne (snd fa)) before) s =
  (Canvas (N := Rnum) (figures before s) (cs_curves s), Raise TypeError).
Proof.
  intros Hp Hi. pose proof (residuals_present _ _ _ _ _ _ Hph Hseg Hres) as P. pose proof (evolution_refused (iter_mark iter) plots iter ts rs before s Hp P) as Q.
  assert (M : at_ iter_tics iter = Ok (iter_mark iter)).
  { clear - Hi. do 75 (destruct iter as [|iter]; [reflexivity|]). lia. }
  unfold refine_by_slope_drawn. nred. unfold dbind at 1, dlift at 1. rewrite Hres. cbn [fst snd]. unfold dbind at 1, dlift at 1. rewrite M. unfold dbind at 1. nred. rewrite Q. reflexivity.
Qed.
Theorem slope_unmarked tol lbh ubh threshold plots iter fig axs (s : canvas) : (75 <= iter)%nat ->
  refine_by_slope_drawn rc mp tol lbh ubh threshold plots iter sw z fig axs s = (s, Raise IndexError).
Proof.
  intros Hi. unfold refine_by_slope_drawn. nred. unfold dbind at 1, dlift at 1. rewrite Hres. cbn [fst snd]. unfold dbind at 1, dlift at 1.
  unfold at_. assert (M : nth_error iter_tics iter = None) by (apply nth_error_None; cbn; exact Hi). rewrite M. reflexivity.
Qed.
End Step.

(** all refinements of a run share one figure *)
Section Run.
Variables (rc : rcfg) (mp : mpo Rnum) (step : refinement) (fmt : nat -> string).
Hypothesis Hstep : forall iter sw z before s s' w f' a', step iter sw z (option_map fst before) (option_map (fun fa => AxOne (snd fa)) before) s = (s', Ok (w, (Some f', AxOne a'))) ->
  kept before s = (f', a') /\ exists ts rs, dynamics_residuals rc mp sw z None None false = Ok (ts, rs) /\
    s' = Canvas (N := Rnum) (figures before s) (cs_curves s ++ evolution_curves a' (fmt iter) iter ts rs 0).
Lemma run_drawn before l s s' : refinements step before l s s' -> l <> [] ->
  let '(f, a) := kept before s in cs_figs s' = figures before s /\
  exists cs, Forall2 (fun c drawn => exists ts rs, dynamics_residuals rc mp (snd (fst c)) (snd c) None None false = Ok (ts, rs) /\
                        drawn = evolution_curves a (fmt (fst (fst c))) (fst (fst c)) ts rs 0) l cs /\
    cs_curves s' = cs_curves s ++ concat cs.
Proof.
  induction 1 as [before s|before iter sw z l s s' s'' w f a E Hr IH]; intros Hl; [congruence|]. clear Hl.
  destruct (Hstep _ _ _ _ _ _ _ _ _ E) as (K & ts & rs & Er & Es). rewrite K. subst s'.
  destruct l as [|c l].
  - inversion Hr; subst. cbn [cs_figs cs_curves]. split; [reflexivity|]. exists [evolution_curves a (fmt iter) iter ts rs 0]. split.
    + repeat constructor. exists ts, rs. split; [exact Er|reflexivity].
    + cbn [concat]. now rewrite app_nil_r.
  - specialize (IH ltac:(discriminate)). cbn [kept figures cs_figs cs_curves] in IH. destruct IH as (F & cs & Hc & C). split; [exact F|].
    exists (evolution_curves a (fmt iter) iter ts rs 0 :: cs). split.
    + constructor; [|exact Hc]. exists ts, rs. split; [exact Er|reflexivity].
    + rewrite C. cbn [concat]. now rewrite app_assoc.
Qed.
End Run.
Theorem run_residual rc (mp : mpo Rnum) tol method plots before l s s' : (0 < o_nph (mp_ocp mp))%nat -> (0 < mp_nseg mp)%nat -> (length plots <= 1)%nat -> l <> [] ->
  refinements (refine_by_residual_drawn rc mp tol method plots) before l s s' ->
  let '(f, a) := kept before s in cs_figs s' = figures before s /\
  exists cs, Forall2 (fun c drawn => exists ts rs, dynamics_residuals rc mp (snd (fst c)) (snd c) None None false = Ok (ts, rs) /\
                        drawn = evolution_curves a "-" (fst (fst c)) ts rs 0) l cs /\
    cs_curves s' = cs_curves s ++ concat cs.
Proof.
  intros Hph Hseg Hp Hl Hr. apply (run_drawn rc mp (refine_by_residual_drawn rc mp tol method plots) (fun _ => "-"%string)) with (l := l); [|exact Hr|exact Hl]. clear - Hph Hseg Hp.
  intros iter sw z before s s' w f' a' E. destruct (dynamics_residuals rc mp sw z None None false) as [[ts rs]|e] eqn:Er.
  - pose proof (residual_drawn rc mp sw z ts rs Hph Hseg Er tol method plots iter before s Hp) as Q. destruct (kept before s) as [f a].
    pose proof (eq_trans (eq_sym Q) E) as K. clear Q E. destruct (refine_by_residual rc mp tol method sw z) as [w'|]; cbn [bind] in K; [|discriminate K].
    pose proof (f_equal fst K) as K1. pose proof (f_equal snd K) as K2. cbn [fst snd] in K1, K2. inversion K2; subst. split; [reflexivity|]. exists ts, rs. split; [reflexivity|]. reflexivity.
  - unfold refine_by_residual_drawn in E. unfold dbind at 1, dlift at 1 in E. nred. rewrite Er in E. discriminate E.
Qed.
Theorem run_slope rc (mp : mpo Rnum) tol lbh ubh threshold plots before l s s' : (0 < o_nph (mp_ocp mp))%nat -> (0 < mp_nseg mp)%nat -> (length plots <= 1)%nat -> l <> [] ->
  refinements (refine_by_slope_drawn rc mp tol lbh ubh threshold plots) before l s s' ->
  let '(f, a) := kept before s in cs_figs s' = figures before s /\
  exists cs, Forall2 (fun c drawn => exists ts rs, dynamics_residuals rc mp (snd (fst c)) (snd c) None None false = Ok (ts, rs) /\
                        drawn = evolution_curves a (iter_mark (fst (fst c))) (fst (fst c)) ts rs 0) l cs /\
    cs_curves s' = cs_curves s ++ concat cs.
Proof.
  intros Hph Hseg Hp Hl Hr. apply (run_drawn rc mp (refine_by_slope_drawn rc mp tol lbh ubh threshold plots) iter_mark) with (l := l); [|exact Hr|exact Hl]. clear - Hph Hseg Hp.
  intros iter sw z before s s' w f' a' E. destruct (dynamics_residuals rc mp sw z None None false) as [[ts rs]|e] eqn:Er.
  - destruct (le_lt_dec 75 iter) as [Hi|Hi].
    { pose proof (eq_trans (eq_sym E) (slope_unmarked rc mp sw z ts rs Er tol lbh ubh threshold plots iter _ _ s Hi)) as K. discriminate K. }
    pose proof (slope_drawn rc mp sw z ts rs Hph Hseg Er tol lbh ubh threshold plots iter before s Hp Hi) as Q. destruct (kept before s) as [f a].
    pose proof (eq_trans (eq_sym Q) E) as K. clear Q E. destruct (refine_by_slope rc mp tol lbh ubh threshold sw z) as [w'|]; cbn [bind] in K; [|discriminate K].
    pose proof (f_equal fst K) as K1. pose proof (f_equal snd K) as K2. cbn [fst snd] in K1, K2. inversion K2; subst. split; [reflexivity|]. exists ts, rs. split; [reflexivity|]. reflexivity.
  - unfold refine_by_slope_drawn in E. unfold dbind at 1, dlift at 1 in E. nred. rewrite Er in E. discriminate E.
Qed.
