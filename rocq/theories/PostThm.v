(** Retrieved results: objects made by process_results (proofs). *)
From Coq Require Import String.
From Coq Require Import Reals.
From Coq Require Import List Lia Lra Bool Arith.
From Verif Require Import Num PyList Mat Poly Roots Colloc Ocp Transcribe Solve Hadapt Resid Adaptive Post
  Spec SpecOcp SpecSolve SpecHadapt SpecResid SpecAdapt SpecPost
  NumR ListR PolyR CollocR CompR CollocThm MeshR BlockR DiscR NlpR NlpThm NlpMain GuessR GridR ResidR AdaptR AdaptPh AdaptThm AdaptMain PostR.
Import ListNotations.
Open Scope R_scope.
Open Scope list_scope.

(** what every object made for [mp] satisfies *)
Record serves (mp : mpo Rnum) (w : nat -> nat -> R) (y : nat -> utraj) (rs : list (list R)) (sc : bool) (plots : list nat)
  (po : post (N := Rnum)) : Prop := {
  sv_sx : po_scale_x po = o_scale_x (mp_ocp mp);
  sv_su : po_scale_u po = o_scale_u (mp_ocp mp);
  sv_sa : po_scale_a po = o_scale_a (mp_ocp mp);
  sv_cf : po_cf po = mp_cf mp;
  sv_or : po_orders po = mp_orders mp;
  sv_sc : po_scaling po = sc;
  sv_ph : po_phases po = plots;
  sv_seg : seg_nodes (mp_cf mp) (mp_orders mp) rs;
  sv_len : length rs = length (mp_orders mp);
  sv_good : forall k q r, nth_error (mp_orders mp) k = Some q -> nth_error rs k = Some r ->
    good_nodes (cf_tau0 (mp_cf mp)) (cf_tau1 (mp_cf mp)) q r;
  sv_tr : forall ph, (ph < o_nph (mp_ocp mp))%nat -> exists f tr, nth_error (po_traj po) ph = Some f /\ f (po_x po) (po_sw po) = Ok tr /\
    traj_scaled mp tr (y ph) /\ length (tr_t tr) = total_nodes (mp_orders mp) /\
    forall i k j, owned (mp_orders mp) i k j -> nth i (tr_t tr) 0 = node_time (mp_cf mp) (w ph) (y ph) k (nth j (nth k rs []) 0)
}.

Lemma nth_error_map_seq {A} (f : nat -> A) n i : (i < n)%nat -> nth_error (map f (seq 0 n)) i = Some (f i).
Proof. intros H. erewrite map_nth_error; [reflexivity|]. rewrite nth_error_nth' with (d := 0%nat) by (rewrite seq_length; lia). now rewrite seq_nth by lia. Qed.

Lemma base_serves rc mp npath nterm z p plots sc rx rdx po : input_ok mp npath nterm z p ->
  process_results rc mp plots p z sc rx rdx = Ok po ->
  exists rs, mapM (c_roots (mp_cf mp)) (mp_orders mp) = Ok rs /\ serves mp (width mp p) (user_traj mp z) rs sc (nth 0 plots []) po.
Proof.
  intros Hin E. unfold process_results_by in E. destruct (residual_values rc mp (trajectories mp) p z rx rdx) as [rv|]; [|discriminate E]. cbn [bind] in E.
  unfold post_of, at_ in E. destruct plots as [|pl plots]; [discriminate E|]. cbn [nth_error bind] in E. inversion E; subst po; clear E.
  destruct (setup mp npath nterm z p Hin) as (rs & ap & Ers & _ & Hseg & Hlrs & Hgood & _). exists rs. split; [exact Ers|].
  split; cbn [po_scale_x po_scale_u po_scale_a po_cf po_orders po_scaling po_phases po_traj po_x po_sw nth]; auto.
  intros ph Hph. exists (trajectories mp ph).
  destruct (trajectories_ok mp npath nterm z p ph Hin Hph) as (rs' & tr & Ers' & Etr & _ & _ & _ & _ & _ & Hl & Ht).
  assert (rs' = rs) by (nred; congruence). subst rs'.
  destruct (trajectories_scaled mp npath nterm z p ph Hin Hph) as (tr' & Etr' & Hs). assert (tr' = tr) by (nred; congruence). subst tr'.
  exists tr. split; [apply nth_error_map_seq; exact Hph|]. auto.
Qed.
Lemma adaptive_serves rc ac mp npath nterm z plots sw sc rx rdx po : ad_input_ok ac mp npath nterm z ->
  a_process_results rc mp plots sw z sc rx rdx = Ok po ->
  exists rs, mapM (c_roots (mp_cf mp)) (mp_orders mp) = Ok rs /\ serves mp (ad_width mp z) (ad_traj mp z) rs sc (nth 0 plots []) po.
Proof.
  intros Hin E. unfold process_results_by in E. destruct (residual_values rc mp (own_trajectories mp) sw z rx rdx) as [rv|]; [|discriminate E]. cbn [bind] in E.
  unfold post_of, at_ in E. destruct plots as [|pl plots]; [discriminate E|].
  cbn [nth_error bind] in E. inversion E; subst po; clear E.
  destruct (seg_nodes_ok (mp_cf mp) (mp_orders mp) (mo_cfg _ (ai_mpo _ _ _ _ _ Hin)) (mo_pos _ (ai_mpo _ _ _ _ _ Hin))) as (rs & Hseg & Hlrs & Hgood).
  exists rs. split; [apply Hseg|].
  split; cbn [po_scale_x po_scale_u po_scale_a po_cf po_orders po_scaling po_phases po_traj po_x po_sw nth]; auto.
  intros ph Hph. destruct (a_trajectories_ok ac mp npath nterm z Hin ph Hph) as (rs' & tr & Ers' & Etr & Hs & _ & _ & Hl & Ht).
  assert (rs' = rs) by (destruct Hseg as [Hseg _]; nred; congruence). subst rs'.
  exists (own_trajectories mp ph), tr.
  split; [exact (nth_error_map_seq (own_trajectories mp) _ _ Hph)|]. auto.
Qed.

Section Serves.
Variables (mp : mpo Rnum) (npath nterm : nat -> option nat).
Hypothesis Hmp : mpo_ok mp.
Hypothesis Hok : ocp_ok (mp_ocp mp) npath nterm.
Hypothesis Hsc : scales_pos (mp_ocp mp).
Variables (w : nat -> nat -> R) (y : nat -> utraj) (rs : list (list R)) (sc : bool) (plots : list nat) (po : post (N := Rnum)).
Hypothesis Hpo : serves mp w y rs sc plots po.
Local Notation o := (mp_ocp mp).
Local Notation orders := (mp_orders mp).
Local Notation n := (total_nodes orders).
Let asked (phases : list nat) : list nat := match phases with [] => plots | _ => phases end.

(** entry (i, j) that the code computes for parameter i *)
Definition a_entry ph i j := if sc then nth i (o_scale_a o) 0 * y_a (y ph) i else nth i (o_scale_a o) 0 * y_a (y ph) i / nth j (o_scale_a o) 0.

Lemma get_nodal phases : asked phases <> [] -> (forall ph, In ph (asked phases) -> (ph < o_nph o)%nat) ->
  exists d, get_data po phases false = Ok d /\ nodal_data mp rs sc w y (asked phases) d /\
    nr (pd_a d) = (length (asked phases) * o_na o)%nat /\ nc (pd_a d) = (if sc then 1%nat else o_na o) /\
    forall q ph i j, nth_error (asked phases) q = Some ph -> (i < o_na o)%nat -> (j < nc (pd_a d))%nat ->
      mget (pd_a d) (q * o_na o + i) j = a_entry ph i j.
Proof.
  intros Hne Hin.
  pose proof Hpo as [H1 H2 H3 H4 H5 H6 H7 H8 H9 H10 H11].
  destruct (original_ok mp npath nterm Hok Hsc w y rs po H1 H2 H3 H9 H11 (asked phases) Hne Hin)
    as (d & E & (X1 & X2 & X) & (U1 & U2 & U) & (T1 & T) & A1 & A2 & A).
  exists d. split.
  { unfold get_data. rewrite H7. fold (asked phases). exact E. }
  split.
  { unfold nodal_data. repeat (split; [assumption|]). intros q ph i Hq Hi. unfold Px, Pu, Pt in *. rewrite H6 in *.
    split; [intros; apply X; auto|]. split; [intros; apply U; auto|]. intros k j Ho. apply T; auto. }
  unfold acols in *. rewrite H6 in *. split; [exact A1|]. split; [exact A2|]. intros q ph i j Hq Hi Hj. rewrite A2 in Hj.
  specialize (A q ph i j Hq Hi Hj). unfold Pa in A. rewrite H6 in A. exact A.
Qed.

Lemma interp_facts taus phases d : length taus = length orders ->
  stacked (count_pts taus) (o_nx o) (Ix mp y rs po taus) phases (pd_x d) -> stacked (count_pts taus) (o_nu o) (Iu mp y rs po taus) phases (pd_u d) ->
  tstacked (count_pts taus) (It mp w y taus) phases (pd_t d) -> beside (o_na o) (acols mp po) (Pa mp y po) phases (pd_a d) ->
  interpolated_data mp rs sc w y phases d taus /\
    nr (pd_a d) = o_na o /\ nc (pd_a d) = (length phases * if sc then 1 else o_na o)%nat /\
    forall q ph i j, nth_error phases q = Some ph -> (i < o_na o)%nat -> (j < if sc then 1 else o_na o)%nat ->
      mget (pd_a d) i (q * (if sc then 1 else o_na o) + j) = a_entry ph i j.
Proof.
  intros Ht (X1 & X2 & X) (U1 & U2 & U) (T1 & T) (A1 & A2 & A). pose proof (sv_sc _ _ _ _ _ _ _ Hpo) as H6.
  unfold Ix, Iu, It, Pa, acols in *. rewrite H6 in *. split; [|auto].
  unfold interpolated_data. repeat (split; [assumption|]). intros q ph k i Hq Hk Hi.
  assert (Hlt : (length (concat (firstn k taus)) + i < count_pts taus)%nat).
  { unfold count_pts. rewrite off_offset, ResidR.concat_length.
    assert (E : nth_error (map (@length R) taus) k = Some (length (nth k taus []))).
    { erewrite map_nth_error; [reflexivity|]. apply nth_error_nth'. lia. }
    pose proof (offset_S _ _ _ E) as HS. pose proof (offset_mono (map (@length R) taus) (S k) (length taus) ltac:(lia)). lia. }
  replace (q * count_pts taus + length (concat (firstn k taus)) + i)%nat with (q * count_pts taus + (length (concat (firstn k taus)) + i))%nat by lia.
  split; [intros s c Hs Hc; eapply X; eauto|]. split; [intros s c Hs Hc; eapply U; eauto|]. eapply T; eauto.
Qed.

(** at given points *)
Lemma get_interpolated taus phases : length taus = length orders -> phases <> [] -> (forall ph, In ph phases -> (ph < o_nph o)%nat) ->
  exists d, get_interpolated_data po phases taus = Ok d /\ interpolated_data mp rs sc w y phases d taus /\
    nr (pd_a d) = o_na o /\ nc (pd_a d) = (length phases * if sc then 1 else o_na o)%nat /\
    forall q ph i j, nth_error phases q = Some ph -> (i < o_na o)%nat -> (j < if sc then 1 else o_na o)%nat ->
      mget (pd_a d) i (q * (if sc then 1 else o_na o) + j) = a_entry ph i j.
Proof.
  intros Ht Hne Hin. pose proof Hpo as [H1 H2 H3 H4 H5 H6 H7 H8 H9 H10 H11].
  assert (Hnt : taus <> []).
  { intros ->. cbn in Ht. pose proof (mo_len _ Hmp). pose proof (mo_nseg _ Hmp). lia. }
  destruct (interpolated_ok mp npath nterm Hmp Hok Hsc w y rs po H1 H2 H3 H4 H5 H8 H9 H10 H11 taus Ht phases Hnt Hne Hin) as (d & E & X & U & T & A).
  exists d. split; [exact E|]. apply interp_facts; auto.
Qed.

(** at the default points *)
Local Notation default_grid := (SpecPost.default_grid mp).
Lemma get_default phases : asked phases <> [] -> (forall ph, In ph (asked phases) -> (ph < o_nph o)%nat) ->
  exists d, get_data po phases true = Ok d /\ interpolated_data mp rs sc w y (asked phases) d default_grid /\
    nr (pd_a d) = o_na o /\ nc (pd_a d) = (length (asked phases) * if sc then 1 else o_na o)%nat /\
    forall q ph i j, nth_error (asked phases) q = Some ph -> (i < o_na o)%nat -> (j < if sc then 1 else o_na o)%nat ->
      mget (pd_a d) i (q * (if sc then 1 else o_na o) + j) = a_entry ph i j.
Proof.
  intros Hne Hin. pose proof Hpo as [H1 H2 H3 H4 H5 H6 H7 H8 H9 H10 H11].
  assert (Hno : orders <> []) by (intros E; pose proof (mo_len _ Hmp) as L; pose proof (mo_nseg _ Hmp); rewrite E in L; cbn in L; lia).
  destruct (get_interpolated default_grid (asked phases)) as (d & E & H); auto. { unfold SpecPost.default_grid. now rewrite map_length, seq_length. }
  exists d. split; [|exact H]. unfold get_data. rewrite H7. fold (asked phases). rewrite <- E. clear E H.
  unfold get_interpolated_data at 1. rewrite (default_taus_ok mp w y rs po H4 H5 H8 H9 H10 H11 Hno). cbn [bind]. change (map _ _) with default_grid.
  unfold get_interpolated_data. destruct default_grid eqn:Eg; [|reflexivity].
  exfalso. unfold SpecPost.default_grid in Eg. apply map_eq_nil in Eg. destruct orders; [now apply Hno|discriminate Eg].
Qed.
End Serves.
