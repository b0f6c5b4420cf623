(** Plots: statements for all objects that process_results makes (proofs). *)
From Coq Require Import String.
From Coq Require Import Reals.
From Coq Require Import List Lia Lra Bool Arith.
From Verif Require Import Num PyList Mat Poly Roots Colloc Ocp Transcribe Solve Hadapt Resid Adaptive Post Plot
  Spec SpecOcp SpecSolve SpecHadapt SpecResid SpecLoop SpecAdapt SpecPost SpecPlot NumR ListR NlpR GridR GridThm ResidR ResidMain PostR PostMain PostTotal RefineThm PlotR.
Import ListNotations.
Open Scope R_scope.
Open Scope list_scope.
Local Notation canvas := (canvas (N := Rnum)).
Local Notation curve := (curve (N := Rnum)).

Section Made.
Variables (mp : mpo Rnum) (sc : bool) (plots : list (list nat)) (w : nat -> nat -> R) (y : nat -> utraj) (po : post (N := Rnum)).
Hypothesis Hmade : made_by_mpopt mp sc plots w y po \/ made_by_adaptive mp sc plots w y po.
Local Notation o := (mp_ocp mp).

Lemma both_data phases : phases_ok mp (asked plots phases) -> exists rs dn di, mapM (c_roots (mp_cf mp)) (mp_orders mp) = Ok rs /\
  nodal_data mp rs sc w y (asked plots phases) dn /\ interpolated_data mp rs sc w y (asked plots phases) di (default_grid mp) /\
  get_data po phases false = Ok dn /\ get_data po phases true = Ok di.
Proof.
  intros H. destruct (nodal_thm mp sc plots w y po Hmade phases H) as (rs & dn & E1 & E2 & Hn).
  destruct (default_thm mp sc plots w y po Hmade phases H) as (rs' & di & E3 & E4 & Hi).
  assert (rs' = rs) by (nred; congruence). subst rs'. exists rs, dn, di. auto.
Qed.
Lemma nodal_fits rs phases d : nodal_data mp rs sc w y phases d -> (o_nx o <= 15)%nat -> (o_nu o <= 15)%nat -> data_ok d.
Proof. intros (A & B & C & E & F & _) H1 H2. unfold data_ok. rewrite A, B, C, E, F. auto. Qed.
Lemma interp_fits rs phases d taus : interpolated_data mp rs sc w y phases d taus -> (o_nx o <= 15)%nat -> (o_nu o <= 15)%nat -> data_ok d.
Proof. intros (A & B & C & E & F & _) H1 H2. unfold data_ok. rewrite A, B, C, E, F. auto. Qed.
Lemma own_phases : po_phases po = nth 0 plots [].
Proof. destruct (made_ok mp sc plots w y po Hmade) as (npath & nterm & rs & _ & _ & _ & _ & Hs). apply Hs. Qed.
Lemma wanted_asked phases : asked plots (match phases with Some l => l | None => po_phases po end) = asked plots (wanted phases).
Proof. destruct phases as [l|]; [reflexivity|]. rewrite own_phases. unfold asked, wanted. destruct (nth 0 plots []); reflexivity. Qed.

Section Small.
Variables (phases : option (list nat)) (interpolate : bool) (fmt name : string).
Hypotheses (Hph : phases_ok mp (asked plots (wanted phases))) (Hx : (o_nx o <= 15)%nat) (Hu : (o_nu o <= 15)%nat).

Lemma small_data : let ph := match phases with Some l => l | None => po_phases po end in
  exists rs dn di, mapM (c_roots (mp_cf mp)) (mp_orders mp) = Ok rs /\
    nodal_data mp rs sc w y (asked plots (wanted phases)) dn /\ interpolated_data mp rs sc w y (asked plots (wanted phases)) di (default_grid mp) /\
    (interpolate = true -> get_data po ph true = Ok di /\ data_ok di) /\ get_data po ph false = Ok dn /\ data_ok dn.
Proof.
  intros ph. pose proof (wanted_asked phases) as E. fold ph in E. rewrite <- E in Hph.
  destruct (both_data ph Hph) as (rs & dn & di & Er & Hn & Hi & En & Ei). rewrite E in Hn, Hi. exists rs, dn, di.
  pose proof (nodal_fits _ _ _ Hn Hx Hu). pose proof (interp_fits _ _ _ _ Hi Hx Hu). auto 8.
Qed.
(** without residuals *)
Theorem plot_data_thm residuals (s : canvas) : residuals = false \/ po_resid po = None ->
  exists rs dn di, mapM (c_roots (mp_cf mp)) (mp_orders mp) = Ok rs /\
    nodal_data mp rs sc w y (asked plots (wanted phases)) dn /\ interpolated_data mp rs sc w y (asked plots (wanted phases)) di (default_grid mp) /\
    (let f := S (cs_figs s) in let a0 := Axis f 2 1 1 in let a1 := Axis f 2 1 2 in
     plot_phases po phases interpolate residuals None None (repeat fmt 15) name s =
     (Canvas (N := Rnum) f (cs_curves s ++ phase_curves a0 a1 interpolate di dn fmt name), Ok (Some f, AxMany [a0; a1]))) /\
    forall f a0 a1, plot_phases po phases interpolate residuals (Some f) (Some (AxMany [a0; a1])) (repeat fmt 15) name s =
     (Canvas (N := Rnum) (cs_figs s) (cs_curves s ++ phase_curves a0 a1 interpolate di dn fmt name), Ok (Some f, AxMany [a0; a1])).
Proof.
  intros Hr. destruct small_data as (rs & dn & di & Er & Hn & Hi & Ei & En & Hd). exists rs, dn, di.
  split; [exact Er|]. split; [exact Hn|]. split; [exact Hi|].
  assert (E : (if residuals then po_resid po else None) = None) by (destruct Hr as [Er0|Er0]; rewrite Er0; [reflexivity|destruct residuals; reflexivity]). split.
  - intros f a0 a1. rewrite phases_split, E, (data_part_new po _ interpolate di dn fmt name s Ei En Hd). reflexivity.
  - intros f a0 a1. rewrite phases_split, E, (data_part_ok po _ interpolate di dn f a0 a1 fmt name s Ei En Hd). reflexivity.
Qed.
Definition mark : string := if interpolate then "."%string else fmt.
Lemma marks : (if interpolate then dots else repeat fmt 15) = repeat mark 15.
Proof. unfold mark. destruct interpolate; reflexivity. Qed.
(** residuals of the dynamics beside the data *)
Theorem plot_dynamics_thm ts rs fig axs (s : canvas) : po_resid po = Some (Resid_data (N := Rnum) None (Some (ts, rs))) -> error_data (o_nx o) ts rs ->
  exists roots dn di, mapM (c_roots (mp_cf mp)) (mp_orders mp) = Ok roots /\
    nodal_data mp roots sc w y (asked plots (wanted phases)) dn /\ interpolated_data mp roots sc w y (asked plots (wanted phases)) di (default_grid mp) /\
    let f := S (cs_figs s) in let a0 := Axis f 2 2 1 in let a1 := Axis f 2 2 3 in let a2 := Axis f 1 2 2 in
    (alike ts -> plot_phases po phases interpolate true fig axs (repeat fmt 15) name s =
      (Canvas (N := Rnum) f (cs_curves s ++ phase_curves a0 a1 interpolate di dn fmt name ++ error_curves a2 ts rs (o_nx o) "dx" mark), Ok (Some f, AxMany [a0; a1; a2]))) /\
    (~ alike ts -> plot_phases po phases interpolate true fig axs (repeat fmt 15) name s =
      (Canvas (N := Rnum) f (cs_curves s ++ phase_curves a0 a1 interpolate di dn fmt name), Raise ValueError)).
Proof.
  intros Hr He. destruct small_data as (roots & dn & di & Er & Hn & Hi & Ei & En & Hd). exists roots, dn, di.
  split; [exact Er|]. split; [exact Hn|]. split; [exact Hi|]. intros f a0 a1 a2.
  pose proof (phases_split po phases interpolate true fig axs (repeat fmt 15) name s) as P. cbv zeta in P. rewrite Hr in P.
  rewrite (data_part_ok po _ interpolate di dn _ _ _ fmt name _ Ei En Hd), marks in P. cbv beta iota in P.
  unfold resid_part in P. cbn [rd_x rd_dx] in P.
  split; intros Ha; rewrite P; unfold dbind at 1, dlift at 1; rewrite each_known by apply He; unfold dbind.
  - rewrite (errors_ok _ ts rs _ (o_nx o)) by (auto; apply concat_known). unfold plus. cbn [cs_figs cs_curves]. rewrite <- app_assoc. reflexivity.
  - rewrite (errors_bad _ ts rs _ (o_nx o)) by auto. reflexivity.
Qed.
(** both kinds of residuals *)
Theorem plot_both_thm segs ts rs fig axs (s : canvas) : po_resid po = Some (Resid_data (N := Rnum) (Some (map (map Some) segs)) (Some (ts, rs))) ->
  let tx := map (map (@ss_t Rnum)) segs in let rx := map (map (fun g => Some (@ss_r Rnum g))) segs in
  error_data (o_nx o) tx rx -> error_data (o_nx o) ts rs -> alike tx -> alike ts ->
  exists roots dn di, mapM (c_roots (mp_cf mp)) (mp_orders mp) = Ok roots /\
    nodal_data mp roots sc w y (asked plots (wanted phases)) dn /\ interpolated_data mp roots sc w y (asked plots (wanted phases)) di (default_grid mp) /\
    let f := S (cs_figs s) in let a0 := Axis f 2 2 1 in let a1 := Axis f 2 2 3 in let a2 := Axis f 2 2 2 in let a3 := Axis f 2 2 4 in
    plot_phases po phases interpolate true fig axs (repeat fmt 15) name s =
      (Canvas (N := Rnum) f (cs_curves s ++ phase_curves a0 a1 interpolate di dn fmt name ++
         error_curves a2 tx rx (o_nx o) "x" mark ++ error_curves a3 ts rs (o_nx o) "dx" mark), Ok (Some f, AxMany [a0; a1; a2; a3])).
Proof.
  intros Hr tx rx Hex He Hax Ha. destruct small_data as (roots & dn & di & Er & Hn & Hi & Ei & En & Hd). exists roots, dn, di.
  split; [exact Er|]. split; [exact Hn|]. split; [exact Hi|]. intros f a0 a1 a2 a3.
  rewrite phases_split, Hr. cbv zeta. rewrite (data_part_ok po _ interpolate di dn _ _ _ fmt name _ Ei En Hd), marks. cbv beta iota.
  unfold resid_part. cbn [rd_x rd_dx].
  assert (E1 : states_times (N := Rnum) (map (map Some) segs) = map (map Some) tx).
  { unfold states_times, tx. rewrite !map_map. apply map_ext. intros l. rewrite !map_map. reflexivity. }
  assert (E2 : states_rows (N := Rnum) (map (map Some) segs) = rx).
  { unfold states_rows, rx. rewrite !map_map. apply map_ext. intros l. rewrite !map_map. reflexivity. }
  rewrite E1, E2. unfold dbind at 1. rewrite (errors_ok _ tx rx _ (o_nx o)) by (auto; apply known_rows).
  unfold dbind. rewrite (errors_ok _ ts rs _ (o_nx o)) by (auto; apply known_rows). unfold plus. cbn [cs_figs cs_curves]. rewrite <- !app_assoc. reflexivity.
Qed.
End Small.

(** ** the plots of process_results *)
Lemma result_step phases l residual_x residual_dx (s : canvas) : plot_results po (phases :: l) residual_x residual_dx s =
  match plot_phases po (Some phases) true (residual_x || residual_dx) None None solid "" s with
  | (s', Ok _) => plot_results po l residual_x residual_dx s' | (s', Raise e) => (s', Raise e) end.
Proof.
  unfold plot_results at 1. cbn [each]. unfold dbind at 1. unfold dbind at 1.
  destruct (plot_phases po (Some phases) true _ None None solid "" s) as [s' [x|e]]; reflexivity.
Qed.
(** one figure per entry, with the curves of its phases *)
Theorem plot_results_thm l residual_x residual_dx (s : canvas) : (o_nx o <= 15)%nat -> (o_nu o <= 15)%nat -> po_resid po = None ->
  (forall phases, In phases l -> phases_ok mp (asked plots phases)) ->
  exists rs cs, mapM (c_roots (mp_cf mp)) (mp_orders mp) = Ok rs /\
    plot_results po l residual_x residual_dx s = (Canvas (N := Rnum) (cs_figs s + length l) (cs_curves s ++ concat cs), Ok tt) /\
    length cs = length l /\
    forall i phases, nth_error l i = Some phases -> exists dn di,
      nodal_data mp rs sc w y (asked plots phases) dn /\ interpolated_data mp rs sc w y (asked plots phases) di (default_grid mp) /\
      let f := (cs_figs s + S i)%nat in nth_error cs i = Some (phase_curves (Axis f 2 1 1) (Axis f 2 1 2) true di dn "-" "").
Proof.
  intros Hx Hu Hr. destruct (made_ok mp sc plots w y po Hmade) as (npath & nterm & rs & _ & _ & _ & Ers & _).
  revert s. induction l as [|phases l IH]; intros s Hl.
  - exists rs, []. split; [exact Ers|]. split; [|split; [reflexivity|intros [|i] ? H; discriminate H]]. cbn. rewrite Nat.add_0_r, app_nil_r. destruct s; reflexivity.
  - assert (H0 : phases_ok mp (asked plots (wanted (Some phases)))) by (apply Hl; now left).
    destruct (plot_data_thm (Some phases) true "-" "" H0 Hx Hu (residual_x || residual_dx) s (or_intror Hr)) as (rs' & dn & di & E' & Hn & Hi & Hp & _).
    assert (rs' = rs) by (nred; congruence). subst rs'.
    cbv zeta in Hp. set (s1 := Canvas (N := Rnum) (S (cs_figs s)) _) in Hp.
    destruct (IH s1) as (rs' & cs & E'' & Hc & Lc & Hcs); [intros p Hp'; apply Hl; now right|]. assert (rs' = rs) by (nred; congruence). subst rs'.
    exists rs, (phase_curves (Axis (S (cs_figs s)) 2 1 1) (Axis (S (cs_figs s)) 2 1 2) true di dn "-" "" :: cs).
    split; [exact Ers|]. split; [|split].
    + rewrite result_step. unfold solid. rewrite Hp. rewrite Hc. unfold s1. cbn [cs_figs cs_curves]. cbn [length concat]. rewrite <- app_assoc.
      f_equal. f_equal. lia.
    + cbn [length]. lia.
    + intros [|i] p Hi'; cbn [nth_error] in *.
      * assert (p = phases) by congruence. subst p. exists dn, di. split; [exact Hn|]. split; [exact Hi|]. rewrite Nat.add_1_r. reflexivity.
      * destruct (Hcs i p Hi') as (dn' & di' & A & B & C). exists dn', di'. split; [exact A|]. split; [exact B|]. cbv zeta in *. rewrite C. unfold s1. cbn [cs_figs].
        replace (cs_figs s + S (S i))%nat with (S (cs_figs s) + S i)%nat by lia. reflexivity.
Qed.

(** ** more than fifteen states or controls *)
Lemma all_many (d : pdata (N := Rnum)) fig a0 a1 (legend : bool) name fmt (s : canvas) :
  length (pd_t d) = nr (pd_x d) -> length (pd_t d) = nr (pd_u d) -> (15 < nc (pd_x d) \/ nc (pd_x d) <= 15 /\ 15 < nc (pd_u d))%nat ->
  let c := if legend then node_curves a0 a1 d fmt name else smooth_curves a0 a1 d fmt in
  plot_all (pd_x d) (pd_u d) (pd_t d) (Some (repeat fmt 15)) (Some fig) (Some (AxMany [a0; a1])) legend name s =
  (plus s (firstn (if 15 <? nc (pd_x d) then 15 else nc (pd_x d) + 15)%nat c), Raise IndexError).
Proof.
  intros H1 H2 H3 c. unfold plot_all, axes_or. unfold dbind at 1, dret at 1.
  assert (F : forall (f g : nat -> curve) b, (forall i, (i < 15)%nat -> f i = g i) -> (15 <= b)%nat -> map f (seq 0 15) = firstn 15 (map g (seq 0 b))).
  { intros f g b Hfg Hb. rewrite firstn_map. replace (firstn 15 (seq 0 b)) with (seq 0 15).
    - apply map_ext_in. intros i Hi. apply in_seq in Hi. apply Hfg. lia.
    - replace b with (15 + (b - 15))%nat by lia. rewrite seq_app, firstn_app, seq_length, Nat.sub_diag, firstn_O, app_nil_r.
      rewrite firstn_all2 by (rewrite seq_length; lia). reflexivity. }
  assert (G : forall (a : axis) (m : mat Rnum) nm label, (15 < nc m)%nat -> (forall i, label_of nm (show (i + 1)) = label i) ->
    map (one a m (pd_t d) (fun i => nth i (repeat fmt 15) ""%string) (fun i => label_of nm (index_of None i))) (seq 0 15) = firstn 15 (curves_of a m (pd_t d) fmt label)).
  { intros a m nm label Hm Hl. rewrite curves_one. apply F; [|lia]. intros i Hi. unfold one, index_of. f_equal; [|apply Hl].
    rewrite (nth_indep _ _ fmt) by (rewrite repeat_length; lia). apply nth_repeat. }
  assert (C0 : forall label, length (curves_of a0 (pd_x d) (pd_t d) fmt label) = nc (pd_x d)) by (intros; unfold curves_of; now rewrite map_length, seq_length).
  assert (Main : forall (nx nu : option string) lx lu, (forall i, label_of nx (show (i + 1)) = lx i) -> (forall i, label_of nu (show (i + 1)) = lu i) ->
    c = curves_of a0 (pd_x d) (pd_t d) fmt lx ++ curves_of a1 (pd_u d) (pd_t d) fmt lu ->
    dbind (N := Rnum) (dlift (axis_at (AxMany [a0; a1]) 0)) (fun b0 => dbind (plot_curve b0 (pd_x d) (pd_t d) nx (repeat fmt 15) None) (fun _ =>
      dbind (dlift (axis_at (AxMany [a0; a1]) 1)) (fun b1 => dbind (plot_curve b1 (pd_u d) (pd_t d) nu (repeat fmt 15) None) (fun _ =>
        dret (Some fig, AxMany [a0; a1]))))) s = (plus s (firstn (if 15 <? nc (pd_x d) then 15 else nc (pd_x d) + 15)%nat c), Raise IndexError)).
  { intros nx nu lx lu Elx Elu Ec. unfold dbind at 1, dlift at 1. cbn [axis_at]. unfold at_ at 1. cbn [nth_error]. rewrite Ec.
    destruct (Nat.ltb_spec 15 (nc (pd_x d))) as [Hb|Hb].
    - unfold dbind at 1. rewrite plot_curve_short by (rewrite ?repeat_length; auto). rewrite repeat_length, (G _ _ _ lx) by auto.
      rewrite firstn_app, C0. replace (15 - nc (pd_x d))%nat with 0%nat by lia. rewrite firstn_O, app_nil_r. reflexivity.
    - destruct H3 as [H3|[_ H3]]; [lia|]. unfold dbind at 1. rewrite plot_curve_ok by (rewrite ?repeat_length; auto).
      unfold dbind at 1, dlift at 1. unfold at_ at 1. cbn [nth_error]. unfold dbind at 1. rewrite plot_curve_short by (rewrite ?repeat_length; auto).
      rewrite repeat_length, (G _ _ _ lu), plus_plus by auto. f_equal. f_equal. rewrite firstn_app, C0. rewrite (firstn_all2 (curves_of a0 (pd_x d) (pd_t d) fmt lx)) by (rewrite C0; lia).
      replace (nc (pd_x d) + 15 - nc (pd_x d))%nat with 15%nat by lia. f_equal. rewrite curves_one. apply one_tics; [lia|]. intros; apply Elx. }
  destruct legend.
  - apply (Main _ _ (numbered (name ++ "state")) (numbered (name ++ "control"))); reflexivity.
  - apply (Main _ _ unlabelled unlabelled); reflexivity.
Qed.
(** ... only fifteen of them are drawn: IndexError *)
Theorem plot_many_thm phases interpolate fmt name residuals (s : canvas) : phases_ok mp (asked plots (wanted phases)) -> (15 < o_nx o \/ 15 < o_nu o)%nat ->
  residuals = false \/ po_resid po = None ->
  let f := S (cs_figs s) in let a0 := Axis f 2 1 1 in let a1 := Axis f 2 1 2 in
  exists rs dn di, mapM (c_roots (mp_cf mp)) (mp_orders mp) = Ok rs /\
    nodal_data mp rs sc w y (asked plots (wanted phases)) dn /\ interpolated_data mp rs sc w y (asked plots (wanted phases)) di (default_grid mp) /\
    plot_phases po phases interpolate residuals None None (repeat fmt 15) name s =
     (Canvas (N := Rnum) f (cs_curves s ++ firstn (if 15 <? o_nx o then 15 else o_nx o + 15)%nat (phase_curves a0 a1 interpolate di dn fmt name)), Raise IndexError).
Proof.
  intros Hph Hb Hr f a0 a1. set (ph := match phases with Some l => l | None => po_phases po end).
  pose proof (wanted_asked phases) as E. fold ph in E. rewrite <- E in *.
  destruct (both_data ph Hph) as (rs & dn & di & Er & Hn & Hi & En & Ei). exists rs, dn, di. split; [exact Er|]. split; [exact Hn|]. split; [exact Hi|].
  assert (Es : (if residuals then po_resid po else None) = None) by (destruct Hr as [Er0|Er0]; rewrite Er0; [reflexivity|destruct residuals; reflexivity]).
  rewrite phases_split, Es. fold ph. unfold data_part, phase_curves.
  destruct interpolate.
  - destruct Hi as (A & B & C & D' & F & _). unfold dbind at 1. unfold dbind at 1, dlift at 1. rewrite Ei. unfold dbind at 1. rewrite plot_all_new. cbv zeta. fold f a0 a1.
    rewrite all_many; [|congruence|congruence|rewrite B, D'; lia]. rewrite B. unfold plus. cbn [cs_figs cs_curves]. f_equal. f_equal. f_equal.
    rewrite firstn_app.
    assert (L : length (smooth_curves a0 a1 di fmt) = (o_nx o + o_nu o)%nat).
    { unfold smooth_curves, curves_of. rewrite app_length, !map_length, !seq_length, B, D'. reflexivity. }
    rewrite L. replace ((if 15 <? o_nx o then 15 else o_nx o + 15) - (o_nx o + o_nu o))%nat with 0%nat by (destruct (Nat.ltb_spec 15 (o_nx o)); lia). rewrite firstn_O, app_nil_r. reflexivity.
  - destruct Hn as (A & B & C & D' & F & _). unfold dbind at 1, dret at 1. unfold dbind at 1, dlift at 1. rewrite En. unfold dbind at 1. rewrite plot_all_new. cbv zeta. fold f a0 a1.
    rewrite all_many; [|congruence|congruence|rewrite B, D'; lia]. rewrite B. reflexivity.
Qed.
End Made.
