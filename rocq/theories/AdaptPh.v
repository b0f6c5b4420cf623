(** The program with variable segment widths: constraints of a phase and the whole program (proofs). *)
From Coq Require Import Reals.
From Coquelicot Require Import Coquelicot.
From Coq Require Import List Lia Lra Bool Arith.
From Verif Require Import Num PyList Mat Poly Roots Colloc Ocp Transcribe Solve Adaptive Spec SpecOcp SpecHadapt SpecResid SpecAdapt
  NumR ListR PolyR CollocR CompR CollocThm MeshR BlockR DiscR NlpR NlpThm NlpMain GridR ResidR AdaptR.
Import ListNotations.
Open Scope R_scope.

Lemma rsum_sum (l : list R) n w : length l = n -> (forall k, (k < n)%nat -> at_ l k = Ok (w k)) -> sum_ (N := Rnum) l = Rsum n w.
Proof.
  intros Hl Hw. rewrite sum_R, rsum_nth, Hl. apply Rsum_ext. intros k Hk. apply (at_inv_nth _ _ _ 0 (Hw k Hk)).
Qed.
Lemma within_pm tol x : within (Fin (- tol)) (Fin tol) x <-> Rabs x <= tol.
Proof. unfold within, above, below. split; [intros [H1 H2]; apply Rabs_le; lra|intros H; apply Rabs_def2_le in H || (apply Rabs_le_between in H); lra]. Qed.

Lemma shaped_row {T} (m : list (list T)) n c ph : (ph < n)%nat -> shaped m n c -> exists r, at_ m ph = Ok r /\ length r = c.
Proof.
  intros Hp [Hl Hr]. unfold at_. destruct (nth_error m ph) as [f|] eqn:E; [|apply nth_error_None in E; lia].
  exists f. split; [reflexivity|]. apply Hr. eapply nth_error_In; eauto.
Qed.

Section Phase.
Variables (ac : acfg Rnum) (mp : mpo Rnum).
Hypothesis Hmp : mpo_ok mp.
Local Notation o := (mp_ocp mp).
Local Notation cf := (mp_cf mp).
Local Notation orders := (mp_orders mp).
Local Notation NN := (total_nodes orders).
Variables npath nterm : nat -> option nat.
Hypothesis Hok : ocp_ok o npath nterm.
Hypothesis Hsc : scales_pos o.
Hypothesis Hlbh : length (ac_lbh ac) = o_nph o.
Hypothesis Hubh : length (ac_ubh ac) = o_nph o.
Hypothesis Htol : length (ac_tol ac) = o_nph o.
Variable rs : list (list R).
Hypothesis Hseg : seg_nodes cf orders rs.
Hypothesis Hrs : length rs = length orders.
Hypothesis Hgood : forall k p r, nth_error orders k = Some p -> nth_error rs k = Some r ->
  good_nodes (cf_tau0 cf) (cf_tau1 cf) p r.
Variables (sw : list R) (w : nat -> R).
Hypothesis Hlsw : length sw = length orders.
Hypothesis Hw : forall k, (k < length orders)%nat -> at_ sw k = Ok (w k).
Variable ph : nat.
Hypothesis Hph : (ph < o_nph o)%nat.
Variables (v : pvars Rnum) (y : utraj).
Hypothesis Hrep : rep mp v y.
Let Hsh := ok_shapes _ _ _ Hok.

Lemma con_widths_ok d : disc_spec mp npath rs w ph y d ->
  exists S, con_widths ac mp d ph v sw = Ok S /\ balanced S /\
    length (c_g S) = (1 + (if bounded_row ph (o_lbu o) (o_ubu o) then o_nu o * (NN - 1) else 0)
      + (if bounded_row ph (o_lbx o) (o_ubx o) then o_nx o * (NN - 1) else 0)
      + (if ac_mid ac then o_nx o * (NN - 1) else 0))%nat /\
    (sat S <-> width_sum_ok mp w /\ mid_controls_ok mp rs ph y /\ mid_states_ok mp rs ph y /\ mid_defects_ok ac mp rs w ph y).
Proof.
  intros Hd. unfold con_widths.
  pose proof (ad_mids mp rs Hrs Hgood) as Hmo.
  rewrite (mapM_then (c_roots cf) (mid_points (N := Rnum)) orders rs (proj1 Hseg)). cbn [bind].
  assert (Hlt : length (map (mid_points (N := Rnum)) rs) = length orders) by (rewrite map_length; exact Hrs).
  destruct (comp_interp_ok cf (map (mid_points (N := Rnum)) rs) orders rs Hseg Hlt) as (I & EI & HrI & HcI & HI).
  destruct (comp_interpD_ok cf (map (mid_points (N := Rnum)) rs) orders rs 1 Hseg Hlt (or_introl eq_refl)) as (D & ED & HrD & HcD & HD).
  nred. rewrite EI. cbn [bind]. rewrite ED. cbn [bind].
  rewrite HcI, HcD, (rp_nrU _ _ _ Hrep), (rp_nrX _ _ _ Hrep), Nat.eqb_refl. cbn [bind andb].
  assert (EN : offset orders (length orders) = (NN - 1)%nat) by (unfold total_nodes; lia).
  rewrite Hlt, Hmo, EN in HrI. rewrite Hlt, Hmo, EN in HrD.
  assert (HI' : forall k p j ys c, nth_error orders k = Some p -> (j < p)%nat -> seg_interp orders k (nth k rs []) ys c ->
    Rsum NN (fun i => mget I (offset orders k + j) i * ys i) = peval c (middle rs k j)).
  { intros k p j ys c Hk Hj Hc. rewrite <- (ad_tau mp rs Hrs Hgood k p j Hk Hj). pose proof (ad_tlen mp rs Hrs Hgood k p Hk) as Hl.
    pose proof (nth_error_lt _ _ _ Hk) as Hlt'.
    pose proof (HI k p (nth k rs []) (nth k (map (mid_points (N := Rnum)) rs) []) j ys c Hk) as E. nred. rewrite Hmo in E.
    apply E; auto.
    - apply nth_error_nth'. nred. lia.
    - apply nth_error_nth'. nred. lia.
    - nred. lia. }
  assert (HD' : forall k p j ys c, nth_error orders k = Some p -> (j < p)%nat -> seg_interp orders k (nth k rs []) ys c ->
    Rsum NN (fun i => mget D (offset orders k + j) i * ys i) = Derive (peval c) (middle rs k j)).
  { intros k p j ys c Hk Hj Hc. rewrite <- (ad_tau mp rs Hrs Hgood k p j Hk Hj). pose proof (ad_tlen mp rs Hrs Hgood k p Hk) as Hl.
    pose proof (nth_error_lt _ _ _ Hk) as Hlt'.
    pose proof (HD k p (nth k rs []) (nth k (map (mid_points (N := Rnum)) rs) []) j ys c Hk) as E. nred. rewrite Hmo in E.
    rewrite E; auto.
    - symmetry. apply is_derive_unique, dform1_derive.
    - apply nth_error_nth'. nred. lia.
    - apply nth_error_nth'. nred. lia.
    - nred. lia. }
  clear HI HD.
  destruct (shaped_row (o_lbu o) _ _ ph Hph (sh_lbu _ Hsh)) as (lbu & Elu & Hllu).
  destruct (shaped_row (o_ubu o) _ _ ph Hph (sh_ubu _ Hsh)) as (ubu & Euu & Hluu).
  destruct (shaped_row (o_lbx o) _ _ ph Hph (sh_lbx _ Hsh)) as (lbx & Elx & Hllx).
  destruct (shaped_row (o_ubx o) _ _ ph Hph (sh_ubx _ Hsh)) as (ubx & Eux & Hlux).
  pose proof (at_inv_nth _ _ _ [] Elu) as Nlu. pose proof (at_inv_nth _ _ _ [] Euu) as Nuu.
  pose proof (at_inv_nth _ _ _ [] Elx) as Nlx. pose proof (at_inv_nth _ _ _ [] Eux) as Nux.
  nred. rewrite Elu, Euu, Elx, Eux. cbn [bind].
  destruct (mid_bounds_ok mp Hmp rs Hrs Hgood sw Hlsw ph Hph I D HrI HrD HcI HcD HI' (v_U v) (o_nu o) (o_scale_u o) (y_u y) (o_lbu o) (o_ubu o) lbu ubu
    (rp_nrU _ _ _ Hrep) (rp_ncU _ _ _ Hrep) (sh_su _ Hsh) (sp_u _ Hsc) (rp_U _ _ _ Hrep) Elu Euu Hllu Hluu) as (BU & LU & SU).
  { intros q Hq. rewrite <- Nlu, <- Nuu. apply (sh_u _ Hsh); auto. }
  destruct (mid_bounds_ok mp Hmp rs Hrs Hgood sw Hlsw ph Hph I D HrI HrD HcI HcD HI' (v_X v) (o_nx o) (o_scale_x o) (y_x y) (o_lbx o) (o_ubx o) lbx ubx
    (rp_nrX _ _ _ Hrep) (rp_ncX _ _ _ Hrep) (sh_sx _ Hsh) (sp_x _ Hsc) (rp_X _ _ _ Hrep) Elx Eux Hllx Hlux) as (BX & LX & SX).
  { intros q Hq. rewrite <- Nlx, <- Nux. apply (sh_x _ Hsh); auto. }
  nred.
  match type of BU with balanced ?c => set (CU := c) in * end.
  match type of BX with balanced ?c => set (CX := c) in * end.
  assert (HR : exists CR, (if ac_mid ac then
      bind (mapM (mid_residuals mp ph v (mmul I (v_X v)) (mmul I (v_U v)) (mmul D (v_X v)) (mid_points (N := Rnum) (d_t d)) sw
         (map (mid_points (N := Rnum)) rs)) (seq 0 (mp_nseg mp))) (fun rr => bind (at_ (ac_tol ac) ph) (fun tol =>
         Ok (con_const (N := Rnum) (List.concat rr) (Fin (Ropp tol)) (Fin tol))))
      else Ok con_nil) = Ok CR /\ balanced CR /\ length (c_g CR) = (if ac_mid ac then o_nx o * (NN - 1) else 0)%nat /\
      (sat CR <-> mid_defects_ok ac mp rs w ph y)).
  { unfold mid_defects_ok. destruct (ac_mid ac).
    2:{ exists con_nil. split; [reflexivity|]. split; [apply balanced_nil|]. split; [reflexivity|].
        split; [intros _ ?; discriminate|intros _; apply sat_nil]. }
    assert (Hres : forall k p, nth_error orders k = Some p -> exists l,
      mid_residuals mp ph v (mmul I (v_X v)) (mmul I (v_U v)) (mmul D (v_X v)) (mid_points (N := Rnum) (d_t d)) sw (map (mid_points (N := Rnum)) rs) k = Ok l /\
      length l = (o_nx o * p)%nat /\
      forall cx cu, seg_polys mp rs y k cx cu -> forall s j, (s < o_nx o)%nat -> (j < p)%nat ->
        nth (s * p + j) l 0 = w k * (nth s (o_scale_x o) 0 * defect mp w ph y k cx cu s (middle rs k j))).
    { intros k p Hk. destruct (ad_polys mp rs Hrs Hgood y k (nth_error_lt _ _ _ Hk)) as (cx & cu & Hc).
      destruct (mid_residuals_ok mp Hmp npath nterm Hok Hsc rs Hrs Hgood sw w Hlsw Hw ph Hph v y Hrep I D HrI HrD HcI HcD HI' HD' d Hd k p cx cu Hk Hc)
        as (l & El & Hl & _).
      exists l. split; [exact El|]. split; [exact Hl|]. intros cx' cu' Hc' s j Hs Hj.
      destruct (mid_residuals_ok mp Hmp npath nterm Hok Hsc rs Hrs Hgood sw w Hlsw Hw ph Hph v y Hrep I D HrI HrD HcI HcD HI' HD' d Hd k p cx' cu' Hk Hc')
        as (l' & El' & _ & Hn). assert (l' = l) by congruence. subst l'. auto. }
    assert (Eseg : mp_nseg mp = length orders) by (pose proof (mo_len _ Hmp); nred; congruence). rewrite Eseg.
    destruct (mapM_total (mid_residuals mp ph v (mmul I (v_X v)) (mmul I (v_U v)) (mmul D (v_X v)) (mid_points (N := Rnum) (d_t d)) sw
         (map (mid_points (N := Rnum)) rs)) (seq 0 (length orders))) as (ls & Els & Hlls & Hls).
    { intros k Hk. apply in_seq in Hk. destruct (nth_error orders k) as [p|] eqn:Ek; [|apply nth_error_None in Ek; lia].
      destruct (Hres k p Ek) as (l & El & _). eauto. }
    rewrite seq_length in Hlls. nred. rewrite Els. cbn [bind]. pose proof (at_ok (ac_tol ac) ph 0 ltac:(nred; lia)) as Et. nred. rewrite Et. cbn [bind].
    set (tol := nth ph (ac_tol ac) 0).
    assert (Hls' : forall k p, nth_error orders k = Some p ->
      length (nth k ls []) = (o_nx o * p)%nat /\
      forall cx cu, seg_polys mp rs y k cx cu -> forall s j, (s < o_nx o)%nat -> (j < p)%nat ->
        nth (s * p + j) (nth k ls []) 0 = w k * (nth s (o_scale_x o) 0 * defect mp w ph y k cx cu s (middle rs k j))).
    { intros k p Hk. pose proof (nth_error_lt _ _ _ Hk) as Hkl. destruct (Hres k p Hk) as (l & El & H).
      destruct (Hls k k) as (l' & El' & En). { rewrite (nth_error_nth' _ 0%nat) by (rewrite seq_length; exact Hkl). rewrite seq_nth by exact Hkl. reflexivity. }
      assert (l' = l) by congruence. subst l'. rewrite (nth_error_nth _ _ [] En). exact H. }
    eexists. split; [reflexivity|]. split; [apply balanced_const|]. split.
    { cbn [con_const c_g]. rewrite concat_length. nred.
      assert (Em : map (@length R) ls = map (fun p => o_nx o * p)%nat orders).
      { apply (list_eq_nth _ _ 0%nat); rewrite !map_length; [exact Hlls|]. intros k Hk.
        destruct (nth_error orders k) as [p|] eqn:Ek; [|apply nth_error_None in Ek; nred; lia].
        rewrite (nth_map_in _ ls k 0%nat []) by exact Hk.
        rewrite (nth_map_in _ orders k 0%nat 0%nat) by (eapply nth_error_lt; eauto). rewrite (nth_error_nth _ _ 0%nat Ek).
        apply (proj1 (Hls' k p Ek)). }
      rewrite Em, Hlls, <- EN. generalize (o_nx o) as m. intros m. clear. induction orders as [|p l IH]; [cbn; lia|]. cbn [length map offset]. rewrite IH. lia. }
    rewrite sat_const_in. split.
    - intros H _ k p j s cx cu Hk Hj Hs Hc. destruct (Hls' k p Hk) as [Hl Hn]. pose proof (Hn cx cu Hc s j Hs Hj) as E. nred. rewrite <- E.
      apply (proj1 (within_pm tol _)). apply H. apply in_concat_nth. exists k. pose proof (nth_error_lt _ _ _ Hk). split; [nred; lia|]. apply nth_In. rewrite Hl. nia.
    - intros H x Hx. apply in_concat_nth in Hx. destruct Hx as (k & Hk & Hx). nred. rewrite Hlls in Hk.
      destruct (nth_error orders k) as [p|] eqn:Ek; [|apply nth_error_None in Ek; nred; lia].
      destruct (Hls' k p Ek) as [Hl Hn]. destruct (In_nth _ _ 0 Hx) as (i & Hi & <-). rewrite Hl in Hi.
      destruct (divide_index p (o_nx o) i Hi) as (s & j & -> & Hs & Hj).
      destruct (ad_polys mp rs Hrs Hgood y k Hk) as (cx & cu & Hc). pose proof (Hn cx cu Hc s j Hs Hj) as E. nred. rewrite E. apply (proj2 (within_pm tol _)). eapply H; eauto. }
  destruct HR as (CR & ER & BR & LR & SR).
  eexists. split.
  { match goal with |- bind ?b ?f = _ => transitivity (bind (Ok CR) f); [exact (f_equal (fun m => bind m f) ER)|] end. reflexivity. }
  set (T := Con (N := Rnum) _ _ _).
  assert (BT : balanced T) by (split; reflexivity).
  assert (ST : sat T <-> width_sum_ok mp w).
  { unfold T. rewrite (rsum_sum sw (length orders) w Hlsw Hw). unfold sat, width_sum_ok. cbn. split.
    - intros H. specialize (H 0%nat ltac:(lia)). unfold within, above, below in H. nred. lra.
    - intros H [|i] Hi; [|lia]. unfold within, above, below. nred. lra. }
  split; [|split].
  - apply balanced_concat. intros c [<-|[<-|[<-|[<-|[]]]]]; auto.
  - rewrite length_con_concat. cbn [map fold_right]. nred. rewrite LU, LX, LR. unfold T. cbn [c_g length]. lia.
  - unfold con_concat. cbn [fold_right]. rewrite !sat_app by auto. rewrite ST, SU, SX, SR.
    unfold mid_controls_ok, mid_states_ok. nred. rewrite Nlu, Nuu, Nlx, Nux. pose proof sat_nil. tauto.
Qed.

Variables (D : mat Rnum) (W : list R).
Hypothesis HnrD : nr D = NN.
Hypothesis HncD : nc D = NN.
Hypothesis HD : forall i k j ys c, owned orders i k j -> seg_interp orders k (nth k rs []) ys c ->
  is_derive (peval c) (nth j (nth k rs []) 0) (row_dot D i ys).
Hypothesis HlW : length W = NN.
Hypothesis HW : forall ys, Rsum NN (fun j => nth j W 0 * ys j) =
  ell_int (nth 0 rs []) (cf_tau0 cf) (cf_tau1 cf) 0 * ys 0%nat +
  Rsum (length orders) (fun k => Rsum (nth k orders 0%nat)
    (fun j => ell_int (nth k rs []) (cf_tau0 cf) (cf_tau1 cf) (S j) * ys (offset orders k + S j)%nat)).

Lemma a_variables_ok : exists Z, a_variables ac mp ph v sw = Ok Z /\ balanced Z /\
  c_g Z = mvec (v_X v) ++ mvec (v_U v) ++ [v_t0 v; v_tf v] ++ v_A v ++ sw /\
  (sat Z <-> bounds_ok mp ph y /\ width_bounds_ok ac mp w ph).
Proof.
  unfold a_variables.
  destruct (nlp_variables_ok mp npath nterm Hok Hsc rs Hrs ph Hph v y Hrep D W HnrD HncD HlW HW) as (Z & EZ & BZ & VZ & SZ).
  rewrite EZ. cbn [bind].
  pose proof (at_ok (ac_lbh ac) ph NaN ltac:(nred; lia)) as El. pose proof (at_ok (ac_ubh ac) ph NaN ltac:(nred; lia)) as Eu.
  nred. rewrite El, Eu. cbn [bind]. eexists. split; [reflexivity|].
  set (S := Con (N := Rnum) sw _ _). pose proof (mo_len _ Hmp) as Hls.
  assert (BS : balanced S) by (split; unfold S; cbn [c_g c_lo c_hi]; rewrite repeat_length; nred; lia).
  split; [apply balanced_app; auto|]. split.
  - cbn [con_app c_g]. rewrite VZ. unfold S. cbn [c_g]. rewrite <- !app_assoc. reflexivity.
  - rewrite sat_app by exact BZ. rewrite SZ. apply and_iff_compat_l. unfold sat, S, width_bounds_ok. cbn [c_g c_lo c_hi]. nred. rewrite Hlsw. split.
    + intros H k Hk. specialize (H k Hk). rewrite !nth_repeat_in in H by lia.
      rewrite (at_inv_nth _ _ _ 0 (Hw k Hk)) in H. exact H.
    + intros H k Hk. rewrite !nth_repeat_in by lia. rewrite (at_inv_nth _ _ _ 0 (Hw k Hk)). exact (H k Hk).
Qed.

Lemma a_discretize_ok ap : ap_taus ap = rs -> ap_D ap = D -> ap_W ap = W ->
  exists G J, a_discretize ac mp ap ph v sw = Ok (G, J) /\ balanced G /\
    length (c_g G) = ad_rows ac mp ph npath nterm /\
    (sat G <-> ad_phase_ok ac mp rs w ph y) /\
    forall C B, cost_interp mp rs w ph y C -> start_basis mp rs B ->
      J = phase_cost mp w ph y C - start_cost mp rs w ph y B.
Proof.
  intros H1 H2 H3. unfold a_discretize.
  destruct (discretize_nodes_ok mp Hmp npath nterm Hok Hsc rs Hrs Hgood sw w Hw ph Hph v y Hrep D HnrD HncD ap H1) as (d & Ed & Hd). nred. rewrite Ed. cbn [bind].
  assert (HF : exists F, con_dynamics mp ap d v = Ok F /\ balanced F /\ length (c_g F) = (o_nx o * NN)%nat /\ (sat F <-> dynamics_ok mp rs w ph y)).
  { eapply con_dynamics_ok; eauto. }
  assert (HC : exists C, con_path (N := Rnum) d = Ok C /\ balanced C /\
    length (c_g C) = (match npath ph with None => 0 | Some n => n * NN end)%nat /\ (sat C <-> path_ok mp rs w ph y)).
  { eapply con_path_ok; eauto. }
  assert (HT : exists TC, con_terminal mp ph v = Ok (TC, mayer_val o ph y (NN - 1)) /\ balanced TC /\
    length (c_g TC) = (match nterm ph with None => 0 | Some n => n end)%nat /\ (sat TC <-> terminal_ok mp ph y)).
  { eapply con_terminal_ok; eauto. }
  assert (HU : exists DU, con_slope mp ap ph v = Ok DU /\ balanced DU /\
    length (c_g DU) = (if nth ph (o_diff_u o) false then o_nu o * NN else 0)%nat /\ (sat DU <-> slope_ok mp rs ph y)).
  { eapply con_slope_ok; eauto. }
  destruct HF as (F & EF & BF & LF & SF). rewrite EF. cbn [bind].
  destruct HC as (C & EC & BC & LC & SC). nred. rewrite EC. cbn [bind].
  destruct HT as (TC & ET & BT & LT & ST). rewrite ET. cbn [bind].
  destruct HU as (DU & EDU & BDU & LDU & SDU). rewrite EDU. cbn [bind].
  destruct (con_widths_ok d Hd) as (SW & ESW & BSW & LSW & SSW). nred. rewrite ESW. cbn [bind].
  rewrite H3. pose proof (ds_q_len _ _ _ _ _ _ _ Hd) as Hlq. nred. rewrite HlW, Hlq, Nat.eqb_refl. cbn [bind].
  eexists _, _. split; [reflexivity|]. split; [|split; [|split]].
  - apply balanced_concat. intros c [<-|[<-|[<-|[<-|[<-|[]]]]]]; auto.
  - rewrite length_con_concat. cbn [map fold_right]. unfold ad_rows. nred. rewrite LF, LC, LDU, LT, LSW. lia.
  - unfold con_concat. cbn [fold_right]. rewrite !sat_app by auto.
    rewrite SF, SC, SDU, SSW, ST. unfold ad_phase_ok. pose proof sat_nil. tauto.
  - intros CC B HC HB.
    assert (E : sum_ (N := Rnum) (map2 Rmult W (d_q d)) =
      Rsum (length orders) (fun k => seg_h cf w y k * RInt (peval (CC k)) (cf_tau0 cf) (cf_tau1 cf)) - start_cost mp rs w ph y B).
    { eapply quad_cost; eauto. }
    nred. rewrite E. unfold phase_cost. ring.
Qed.
End Phase.
