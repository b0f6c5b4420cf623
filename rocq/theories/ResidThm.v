(** Residuals vanish at collocation points; integrated states; second derivatives (proofs). *)
From Coq Require Import Reals.
From Coquelicot Require Import Coquelicot.
From Coq Require Import String.
From Coq Require Import List Lia Lra Bool Arith.
From Verif Require Import Num PyList Mat Poly Roots Colloc Ocp Transcribe Hadapt Resid Spec SpecOcp SpecHadapt SpecResid
  NumR ListR PolyR CollocR CompR CollocThm MeshR BlockR DiscR NlpR NlpThm NlpMain AreaR GridR ResidR.
Import ListNotations.
Open Scope R_scope.

Lemma vec_ext n f g : (forall i, (i < n)%nat -> f i = g i) -> vec n f = vec n g.
Proof. intros H. unfold vec. apply map_ext_in. intros i Hi. apply in_seq in Hi. apply H. lia. Qed.
Lemma tl_nth {A} (l : list A) x d : In x (tl l) -> exists j, (1 <= j < length l)%nat /\ x = nth j l d.
Proof.
  destruct l as [|a l]; [intros []|]. cbn [tl]. intros H. destruct (In_nth _ _ d H) as (j & Hj & <-). exists (S j). cbn. split; [lia|reflexivity].
Qed.
Lemma tl_In {A} (l : list A) j d : (1 <= j < length l)%nat -> In (nth j l d) (tl l).
Proof. destruct l as [|a l]; cbn; [lia|]. destruct j as [|j]; [lia|]. intros H. apply nth_In. lia. Qed.

Section Thm.
Variables (mp : mpo Rnum) (npath nterm : nat -> option nat) (z p : list R).
Hypothesis Hin : input_ok mp npath nterm z p.
Local Notation o := (mp_ocp mp).
Local Notation cf := (mp_cf mp).
Local Notation orders := (mp_orders mp).
Let Hmp : mpo_ok mp := in_mpo _ _ _ _ _ Hin.
Variables (rs : list (list R)).
Hypothesis Hl : length rs = length orders.
Hypothesis Hg : forall k q r, nth_error orders k = Some q -> nth_error rs k = Some r -> good_nodes (cf_tau0 cf) (cf_tau1 cf) q r.
Variables (ph : nat).
Hypothesis Hph : (ph < o_nph o)%nat.
Local Notation w := (width mp p ph).
Local Notation y := (user_traj mp z ph).

Lemma own_points_iff k x : (k < length orders)%nat ->
  (In x (own_points rs k) <-> exists j, owned orders (offset orders k + j) k j /\ x = nth j (nth k rs []) 0).
Proof.
  intros Hk. destruct (nth_error orders k) as [q|] eqn:Eq; [|apply nth_error_None in Eq; lia].
  assert (Hr : nth_error rs k = Some (nth k rs [])) by (apply nth_error_nth'; lia).
  destruct (Hg k q _ Eq Hr) as (Lr & _). unfold own_points. destruct k as [|k].
  - split.
    + intros H. destruct (In_nth _ _ 0 H) as (j & Hj & <-). exists j. split; [|reflexivity]. exists q. repeat split; auto; lia.
    + intros (j & (q' & Eq' & Hj & _ & _) & ->). assert (q' = q) by congruence. subst. apply nth_In. lia.
  - split.
    + intros H. destruct (tl_nth _ _ 0 H) as (j & Hj & ->). exists j. split; [|reflexivity]. exists q. repeat split; auto; lia.
    + intros (j & (q' & Eq' & Hj & Hj' & _) & ->). assert (q' = q) by congruence. subst. apply tl_In. lia.
Qed.
Lemma along_node k cx cu j q t : seg_polys mp rs y k cx cu -> nth_error orders k = Some q -> (j <= q)%nat ->
  dyn_along o ph y cx cu (nth j (nth k rs []) 0) t = dyn_val o ph y (offset orders k + j) t.
Proof.
  intros [Hx Hu] Eq Hj. assert (Hk : (k < length orders)%nat) by (apply nth_error_Some; congruence).
  destruct (Hg k q (nth k rs []) Eq ltac:(apply nth_error_nth'; lia)) as (Lr & _).
  unfold dyn_along, dyn_val. destruct (nth_error (o_dyn o) ph) as [f|]; [|reflexivity].
  replace (vec (o_nx o) (fun s => peval (cx s) (nth j (nth k rs []) 0))) with (vec (o_nx o) (y_x y (offset orders k + j))).
  - replace (vec (o_nu o) (fun s => peval (cu s) (nth j (nth k rs []) 0))) with (vec (o_nu o) (y_u y (offset orders k + j))); [reflexivity|].
    apply vec_ext. intros s Hs. symmetry. apply (Hu s Hs). lia.
  - apply vec_ext. intros s Hs. symmetry. apply (Hx s Hs). lia.
Qed.

(** the defect is zero at all collocation points exactly for points that satisfy the dynamics constraints *)
Lemma defect_zero : dynamics_ok mp rs w ph y -> forall k cx cu x s, (k < length orders)%nat -> seg_polys mp rs y k cx cu ->
  In x (own_points rs k) -> (s < o_nx o)%nat -> defect mp w ph y k cx cu s x = 0.
Proof.
  intros Hd k cx cu x s Hk Hc Hx Hs. apply own_points_iff in Hx; [|exact Hk]. destruct Hx as (j & Ho & ->).
  pose proof (Hd _ k j s (cx s) Ho Hs (proj1 Hc s Hs)) as D. apply is_derive_unique in D.
  destruct Ho as (q & Eq & Hj & _ & _). unfold defect, rate. rewrite (along_node k cx cu j q _ Hc Eq Hj), D. ring.
Qed.
Lemma defect_zero_inv : (forall k cx cu x s, (k < length orders)%nat -> seg_polys mp rs y k cx cu ->
  In x (own_points rs k) -> (s < o_nx o)%nat -> defect mp w ph y k cx cu s x = 0) -> dynamics_ok mp rs w ph y.
Proof.
  intros H i k j s c Ho Hs Hc. pose proof Ho as (q & Eq & Hj & Hj' & Ei).
  assert (Hk : (k < length orders)%nat) by (apply nth_error_Some; congruence).
  destruct (polys_exist mp z ph rs Hl Hg k Hk) as (cx & cu & Hx & Hu).
  set (cx' := fun s' => if Nat.eqb s' s then c else cx s').
  assert (Hc' : seg_polys mp rs y k cx' cu).
  { split; [|exact Hu]. intros s' Hs'. unfold cx'. destruct (Nat.eqb_spec s' s) as [->|_]; [exact Hc|apply Hx, Hs']. }
  assert (Hin' : In (nth j (nth k rs []) 0) (own_points rs k)).
  { apply own_points_iff; [exact Hk|]. exists j. split; [|reflexivity]. rewrite <- Ei. exact Ho. }
  specialize (H k cx' cu _ s Hk Hc' Hin' Hs). unfold defect, rate in H. rewrite (along_node k cx' cu j q _ Hc' Eq Hj), <- Ei in H.
  unfold cx' in H. rewrite Nat.eqb_refl in H. apply derive_iff. lra.
Qed.
End Thm.

(** ** C32 *)
Theorem residual_vanishes rc mp npath nterm z p ph taus : input_ok mp npath nterm z p -> (ph < o_nph (mp_ocp mp))%nat ->
  length taus = length (mp_orders mp) ->
  exists rs segs n, mapM (c_roots (mp_cf mp)) (mp_orders mp) = Ok rs /\ nlp_at mp z p = Ok n /\
  dyn_residuals_phase rc mp p z ph (Some taus) = Ok segs /\ length segs = length (mp_orders mp) /\
  (sat (g_block mp npath nterm n ph 0) ->
   forall k seg rows pts i x row v, nth_error segs k = Some seg -> sr_r seg = Some rows -> nth_error taus k = Some pts ->
     nth_error pts i = Some x -> In x (own_points rs k) -> nth_error rows i = Some row -> In v row -> v = 0) /\
  (taus = map (own_points rs) (seq 0 (length (mp_orders mp))) ->
   ((forall seg rows row v, In seg segs -> sr_r seg = Some rows -> In row rows -> In v row -> v = 0) ->
    sat (g_block mp npath nterm n ph 0))).
Proof.
  intros Hin Hph Htl. pose proof (in_mpo _ _ _ _ _ Hin) as Hmp. pose proof (in_ocp _ _ _ _ _ Hin) as Hok. pose proof (in_sc _ _ _ _ _ Hin) as Hsc.
  destruct (residuals_phase_thm rc mp npath nterm z p Hin ph Hph taus Htl) as (rs & segs & Ers & Es & Ls & Hex & Hv).
  destruct (setup mp npath nterm z p Hin) as (rs' & ap & Ers' & _ & _ & Hlrs & Hgood & _).
  assert (rs' = rs) by (nred; congruence). subst rs'.
  destruct (nlp_blocks mp npath nterm z p Hin) as (rs' & n & Ers2 & En & HB & _).
  assert (rs' = rs) by (nred; congruence). subst rs'. clear Ers' Ers2.
  destruct (HB ph Hph) as (HB0 & _).
  exists rs, segs, n. split; [exact Ers|]. split; [exact En|]. split; [exact Es|]. split; [exact Ls|]. split.
  - intros Hs k seg rows pts i x row v Hk Hr Hp Hx Ho Hrow Hvv. apply HB0 in Hs.
    assert (Hk' : (k < length (mp_orders mp))%nat) by (rewrite <- Ls; apply nth_error_Some; congruence).
    destruct (Hex k Hk') as (cx & cu & Hc). rewrite (Hv k pts cx cu Hp Hc) in Hk. injection Hk as Hk. rewrite <- Hk in Hr. clear Hk.
    destruct pts as [|x0 pts]; [discriminate|]. cbn [sr_r] in Hr. 
    assert (Er : rows = state_rows mp (defect mp (width mp p ph) ph (user_traj mp z ph) k cx cu) (x0 :: pts)) by congruence.
    rewrite Er in Hrow.
    unfold state_rows in Hrow. pose proof (eq_trans (eq_sym (nth_error_map _ i (x0 :: pts))) Hrow) as Hrow2; clear Hrow; rename Hrow2 into Hrow; nred; rewrite Hx in Hrow. cbn in Hrow. inversion Hrow; subst row; clear Hrow.
    unfold vec in Hvv. apply in_map_iff in Hvv. destruct Hvv as (s & <- & Hs'). apply in_seq in Hs'.
    rewrite (defect_zero mp z p rs Hlrs Hgood ph Hph Hs k cx cu x s Hk' Hc Ho) by lia. ring.
  - intros Et Hz. apply HB0. apply (defect_zero_inv mp z p rs Hlrs Hgood ph Hph). intros k cx cu x s Hk Hc Hx Hs.
    assert (Hp : nth_error taus k = Some (own_points rs k)).
    { rewrite Et. rewrite nth_error_map. rewrite (nth_error_nth' _ 0%nat) by (rewrite seq_length; lia). rewrite seq_nth by lia. reflexivity. }
    pose proof (Hv k _ cx cu Hp Hc) as Hk'. destruct (own_points rs k) as [|x0 pts] eqn:Eo; [destruct Hx|].
    apply nth_error_In in Hk'. specialize (Hz _ (state_rows mp (defect mp (width mp p ph) ph (user_traj mp z ph) k cx cu) (x0 :: pts))
      (vec (o_nx (mp_ocp mp)) (fun s => nth s (o_scale_x (mp_ocp mp)) 0 * defect mp (width mp p ph) ph (user_traj mp z ph) k cx cu s x))
      (nth s (o_scale_x (mp_ocp mp)) 0 * defect mp (width mp p ph) ph (user_traj mp z ph) k cx cu s x) Hk').
    cbn [sr_r] in Hz.
    assert (E : nth s (o_scale_x (mp_ocp mp)) 0 * defect mp (width mp p ph) ph (user_traj mp z ph) k cx cu s x = 0).
    { apply Hz; [reflexivity| |].
      - unfold state_rows. apply in_map_iff. exists x. split; [reflexivity|exact Hx].
      - unfold vec. apply in_map_iff. exists s. split; [reflexivity|apply in_seq; lia]. }
    pose proof (nth_pos _ s _ (sp_x _ Hsc) (sh_sx _ (ok_shapes _ _ _ Hok)) Hs) as Hpos. nred.
    apply Rmult_integral in E. destruct E as [E|E]; [nred; lra|exact E].
Qed.

(** ** C33 *)
(** the integration error is zero when the state polynomials solve the differential equation on the
    segment and the dynamics along them is a polynomial that the grid resolves *)
Lemma integration_exact mp npath nterm z p rs ph k cx cu q pts : input_ok mp npath nterm z p ->
  mapM (c_roots (mp_cf mp)) (mp_orders mp) = Ok rs ->
  (k < length (mp_orders mp))%nat -> seg_polys mp rs (user_traj mp z ph) k cx cu ->
  let cf := mp_cf mp in let w := width mp p ph in let y := user_traj mp z ph in
  forall s, (s < o_nx (mp_ocp mp))%nat ->
  (forall x, cf_tau0 cf <= x <= cf_tau1 cf -> is_derive (peval (cx s)) x (rate mp w ph y k cx cu s x)) ->
  (forall x, cf_tau0 cf <= x <= cf_tau1 cf -> nth s (dyn_along (mp_ocp mp) ph y cx cu x (seg_time cf w y k x)) 0 = peval (q s) x) ->
  (forall x, In x pts -> cf_tau0 cf <= x <= cf_tau1 cf) ->
  forall x, In x pts -> peval (cx s) x - integrated mp w y k q s x = 0.
Proof.
  intros Hin Ers Hk Hc cf w y s Hs Hd Hq Hpts x Hx.
  destruct (setup mp npath nterm z p Hin) as (rs' & ap & Ers' & _ & _ & Hlrs & Hgood & _).
  assert (rs' = rs) by (nred; congruence). subst rs'.
  destruct (nth_error (mp_orders mp) k) as [d|] eqn:Eq; [|apply nth_error_None in Eq; lia].
  destruct (Hgood k d (nth k rs []) Eq ltac:(apply nth_error_nth'; nred; lia)) as (Lr & _ & E0 & _).
  assert (Hstart : peval (cx s) (cf_tau0 cf) = y_x y (offset (mp_orders mp) k) s).
  { unfold cf. pose proof (proj2 (proj1 Hc s Hs) 0%nat ltac:(nred; lia)) as E. nred. rewrite E0 in E. rewrite E. now rewrite Nat.add_0_r. }
  specialize (Hpts x Hx). unfold integrated. fold cf.
  assert (I : is_RInt (fun t => seg_h cf w y k * peval (q s) t) (cf_tau0 cf) x (minus (peval (cx s) x) (peval (cx s) (cf_tau0 cf)))).
  { apply (is_RInt_derive (peval (cx s))).
    - intros t Ht. rewrite Rmin_left, Rmax_right in Ht by lra. specialize (Hd t ltac:(lra)). unfold rate in Hd. fold cf in Hd.
      rewrite Hq in Hd by lra. exact Hd.
    - intros t _. apply (continuous_mult (fun _ : R => seg_h cf w y k)); [apply continuous_const|apply continuous_peval]. }
  apply (is_RInt_unique (V := R_CompleteNormedModule)) in I.
  assert (E : RInt (fun t => seg_h cf w y k * peval (q s) t) (cf_tau0 cf) x = seg_h cf w y k * RInt (peval (q s)) (cf_tau0 cf) x).
  { apply (RInt_scal (peval (q s))). apply ex_RInt_continuous. intros t _. apply continuous_peval. }
  rewrite E in I. rewrite I. unfold minus, plus, opp; cbn. rewrite Hstart. unfold y. cbn. ring.
Qed.
Theorem states_residual_zero rc mp npath nterm z p ph taus : input_ok mp npath nterm z p -> (ph < o_nph (mp_ocp mp))%nat ->
  length taus = length (mp_orders mp) -> (forall pts, In pts taus -> NoDup pts) ->
  let cf := mp_cf mp in let w := width mp p ph in let y := user_traj mp z ph in
  (forall pts x, In pts taus -> In x pts -> cf_tau0 cf <= x <= cf_tau1 cf) ->
  exists rs segs, mapM (c_roots cf) (mp_orders mp) = Ok rs /\ integrate_phase rc mp p z ph (Some taus) = Ok segs /\
  forall k cx cu q pts seg, seg_polys mp rs y k cx cu -> nth_error taus k = Some pts -> nth_error segs k = Some (Some seg) ->
    (forall s, (s < o_nx (mp_ocp mp))%nat -> (length (q s) <= length pts)%nat /\
       forall x, cf_tau0 cf <= x <= cf_tau1 cf -> is_derive (peval (cx s)) x (rate mp w ph y k cx cu s x) /\
         nth s (dyn_along (mp_ocp mp) ph y cx cu x (seg_time cf w y k x)) 0 = peval (q s) x) ->
    forall row v, In row (ss_r seg) -> In v row -> v = 0.
Proof.
  intros Hin Hph Htl Hnd cf w y Hpts.
  destruct (states_phase_thm rc mp npath nterm z p Hin ph Hph taus Htl Hnd) as (rs & segs & Ers & Es & Ls & Hex & _ & Hv).
  exists rs, segs. split; [exact Ers|]. split; [exact Es|]. intros k cx cu q pts seg Hc Hp Hk Hq row v Hrow Hvv.
  assert (Hk' : (k < length (mp_orders mp))%nat) by (rewrite <- Ls; apply nth_error_Some; congruence).
  assert (Hpi : forall x, In x pts -> cf_tau0 cf <= x <= cf_tau1 cf) by (intros x Hx; eapply Hpts; eauto; eapply nth_error_In; eauto).
  assert (Hdi : dyn_interp mp w ph y k cx cu q pts).
  { intros s Hs. destruct (Hq s Hs) as [Hl H]. split; [exact Hl|]. intros i Hi. symmetry. apply H. apply Hpi, nth_In, Hi. }
  pose proof (Hv k pts cx cu q Hp Hc Hdi) as E. rewrite Hk in E. destruct pts as [|x0 pts]; [discriminate|].
  assert (Er : ss_r seg = state_rows mp (fun s tau => peval (cx s) tau - integrated mp w y k q s tau) (x0 :: pts)).
  { match type of E with _ = Some (Some ?t) => assert (Es' : seg = t) by congruence end. rewrite Es'. reflexivity. }
  rewrite Er in Hrow. unfold state_rows in Hrow. apply in_map_iff in Hrow. destruct Hrow as (x & <- & Hx).
  unfold vec in Hvv. apply in_map_iff in Hvv. destruct Hvv as (s & <- & Hs). apply in_seq in Hs.
  assert (E0 : peval (cx s) x - integrated mp w y k q s x = 0).
  { apply (integration_exact mp npath nterm z p rs ph k cx cu q (x0 :: pts) Hin Ers Hk' Hc s ltac:(lia)); auto.
    - intros t Ht. apply (Hq s ltac:(lia)); exact Ht.
    - intros t Ht. apply (Hq s ltac:(lia)); exact Ht. }
  etransitivity; [apply (f_equal (Rmult (nth s (o_scale_x (mp_ocp mp)) 0)) E0)|]. apply Rmult_0_r.
Qed.

(** ** second derivatives *)
Theorem second_derivative_thm rc mp npath nterm z p ph taus : input_ok mp npath nterm z p -> (ph < o_nph (mp_ocp mp))%nat ->
  length taus = length (mp_orders mp) ->
  let cf := mp_cf mp in let w := width mp p ph in let y := user_traj mp z ph in
  exists rs segs, mapM (c_roots cf) (mp_orders mp) = Ok rs /\ second_derivative_phase rc mp p z ph (Some taus) = Ok segs /\
  length segs = length (mp_orders mp) /\
  forall k pts cx cu, nth_error taus k = Some pts -> seg_polys mp rs y k cx cu ->
    nth_error segs k = Some (match pts with
      | [] => None
      | _ => Some (Segdd (N := Rnum) (map (seg_time cf w y k) pts)
               (state_rows mp (fun s tau => Derive_n (peval (cx s)) 2 tau) pts)
               (control_rows mp (fun s tau => Derive_n (peval (cu s)) 2 tau) pts))
      end).
Proof.
  intros Hin Hph Htl cf w y. pose proof (in_mpo _ _ _ _ _ Hin) as Hmp. pose proof (in_ocp _ _ _ _ _ Hin) as Hok. pose proof (in_sc _ _ _ _ _ Hin) as Hsc.
  destruct (interp_spec rc mp npath nterm z p Hin ph Hph taus Htl) as (rs & it & Ers & Hl & Hg & Eit & Hit).
  destruct (setup mp npath nterm z p Hin) as (rs' & ap & Ers' & _ & Hseg & _). assert (rs' = rs) by (nred; congruence). subst rs'.
  destruct (trajectories_ok mp npath nterm z p ph Hin Hph) as (rs' & tr & _ & Etr & EX & EU & _).
  assert (Hrep : rep mp (unpack mp z ph) y) by (pose proof (in_z _ _ _ _ _ Hin); pose proof (in_p _ _ _ _ _ Hin); eapply unpack_rep; eauto).
  destruct (comp_interpD_ok cf taus (mp_orders mp) rs 2 Hseg Htl) as (D & ED & Dr & Dc & HD); [auto|].
  unfold interpolate_phase_by in Eit. nred. rewrite Etr in Eit. cbn [bind] in Eit.
  destruct (time_grid (tr_t tr) taus (mp_orders mp) (cf_tau0 (mp_cf mp)) (cf_tau1 (mp_cf mp))) as [ti|] eqn:Eti; [|discriminate].
  cbn [bind] in Eit. destruct (comp_interp (mp_cf mp) taus (mp_orders mp)) as [I1|] eqn:EI; [|discriminate].
  cbn [bind] in Eit. destruct (comp_interpD (mp_cf mp) taus (mp_orders mp) 1) as [D1|] eqn:ED1; [|discriminate].
  cbn [bind] in Eit. assert (Eti' : i_t it = ti) by (injection Eit as <-; reflexivity).
  set (out := fun k => let pts := nth k taus [] in let start := offset (map (@length R) taus) k in
    if Nat.eqb (length pts) 0 then None else Some (Segdd (N := Rnum) (slice start (start + length pts) ti)
      (map (fun i => mrow (mmul D (tr_x tr)) (start + i)) (seq 0 (length pts)))
      (map (fun i => mrow (mmul D (tr_u tr)) (start + i)) (seq 0 (length pts))))).
  exists rs, (map out (seq 0 (mp_nseg mp))). split; [exact Ers|]. split.
  { unfold second_derivative_phase_by. nred. rewrite Etr. cbn [bind]. rewrite Eti. cbn [bind]. unfold cf in ED. rewrite ED. cbn [bind].
    apply mapM_ok. intros k Hk. apply in_seq in Hk. rewrite (at_ok _ k []) by (rewrite Htl, (mo_len _ Hmp); lia). cbn [bind].
    rewrite nsum_firstn. reflexivity. }
  split; [rewrite map_length, seq_length; symmetry; apply (mo_len _ Hmp)|].
  intros k pts cx cu Hp Hc. assert (Hk : (k < length (mp_orders mp))%nat) by (rewrite <- Htl; apply nth_error_Some; congruence).
  assert (Ep : nth k taus [] = pts) by (apply nth_error_nth; exact Hp).
  rewrite nth_error_map. rewrite (nth_error_nth' _ 0%nat) by (rewrite seq_length, <- (mo_len _ Hmp); exact Hk).
  rewrite seq_nth by (rewrite <- (mo_len _ Hmp); exact Hk). cbn [option_map Nat.add]. f_equal. unfold out. cbv zeta. nred. rewrite Ep.
  destruct pts as [|x0 pts']; [reflexivity|]. set (pts := x0 :: pts') in *. cbn [length Nat.eqb].
  change (Nat.eqb (length pts) 0) with false. cbv iota. f_equal.
  pose proof (slice_t mp z p ph Hph taus Htl rs it Hit k Hk) as ST. rewrite Ep, Eti' in ST. nred. 
  destruct (nth_error (mp_orders mp) k) as [d|] eqn:Eq; [|apply nth_error_None in Eq; lia].
  assert (Hdd : forall (X : mat Rnum) m sc (f : nat -> nat -> R) (c : nat -> list R),
    (forall i s, (i < total_nodes (mp_orders mp))%nat -> (s < m)%nat -> mget X i s = nth s sc 0 * f i s) -> nc X = m ->
    (forall s, (s < m)%nat -> seg_interp (mp_orders mp) k (nth k rs []) (fun i => f i s) (c s)) ->
    map (fun i => mrow (mmul D X) (offset (map (@length R) taus) k + i)) (seq 0 (length pts))
    = map (fun tau => vec m (fun s => nth s sc 0 * Derive_n (peval (c s)) 2 tau)) pts).
  { intros X m sc f c HX Hm Hcc. apply (list_eq_nth _ _ []); [now rewrite !map_length, seq_length|].
    intros i Hi. rewrite map_length, seq_length in Hi. rewrite nth_map_seq by exact Hi. rewrite (nth_map_in _ _ _ _ 0) by exact Hi.
    unfold mrow. cbn [mmul nc]. rewrite Hm. unfold vec. apply map_ext_in. intros s Hs. apply in_seq in Hs.
    apply (mmul_scaled D X (total_nodes (mp_orders mp)) _ _ s (fun i => f i s)); auto.
    - intros j Hj. apply HX; auto; lia.
    - rewrite (HD k d (nth k rs []) pts i _ (c s)); auto; [|apply nth_error_nth'; lia|apply Hcc; lia].
      symmetry. apply is_derive_n_unique, dform2_derive. }
  f_equal; [exact ST| |].
  - unfold state_rows. rewrite EX. apply (Hdd _ _ _ (fun i s => y_x y i s)); [apply (rp_X _ _ _ Hrep)|apply (rp_ncX _ _ _ Hrep)|apply Hc].
  - unfold control_rows. rewrite EU. apply (Hdd _ _ _ (fun i s => y_u y i s)); [apply (rp_U _ _ _ Hrep)|apply (rp_ncU _ _ _ Hrep)|apply Hc].
Qed.
