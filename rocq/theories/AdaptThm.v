(** The whole program with variable segment widths as a function of the decision vector (proofs). *)
From Coq Require Import Reals.
From Coquelicot Require Import Coquelicot.
From Coq Require Import List Lia Lra Bool Arith.
From Verif Require Import Num PyList Mat Poly Roots Colloc Ocp Transcribe Solve Adaptive Spec SpecOcp SpecHadapt SpecResid SpecAdapt
  NumR ListR PolyR CollocR CompR CollocThm MeshR BlockR DiscR NlpR NlpThm NlpMain GridR ResidR AdaptR AdaptPh.
Import ListNotations.
Open Scope R_scope.

Section Nlp.
Variables (ac : acfg Rnum) (mp : mpo Rnum) (npath nterm : nat -> option nat).
Local Notation o := (mp_ocp mp).
Local Notation cf := (mp_cf mp).
Local Notation orders := (mp_orders mp).
Local Notation NN := (total_nodes orders).
Hypothesis Hsc : scales_pos o.
Hypothesis Hok : ocp_ok o npath nterm.
Let Hsh := ok_shapes _ _ _ Hok.

Lemma ad_unpack_rep z ph : (ph * nvars mp + nvars mp <= length z)%nat -> rep mp (unpack mp z ph) (user_traj mp z ph).
Proof.
  intros Hb. unfold unpack. rewrite zlen_nvars, npoints_total.
  assert (Env : nvars mp = (NN * o_nx o + NN * o_nu o + 2 + o_na o)%nat) by reflexivity.
  split; cbn [v_X v_U v_t0 v_tf v_A nr nc mget user_traj y_x y_u y_t0 y_tf y_a]; try reflexivity.
  - rewrite firstn_length, !skipn_length. nred. lia.
  - intros i s Hi Hs. nred. rewrite nth_skipn. pose proof (nth_pos _ s _ (sp_x _ Hsc) (sh_sx _ Hsh) Hs) as Hpos. nred.
    rewrite Nat.add_assoc. field. lra.
  - intros i s Hi Hs. nred. rewrite nth_skipn. pose proof (nth_pos _ s _ (sp_u _ Hsc) (sh_su _ Hsh) Hs) as Hpos. nred.
    rewrite !Nat.add_assoc. field. lra.
  - nred. rewrite nth_skipn. pose proof (sp_t _ Hsc). nred. rewrite !Nat.add_assoc. field. lra.
  - nred. rewrite nth_skipn. pose proof (sp_t _ Hsc). nred. rewrite !Nat.add_assoc. field. lra.
  - intros i Hi. nred. rewrite nth_firstn_lt, !nth_skipn by auto.
    pose proof (nth_pos _ i _ (sp_a _ Hsc) (sh_sa _ Hsh) Hi) as Hpos. nred. rewrite !Nat.add_assoc. field. lra.
Qed.
Lemma ad_phase_vars z ph : (ph * nvars mp + nvars mp <= length z)%nat ->
  let v := unpack mp z ph in
  mvec (v_X v) ++ mvec (v_U v) ++ [v_t0 v; v_tf v] ++ v_A v = firstn (nvars mp) (skipn (ph * nvars mp) z).
Proof.
  intros Hb v.
  assert (Env : nvars mp = (NN * o_nx o + NN * o_nu o + 2 + o_na o)%nat) by reflexivity.
  set (zp := skipn (ph * nvars mp) z).
  assert (Hlzp : (nvars mp <= length zp)%nat) by (unfold zp; rewrite skipn_length; lia).
  assert (EX : mvec (v_X v) = firstn (NN * o_nx o) zp).
  { apply (list_eq_nth _ _ 0).
    - rewrite length_mvec, firstn_length. unfold v, unpack. cbn [v_X nr nc]. rewrite npoints_total. nred. lia.
    - rewrite length_mvec. unfold v, unpack. cbn [v_X nr nc]. rewrite npoints_total, zlen_nvars. intros i Hi.
      destruct (divide_index NN (o_nx o) i Hi) as (s & j & -> & Hs & Hj).
      nred; rewrite (nth_mvec_n _ NN j s) by (cbn [nr nc]; auto). cbn [mget]. nred. rewrite nth_firstn_lt by nia. reflexivity. }
  assert (EU : mvec (v_U v) = firstn (NN * o_nu o) (skipn (NN * o_nx o) zp)).
  { apply (list_eq_nth _ _ 0).
    - rewrite length_mvec, firstn_length, skipn_length. unfold v, unpack. cbn [v_U nr nc]. rewrite npoints_total. nred. lia.
    - rewrite length_mvec. unfold v, unpack. cbn [v_U nr nc]. rewrite npoints_total, zlen_nvars. intros i Hi.
      destruct (divide_index NN (o_nu o) i Hi) as (s & j & -> & Hs & Hj).
      nred; rewrite (nth_mvec_n _ NN j s) by (cbn [nr nc]; auto). cbn [mget]. nred. rewrite nth_firstn_lt by nia. unfold zp. rewrite !nth_skipn.
      f_equal. lia. }
  rewrite EX, EU.
  assert (Et : [v_t0 v; v_tf v] = firstn 2 (skipn (NN * o_nu o) (skipn (NN * o_nx o) zp))).
  { apply (list_eq_nth _ _ 0).
    - rewrite firstn_length, !skipn_length. cbn [length]. nred. lia.
    - intros i Hi. cbn [length] in Hi. rewrite nth_firstn_lt, !nth_skipn by lia.
      unfold v, unpack. cbn [v_t0 v_tf]. rewrite npoints_total, zlen_nvars. fold zp.
      destruct i as [|[|i]]; [| |lia]; cbn [nth]; nred; unfold zp; f_equal; lia. }
  rewrite Et.
  assert (EA : v_A v = firstn (o_na o) (skipn 2 (skipn (NN * o_nu o) (skipn (NN * o_nx o) zp)))).
  { unfold v, unpack. cbn [v_A]. rewrite npoints_total, zlen_nvars, <- !skipn_plus. fold zp. unfold zp. rewrite <- !skipn_plus. f_equal. f_equal. nred. lia. }
  rewrite EA, Env, <- !Nat.add_assoc, !firstn_plus. reflexivity.
Qed.

Variable z : list R.
Hypothesis Hin : ad_input_ok ac mp npath nterm z.
Let Hmp : mpo_ok mp := ai_mpo _ _ _ _ _ Hin.
Let Hlbh := ai_lbh _ _ _ _ _ Hin.
Let Hubh := ai_ubh _ _ _ _ _ Hin.
Let Htol := ai_tol _ _ _ _ _ Hin.
Let Hz := ai_z _ _ _ _ _ Hin.

Lemma a_chunk ph : (ph < o_nph o)%nat -> (ad_nvars mp <= length (skipn (ph * ad_nvars mp) z))%nat.
Proof. intros Hph. rewrite skipn_length. pose proof Hz as Hz'. nred. rewrite Hz'. nia. Qed.
Lemma a_unpack_eq ph : a_unpack mp z ph =
  (unpack mp (skipn (ph * ad_nvars mp) z) 0, firstn (mp_nseg mp) (skipn (nvars mp) (skipn (ph * ad_nvars mp) z))).
Proof. unfold a_unpack, ad_nvars. rewrite zlen_nvars. reflexivity. Qed.
Lemma a_unpack_rep ph : (ph < o_nph o)%nat -> rep mp (fst (a_unpack mp z ph)) (ad_traj mp z ph).
Proof.
  intros Hph. rewrite a_unpack_eq. cbn [fst]. apply ad_unpack_rep. pose proof (a_chunk ph Hph : (nvars mp + mp_nseg mp <= length (skipn (ph * ad_nvars mp) z))%nat) as H. cbn [Nat.mul]. rewrite Nat.add_0_l. nred. lia.
Qed.
Lemma sw_len ph : (ph < o_nph o)%nat -> length (snd (a_unpack mp z ph)) = length orders.
Proof.
  intros Hph. rewrite a_unpack_eq. cbn [snd]. rewrite firstn_length, skipn_length. pose proof (a_chunk ph Hph : (nvars mp + mp_nseg mp <= length (skipn (ph * ad_nvars mp) z))%nat) as H.
  pose proof (mo_len _ Hmp). nred. lia.
Qed.
Lemma sw_at ph : (ph < o_nph o)%nat -> forall k, (k < length orders)%nat -> at_ (snd (a_unpack mp z ph)) k = Ok (ad_width mp z ph k).
Proof.
  intros Hph k Hk. pose proof (sw_len ph Hph) as Hl. rewrite (at_ok _ k 0) by (nred; lia). f_equal.
  rewrite a_unpack_eq. cbn [snd]. pose proof (mo_len _ Hmp). rewrite nth_firstn_lt, !nth_skipn by (nred; lia). unfold ad_width. f_equal. lia.
Qed.
Lemma a_phase_vars ph : (ph < o_nph o)%nat ->
  let v := fst (a_unpack mp z ph) in
  mvec (v_X v) ++ mvec (v_U v) ++ [v_t0 v; v_tf v] ++ v_A v ++ snd (a_unpack mp z ph) = firstn (ad_nvars mp) (skipn (ph * ad_nvars mp) z).
Proof.
  intros Hph v. pose proof (a_chunk ph Hph : (nvars mp + mp_nseg mp <= length (skipn (ph * ad_nvars mp) z))%nat) as H.
  unfold ad_nvars at 1. rewrite firstn_plus.
  pose proof (ad_phase_vars (skipn (ph * ad_nvars mp) z) 0 ltac:(cbn [Nat.mul]; rewrite Nat.add_0_l; nred; lia)) as E. cbv zeta in E. cbn [Nat.mul skipn] in E. nred. rewrite <- E.
  unfold v. rewrite a_unpack_eq. cbn [fst snd]. rewrite <- !app_assoc. reflexivity.
Qed.

Lemma a_nlp_at_ok :
  exists rs n, mapM (c_roots cf) orders = Ok rs /\ a_nlp_at ac mp z = Ok n /\
    length rs = length orders /\
    (forall k q r, nth_error orders k = Some q -> nth_error rs k = Some r -> good_nodes (cf_tau0 cf) (cf_tau1 cf) q r) /\
    c_g (n_x n) = z /\ balanced (n_x n) /\ balanced (n_g n) /\
    length (c_g (n_g n)) = (fold_right Nat.add 0%nat (map (fun ph => ad_rows ac mp ph npath nterm) (seq 0 (o_nph o))) + link_rows o)%nat /\
    (sat (n_x n) <-> forall ph, (ph < o_nph o)%nat -> bounds_ok mp ph (ad_traj mp z ph) /\ width_bounds_ok ac mp (ad_width mp z ph) ph) /\
    (sat (n_g n) <-> (forall ph, (ph < o_nph o)%nat -> ad_phase_ok ac mp rs (ad_width mp z ph) ph (ad_traj mp z ph)) /\
                     links_ok mp (ad_traj mp z)) /\
    (forall C B, (forall ph, (ph < o_nph o)%nat -> cost_interp mp rs (ad_width mp z ph) ph (ad_traj mp z ph) (C ph)) ->
       start_basis mp rs B ->
       n_f n = Rsum (o_nph o) (fun ph => phase_cost mp (ad_width mp z ph) ph (ad_traj mp z ph) (C ph) -
                                         start_cost mp rs (ad_width mp z ph) ph (ad_traj mp z ph) B)).
Proof.
  destruct (seg_nodes_ok cf orders (mo_cfg _ Hmp) (mo_pos _ Hmp)) as (rs & Hseg & Hrs & Hgood).
  assert (Hne : orders <> []).
  { intros E. pose proof (mo_len _ Hmp) as Hl. pose proof (mo_nseg _ Hmp). rewrite E in Hl. cbn in Hl. lia. }
  destruct (comp_diff_ok cf orders rs 1 Hseg (or_introl eq_refl)) as (D & ED & HrD & HcD & HD).
  destruct (comp_quad_segs cf orders rs (cf_tau0 cf) (cf_tau1 cf) Hseg Hne) as (W & EW & HlW & HW).
  { exact (lo_integ _ (co_lib _ (mo_cfg _ Hmp))). }
  pose proof (proj1 Hseg) as Ers.
  assert (HD' : forall i k j ys c, owned orders i k j -> seg_interp orders k (nth k rs []) ys c ->
    is_derive (peval c) (nth j (nth k rs []) 0) (row_dot D i ys)).
  { intros i k j ys c (q & Hq & Hj & Hk & ->) Hc. unfold row_dot. rewrite HcD.
    assert (Hkl : (k < length rs)%nat) by (rewrite Hrs; apply nth_error_Some; congruence).
    rewrite (HD k q (nth k rs []) j ys c Hq (nth_error_nth' _ _ Hkl) Hj Hk Hc). apply dform1_derive. }
  (* phases *)
  set (vs := map (a_unpack mp z) (seq 0 (o_nph o))).
  assert (Hvs : forall i d, (i < o_nph o)%nat -> nth i vs d = a_unpack mp z i).
  { intros i d Hi. unfold vs. apply nth_map_seq; auto. }
  assert (Hlvs : length vs = o_nph o) by (unfold vs; rewrite map_length, seq_length; auto).
  set (ap := Approx (N := Rnum) D W rs).
  set (P := fun ph (r : con Rnum * con Rnum * R) => let '(Z, G, J) := r in
    balanced Z /\ c_g Z = firstn (ad_nvars mp) (skipn (ph * ad_nvars mp) z) /\ (sat Z <-> bounds_ok mp ph (ad_traj mp z ph) /\ width_bounds_ok ac mp (ad_width mp z ph) ph) /\
    balanced G /\ length (c_g G) = ad_rows ac mp ph npath nterm /\
    (sat G <-> ad_phase_ok ac mp rs (ad_width mp z ph) ph (ad_traj mp z ph)) /\
    forall C B, cost_interp mp rs (ad_width mp z ph) ph (ad_traj mp z ph) C -> start_basis mp rs B ->
      J = phase_cost mp (ad_width mp z ph) ph (ad_traj mp z ph) C - start_cost mp rs (ad_width mp z ph) ph (ad_traj mp z ph) B).
  destruct (mapM_exists (fun ph =>
      v <- at_ vs ph ;;
      zz <- a_variables ac mp ph (fst v) (snd v) ;;
      '(g, j) <- a_discretize ac mp ap ph (fst v) (snd v) ;;
      Ok (zz, g, j)) P (seq 0 (o_nph o))) as (parts & Eparts & Hparts).
  { intros ph Hinx. apply in_seq in Hinx. assert (Hph : (ph < o_nph o)%nat) by lia. clear Hinx.
    pose proof (a_unpack_rep ph Hph) as Hrep.
    rewrite (at_ok vs ph (a_unpack mp z ph)) by (nred; lia). cbn [bind]. rewrite Hvs by auto.
    destruct (a_variables_ok ac mp Hmp npath nterm Hok Hsc Hlbh Hubh Htol rs Hrs (snd (a_unpack mp z ph)) (ad_width mp z ph) (sw_len ph Hph) (sw_at ph Hph)
      ph Hph (fst (a_unpack mp z ph)) (ad_traj mp z ph) Hrep D W HrD HcD HlW HW) as (Z & EZ & BZ & VZ & SZ).
    destruct (a_discretize_ok ac mp Hmp npath nterm Hok Hsc Hlbh Hubh Htol rs Hseg Hrs Hgood (snd (a_unpack mp z ph)) (ad_width mp z ph) (sw_len ph Hph) (sw_at ph Hph)
      ph Hph (fst (a_unpack mp z ph)) (ad_traj mp z ph) Hrep D W HrD HcD HD' HlW HW ap eq_refl eq_refl eq_refl)
      as (G & J & EG & BG & LG & SG & CG).
    nred. rewrite EZ. cbn [bind]. rewrite EG. cbn [bind]. exists (Z, G, J). split; [reflexivity|]. unfold P.
    split; [exact BZ|]. split; [rewrite VZ; exact (a_phase_vars ph Hph)|]. auto 10. }
  destruct (Forall2_seq P _ _ (con_nil, con_nil, 0) Hparts) as [Hlp HP].
  (* links *)
  assert (HE : exists E, (if Nat.ltb 1 (o_nph o) then con_events mp (map fst vs) else Ok con_nil) = Ok E /\ balanced E /\
    length (c_g E) = link_rows o /\ (sat E <-> links_ok mp (ad_traj mp z))).
  { unfold link_rows, links_ok. destruct (Nat.ltb_spec 1 (o_nph o)) as [Hn|Hn].
    - destruct (con_events_ok mp npath nterm Hok Hsc (repeat 0 (o_nph o * nvars mp)) (repeat 0 (o_nph o * mp_nseg mp)) (repeat_length _ _) (repeat_length _ _) (map fst vs) (ad_traj mp z) ltac:(rewrite map_length; exact Hlvs)) as (E & EE & BE & LE & SE).
      { intros i d Hi. rewrite (nth_map_in fst vs i d (d, [])) by (nred; lia). rewrite Hvs by auto. apply a_unpack_rep; auto. }
      { exact Hn. }
      exists E. split; [exact EE|]. split; [exact BE|]. split; [exact LE|]. rewrite SE. split; auto.
    - exists con_nil. split; [reflexivity|]. split; [apply balanced_nil|]. split; [reflexivity|].
      split; [intros _ H; lia|intros _; apply sat_nil]. }
  destruct HE as (E & EE & BE & LE & SE).
  exists rs. eexists. split; [exact Ers|]. split.
  { unfold a_nlp_at, a_create_nlp. fold vs. unfold compute_numerical_approximation.
    rewrite Ers. cbn [bind]. rewrite ED. cbn [bind]. rewrite EW. cbn [bind]. fold ap. 
    rewrite Eparts. cbn [bind]. rewrite EE. cbn [bind]. reflexivity. }
  cbn [n_x n_g n_f]. split; [exact Hrs|]. split; [exact Hgood|].

  assert (Hinx : forall t, In t parts -> exists ph, (ph < o_nph o)%nat /\ P ph t).
  { intros t Ht. destruct (In_nth _ _ (con_nil, con_nil, 0) Ht) as (i & Hi & Et). exists i. assert (Hi' : (i < o_nph o)%nat) by (nred; lia). split; [exact Hi'|]. rewrite <- Et. exact (HP i Hi'). }
  assert (Hat : forall ph, (ph < o_nph o)%nat -> exists t, In t parts /\ P ph t).
  { intros ph Hph. eexists. split; [|exact (HP ph Hph)]. apply nth_In. nred. lia. }
  assert (BZ : forall c, In c (map (fun '(zz, _, _) => zz) parts) -> balanced c).
  { intros c Hc. apply in_map_iff in Hc. destruct Hc as (t & <- & Ht). destruct (Hinx t Ht) as (ph & Hph & Et).
    clear HP. rename Et into HP. destruct t as [[Z G] J]. apply HP. }
  assert (BG : forall c, In c (map (fun '(_, g, _) => g) parts) -> balanced c).
  { intros c Hc. apply in_map_iff in Hc. destruct Hc as (t & <- & Ht). destruct (Hinx t Ht) as (ph & Hph & Et).
    clear HP. rename Et into HP. destruct t as [[Z G] J]. apply HP. }
  split.
  { transitivity (List.concat (map (fun k => firstn (ad_nvars mp) (skipn (k * ad_nvars mp) z)) (seq 0 (o_nph o)))).
    2:{ apply concat_chunks. exact Hz. }
    assert (Ec : forall l : list (con Rnum), c_g (con_concat l) = List.concat (map (@c_g Rnum) l)).
    { induction l as [|c l IH]; [reflexivity|]. cbn [con_concat fold_right map List.concat]. rewrite <- IH. reflexivity. }
    rewrite Ec. f_equal. rewrite map_map. apply (list_eq_nth _ _ []).
    - rewrite !map_length, seq_length. exact Hlp.
    - rewrite map_length. intros i Hi. pose proof Hlp as Hlp'. nred. rewrite Hlp' in Hi. rewrite (nth_map_in _ _ _ _ (con_nil, con_nil, 0)) by (nred; lia).
      rewrite nth_map_seq by auto. specialize (HP i Hi). destruct (nth i parts _) as [[Z G] J]. apply HP. }
  split; [apply balanced_concat; exact BZ|].
  split; [apply balanced_app; [apply balanced_concat; exact BG|exact BE]|].
  split.
  { cbn [con_app c_g]. rewrite app_length. nred. rewrite LE. f_equal. rewrite length_con_concat. f_equal. rewrite map_map.
    apply (list_eq_nth _ _ 0%nat).
    - rewrite !map_length, seq_length. exact Hlp.
    - rewrite map_length. intros i Hi. pose proof Hlp as Hlp'. nred. rewrite Hlp' in Hi. rewrite (nth_map_in _ _ _ _ (con_nil, con_nil, 0)) by (nred; lia).
      rewrite nth_map_seq by auto. specialize (HP i Hi). destruct (nth i parts _) as [[Z G] J]. apply HP. }
  split.
  { rewrite sat_concat by exact BZ. split.
    - intros H ph Hph. destruct (Hat ph Hph) as ([[Z G] J] & Ht & HPt). pose proof (in_map (fun '(zz, _, _) => zz) _ _ Ht) as Hc.
      apply H in Hc. destruct HPt as (_ & _ & HS & _). apply HS. exact Hc.
    - intros H c Hc. apply in_map_iff in Hc. destruct Hc as (t & <- & Ht). destruct (Hinx t Ht) as (ph & Hph & Et).
      clear HP. rename Et into HP. destruct t as [[Z G] J]. destruct HP as (_ & _ & HS & _). apply HS. auto. }
  split.
  { rewrite sat_app by (apply balanced_concat; exact BG). rewrite SE. rewrite sat_concat by exact BG.
    split; (intros [H HL]; split; [|exact HL]).
    - intros ph Hph. destruct (Hat ph Hph) as ([[Z G] J] & Ht & HPt). pose proof (in_map (fun '(_, g, _) => g) _ _ Ht) as Hc.
      apply H in Hc. destruct HPt as (_ & _ & _ & _ & _ & HS & _). apply HS. exact Hc.
    - intros c Hc. apply in_map_iff in Hc. destruct Hc as (t & <- & Ht). destruct (Hinx t Ht) as (ph & Hph & Et).
      clear HP. rename Et into HP. destruct t as [[Z G] J]. destruct HP as (_ & _ & _ & _ & _ & HS & _). apply HS. auto. }
  intros C B HC HB. rewrite sum_R, rsum_nth, map_length. pose proof Hlp as Hlp'. nred. rewrite Hlp'. apply Rsum_ext. intros ph Hph.
  rewrite (nth_map_in _ _ _ _ (con_nil, con_nil, 0)) by (nred; lia).
  specialize (HP ph Hph). destruct (nth ph parts _) as [[Z G] J]. apply HP; auto.
Qed.
End Nlp.
