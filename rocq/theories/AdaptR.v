(** The program with variable segment widths, one phase (proofs). *)
From Coq Require Import Reals.
From Coquelicot Require Import Coquelicot.
From Coq Require Import List Lia Lra Bool Arith.
From Verif Require Import Num PyList Mat Poly Roots Colloc Ocp Transcribe Solve Adaptive Spec SpecOcp SpecHadapt SpecResid SpecAdapt
  NumR ListR PolyR CollocR CompR CollocThm MeshR BlockR DiscR NlpR NlpThm NlpMain GridR ResidR.
Import ListNotations.
Open Scope R_scope.

Lemma in_concat_nth {A} (ls : list (list A)) x : In x (concat ls) <->
  exists k, (k < length ls)%nat /\ In x (nth k ls []).
Proof.
  rewrite in_concat. split.
  - intros (l & Hl & Hx). destruct (In_nth _ _ [] Hl) as (k & Hk & E). exists k. subst l. auto.
  - intros (k & Hk & Hx). exists (nth k ls []). split; [apply nth_In; exact Hk|exact Hx].
Qed.
Lemma mids_length (r : list R) : length (mid_points (N := Rnum) r) = (length r - 1)%nat.
Proof. induction r as [|a r IH]; [reflexivity|]. destruct r as [|b r]; [reflexivity|]. cbn [mid_points length] in *. nred. lia. Qed.
Lemma mids_nth (r : list R) j : (S j < length r)%nat ->
  nth j (mid_points (N := Rnum) r) 0 = (nth j r 0 + nth (S j) r 0) / 2.
Proof.
  revert j; induction r as [|a r IH]; intros j Hj; [cbn in Hj; lia|]. destruct r as [|b r]; [cbn in Hj; lia|].
  cbn [mid_points]. destruct j as [|j].
  - cbn [nth]. nred. lra.
  - change (nth (S j) (?h :: ?t) 0) with (nth j t 0). cbn [nth] in *. rewrite <- IH by (cbn in *; lia). reflexivity.
Qed.
Lemma rows_mat c (rows : list (list R)) : (forall i, (i < length rows)%nat -> length (nth i rows []) = c) ->
  mat_of_rows (N := Rnum) c rows = Ok (Mat (N := Rnum) (length rows) c (fun i j => nth j (nth i rows []) 0)).
Proof.
  intros H. unfold mat_of_rows. replace (forallb _ _) with true; [reflexivity|]. symmetry. apply forallb_forall.
  intros x Hx. destruct (In_nth rows x [] Hx) as (i & Hi & <-). apply Nat.eqb_eq. apply H; auto.
Qed.

Lemma sat_rows_block (g : list R) (lb ub : list (ext R)) (sc : list R) n m : length g = (n * m)%nat ->
  length lb = n -> length ub = n -> length sc = n ->
  balanced (Con (N := Rnum) g (bound_block (N := Rnum) lb sc m) (bound_block (N := Rnum) ub sc m)) /\
  (sat (Con (N := Rnum) g (bound_block (N := Rnum) lb sc m) (bound_block (N := Rnum) ub sc m)) <->
   forall s i, (s < n)%nat -> (i < m)%nat ->
     within (escale (N := Rnum) (nth s lb NaN) (nth s sc 0)) (escale (N := Rnum) (nth s ub NaN) (nth s sc 0)) (nth (s * m + i) g 0)).
Proof.
  intros Hg Hl Hu Hs.
  assert (Hlen : forall b : list (ext R), length b = n -> length (bound_block (N := Rnum) b sc m) = (n * m)%nat).
  { intros b Hb. unfold bound_block. rewrite length_repeat_each, length_map2. nred. rewrite Hb, Hs, Nat.min_id. reflexivity. }
  assert (Hnth : forall b : list (ext R), length b = n -> forall s i, (s < n)%nat -> (i < m)%nat ->
    nth (s * m + i) (bound_block (N := Rnum) b sc m) NaN = escale (N := Rnum) (nth s b NaN) (nth s sc 0)).
  { intros b Hb s i H1 H2. unfold bound_block. rewrite nth_repeat_each; [|rewrite length_map2; nred; lia|auto].
    rewrite (nth_map2 _ b sc s NaN NaN 0) by (nred; lia). reflexivity. }
  split.
  - split; cbn [c_g c_lo c_hi]; nred; rewrite Hlen; auto.
  - unfold sat. cbn [c_g c_lo c_hi]. nred. rewrite Hg. split.
    + intros H s i H1 H2. rewrite <- (Hnth lb Hl s i), <- (Hnth ub Hu s i) by auto. apply H. nia.
    + intros H i Hi. destruct (divide_index m n i Hi) as (k & j & -> & Hk & Hj).
      nred. rewrite (Hnth lb Hl k j), (Hnth ub Hu k j) by auto. auto.
Qed.

Section Mid.
Variables (ac : acfg Rnum) (mp : mpo Rnum).
Hypothesis Hmp : mpo_ok mp.
Local Notation o := (mp_ocp mp).
Local Notation cf := (mp_cf mp).
Local Notation orders := (mp_orders mp).
Local Notation NN := (total_nodes orders).
Variables npath nterm : nat -> option nat.
Hypothesis Hok : ocp_ok o npath nterm.
Hypothesis Hsc : scales_pos o.
Variable rs : list (list R).
Hypothesis Hseg : seg_nodes cf orders rs.
Hypothesis Hrs : length rs = length orders.
Hypothesis Hgood : forall k p r, nth_error orders k = Some p -> nth_error rs k = Some r ->
  good_nodes (cf_tau0 cf) (cf_tau1 cf) p r.
Local Notation taus := (map (mid_points (N := Rnum)) rs).

Lemma ad_len k p : nth_error orders k = Some p -> length (nth k rs []) = S p.
Proof. intros Hk. pose proof (good_at mp rs Hrs Hgood k p Hk) as (H & _). exact H. Qed.
Lemma ad_mids : map (@length R) taus = orders.
Proof.
  apply (list_eq_nth _ _ 0%nat).
  - rewrite !map_length. exact Hrs.
  - rewrite !map_length. intros k Hk. rewrite map_map. nred.
    rewrite (nth_map_in _ _ k 0%nat []) by auto. rewrite mids_length.
    destruct (nth_error orders k) as [p|] eqn:Ep; [|apply nth_error_None in Ep; lia].
    rewrite (nth_error_nth _ _ 0%nat Ep), (ad_len k p Ep). lia.
Qed.
Lemma ad_seg_of i : (i < NN - 1)%nat ->
  exists k p j, nth_error orders k = Some p /\ (j < p)%nat /\ i = (offset orders k + j)%nat.
Proof.
  intros Hi. destruct (owned_exists orders (S i)) as (k & j & p & Hk & Hj & Hkj & E).
  - intros E. pose proof (mo_len _ Hmp). pose proof (mo_nseg _ Hmp). rewrite E in H. cbn in H. lia.
  - unfold total_nodes in *. lia.
  - destruct j as [|j].
    + destruct Hkj as [->|]; [rewrite offset_0 in E|]; lia.
    + exists k, p, j. split; [exact Hk|]. lia.
Qed.
Lemma ad_interp ys k : (k < length orders)%nat -> exists c, seg_interp orders k (nth k rs []) ys c.
Proof.
  intros Hk. destruct (nth_error orders k) as [p|] eqn:Ep; [|apply nth_error_None in Ep; lia].
  pose proof (good_at mp rs Hrs Hgood k p Ep) as Hg. apply interp_exists. eapply good_nodup; eauto.
Qed.
Lemma ad_tk k : (k < length orders)%nat -> nth k taus [] = mid_points (N := Rnum) (nth k rs []).
Proof. intros Hk. apply (nth_map_in (mid_points (N := Rnum)) rs k [] []). nred. lia. Qed.
Lemma ad_tau k p j : nth_error orders k = Some p -> (j < p)%nat -> nth j (nth k taus []) 0 = middle rs k j.
Proof.
  intros Hk Hj. rewrite ad_tk by (eapply nth_error_lt; eauto).
  rewrite mids_nth; [reflexivity|]. rewrite (ad_len k p Hk). lia.
Qed.
Lemma ad_tlen k p : nth_error orders k = Some p -> length (nth k taus []) = p.
Proof.
  intros Hk. rewrite ad_tk by (eapply nth_error_lt; eauto).
  rewrite mids_length, (ad_len k p Hk). lia.
Qed.
Lemma mid_lt k p j : nth_error orders k = Some p -> (j < p)%nat -> (offset orders k + j < NN - 1)%nat.
Proof.
  intros Hk Hj. pose proof (offset_S _ _ _ Hk). pose proof (offset_mono orders (S k) (length orders)).
  pose proof (nth_error_lt _ _ _ Hk). unfold total_nodes. lia.
Qed.

Variables (sw : list R) (w : nat -> R).
Hypothesis Hlsw : length sw = length orders.
Hypothesis Hw : forall k, (k < length orders)%nat -> at_ sw k = Ok (w k).
Variable ph : nat.
Hypothesis Hph : (ph < o_nph o)%nat.
Variables (v : pvars Rnum) (y : utraj).
Hypothesis Hrep : rep mp v y.
Let Hsh := ok_shapes _ _ _ Hok.
Lemma ad_polys k : (k < length orders)%nat -> exists cx cu, seg_polys mp rs y k cx cu.
Proof.
  intros Hk.
  destruct (finite_choice (o_nx o) (fun s c => seg_interp orders k (nth k rs []) (fun i => y_x y i s) c)) as (cx & Hx).
  { intros s _. apply ad_interp. exact Hk. }
  destruct (finite_choice (o_nu o) (fun s c => seg_interp orders k (nth k rs []) (fun i => y_u y i s) c)) as (cu & Hu).
  { intros s _. apply ad_interp. exact Hk. }
  exists cx, cu. split; assumption.
Qed.
Lemma ad_along cx cu tau t : length (dyn_along o ph y cx cu tau t) = o_nx o /\
  exists f, nth_error (o_dyn o) ph = Some f /\
    f (vec (o_nx o) (fun s => peval (cx s) tau)) (vec (o_nu o) (fun q => peval (cu q) tau)) t (a_of o y) = Ok (dyn_along o ph y cx cu tau t).
Proof.
  unfold dyn_along. destruct (nth_error (o_dyn o) ph) as [f|] eqn:En.
  2:{ apply nth_error_None in En. rewrite (sh_dyn _ Hsh) in En. lia. }
  assert (Ha : arg_ok o (a_of o y)).
  { unfold arg_ok, a_of. destruct (Nat.eqb (o_na o) 0); [reflexivity|]. eexists; split; [reflexivity|apply length_vec]. }
  destruct (ok_dyn _ _ _ Hok ph f (vec (o_nx o) (fun s => peval (cx s) tau)) (vec (o_nu o) (fun q => peval (cu q) tau)) t (a_of o y) En
    (length_vec _ _) (length_vec _ _) Ha) as (d & Ed & Hl).
  rewrite Ed. split; [exact Hl|]. exists f. split; [reflexivity|exact Ed].
Qed.
Variables (I D : mat Rnum).
Hypothesis Irows : nr I = (NN - 1)%nat.
Hypothesis Drows : nr D = (NN - 1)%nat.
Hypothesis Icols : nc I = NN.
Hypothesis Dcols : nc D = NN.
Hypothesis HI : forall k p j ys c, nth_error orders k = Some p -> (j < p)%nat -> seg_interp orders k (nth k rs []) ys c ->
  Rsum NN (fun i => mget I (offset orders k + j) i * ys i) = peval c (middle rs k j).
Hypothesis HD : forall k p j ys c, nth_error orders k = Some p -> (j < p)%nat -> seg_interp orders k (nth k rs []) ys c ->
  Rsum NN (fun i => mget D (offset orders k + j) i * ys i) = Derive (peval c) (middle rs k j).

(** ** bounds at the mid points, for states and controls alike *)
Lemma mid_bounds_ok (M : mat Rnum) nq (sc : list R) (ys : nat -> nat -> R) (lbs ubs : list (list (ext R))) lb ub :
  nr M = NN -> nc M = nq -> length sc = nq -> (forall s, In s sc -> 0 < s) ->
  (forall i q, (i < NN)%nat -> (q < nq)%nat -> mget M i q = nth q sc 0 * ys i q) ->
  at_ lbs ph = Ok lb -> at_ ubs ph = Ok ub -> length lb = nq -> length ub = nq ->
  (forall q, (q < nq)%nat -> ext_le (nth q lb NaN) (nth q ub NaN)) ->
  let c := if existsb (fun b => eltb (N := Rnum) NInf b) lb || existsb (fun b => eltb (N := Rnum) b PInf) ub then
             Con (N := Rnum) (mvec (mmul I M)) (bound_block (N := Rnum) lb sc (nr (mmul I M))) (bound_block (N := Rnum) ub sc (nr (mmul I M)))
           else con_nil in
  balanced c /\ length (c_g c) = (if bounded_row ph lbs ubs then nq * (NN - 1) else 0)%nat /\
  (sat c <-> forall k p j q cc, nth_error orders k = Some p -> (j < p)%nat -> (q < nq)%nat ->
     seg_interp orders k (nth k rs []) (fun i => ys i q) cc -> within (nth q lb NaN) (nth q ub NaN) (peval cc (middle rs k j))).
Proof.
  intros HrM HcM Hlsc Hpos HM El Eu Hll Hlu Hord c.
  pose proof (at_inv_nth _ _ _ [] El) as Nl. pose proof (at_inv_nth _ _ _ [] Eu) as Nu.
  assert (Esf : bounded_row ph lbs ubs = (existsb (fun b => eltb (N := Rnum) NInf b) lb || existsb (fun b => eltb (N := Rnum) b PInf) ub)%bool).
  { unfold bounded_row. nred. rewrite Nl, Nu.
    assert (X1 : forall l : list (ext R), existsb (fun b => match b with NInf | NaN => false | _ => true end) l = existsb (fun b => eltb (N := Rnum) NInf b) l)
      by (induction l as [|b l IH]; [reflexivity|]; cbn [existsb]; rewrite IH; destruct b; reflexivity).
    assert (X2 : forall l : list (ext R), existsb (fun b => match b with PInf | NaN => false | _ => true end) l = existsb (fun b => eltb (N := Rnum) b PInf) l)
      by (induction l as [|b l IH]; [reflexivity|]; cbn [existsb]; rewrite IH; destruct b; reflexivity).
    rewrite X1, X2. reflexivity. }
  rewrite Esf. unfold c. clear c. nred.
  destruct (existsb _ lb || existsb _ ub)%bool eqn:Ex.
  - set (ui := mmul I M).
    assert (Hrui : nr ui = (NN - 1)%nat) by exact Irows.
    assert (Hcui : nc ui = nq) by exact HcM.
    assert (Hlg : length (mvec ui) = (nq * (NN - 1))%nat) by (rewrite length_mvec, Hrui, Hcui; reflexivity).
    destruct (sat_rows_block (mvec ui) lb ub sc nq (NN - 1) Hlg Hll Hlu Hlsc) as [Hb Hs].
    rewrite Hrui. split; [exact Hb|]. split; [exact Hlg|].
    rewrite Hs. clear Hs Hb.
    assert (Hval : forall q k p j c, (q < nq)%nat -> nth_error orders k = Some p -> (j < p)%nat ->
      seg_interp orders k (nth k rs []) (fun i => ys i q) c ->
      nth (q * (NN - 1) + (offset orders k + j)) (mvec ui) 0 = nth q sc 0 * peval c (middle rs k j)).
    { intros q k p j c Hq Hk Hj Hc. pose proof (mid_lt k p j Hk Hj) as Hi.
      rewrite (nth_mvec_n ui (NN - 1) (offset orders k + j) q Hrui Hi) by (rewrite Hcui; auto).
      unfold ui. apply (mmul_scaled I M NN _ _ _ (fun i => ys i q)); auto. eapply HI; eauto. }
    split.
    + intros H k p j q c Hk Hj Hq Hc. specialize (H q (offset orders k + j)%nat Hq (mid_lt k p j Hk Hj)).
      pose proof (Hval q k p j c Hq Hk Hj Hc) as Ev. nred. rewrite Ev in H. apply within_scale in H; [exact H|apply (nth_pos _ _ nq); auto].
    + intros H q i Hq Hi. destruct (ad_seg_of i Hi) as (k & p & j & Hk & Hj & ->).
      destruct (ad_interp (fun i => ys i q) k (nth_error_lt _ _ _ Hk)) as (c & Hc).
      pose proof (Hval q k p j c Hq Hk Hj Hc) as Ev. nred. rewrite Ev. apply within_scale; [apply (nth_pos _ _ nq); auto|]. eapply H; eauto.
  - apply orb_false_elim in Ex. destruct Ex as [Ex1 Ex2].
    split; [apply balanced_nil|]. split; [reflexivity|].
    split; [|intros; apply sat_nil]. intros _ k p j q c Hk Hj Hq Hc. specialize (Hord q Hq).
    assert (A : eltb (N := Rnum) NInf (nth q lb NaN) = false).
    { destruct (eltb (N := Rnum) NInf (nth q lb NaN)) eqn:E; [|reflexivity]. exfalso.
      assert (existsb (fun b => eltb (N := Rnum) NInf b) lb = true) by (apply existsb_exists; exists (nth q lb NaN); split; [apply nth_In; lia|auto]).
      nred. congruence. }
    assert (B : eltb (N := Rnum) (nth q ub NaN) PInf = false).
    { destruct (eltb (N := Rnum) (nth q ub NaN) PInf) eqn:E; [|reflexivity]. exfalso.
      assert (existsb (fun b => eltb (N := Rnum) b PInf) ub = true) by (apply existsb_exists; exists (nth q ub NaN); split; [apply nth_In; lia|auto]).
      nred. congruence. }
    destruct (nth q lb NaN); cbn in A; try discriminate; destruct (nth q ub NaN); cbn in B; try discriminate; cbn in Hord; try contradiction;
      split; constructor.
Qed.

(** ** residuals at the mid points *)
Variable d : disc (N := Rnum).
Hypothesis Hd : disc_spec mp npath rs w ph y d.
Local Notation ti := (mid_points (N := Rnum) (d_t d)).

Lemma mid_time k p j : nth_error orders k = Some p -> (j < p)%nat ->
  at_ ti (offset orders k + j) = Ok (seg_time cf w y k (middle rs k j)).
Proof.
  intros Hk Hj. pose proof (mid_lt k p j Hk Hj) as Hi. pose proof (ds_t_len _ _ _ _ _ _ _ Hd) as Hl.
  rewrite (at_ok _ _ 0) by (rewrite mids_length; nred; lia). f_equal.
  rewrite mids_nth by (nred; lia).
  assert (E1 : nth (S (offset orders k + j)) (d_t d) 0 = seg_time cf w y k (nth (S j) (nth k rs []) 0)).
  { rewrite (ds_t _ _ _ _ _ _ _ Hd _ k (S j)); [reflexivity|]. exists p. repeat split; auto; lia. }
  assert (E0 : nth (offset orders k + j) (d_t d) 0 = seg_time cf w y k (nth j (nth k rs []) 0)).
  { destruct (Nat.eq_dec j 0) as [->|Hj0].
    - destruct k as [|k]; [rewrite (ds_t _ _ _ _ _ _ _ Hd _ 0%nat 0%nat); [reflexivity|]; exists p; repeat split; auto; lia|].
      destruct (nth_error orders k) as [p'|] eqn:Ek; [|apply nth_error_None in Ek; pose proof (nth_error_lt _ _ _ Hk); lia].
      assert (Hp' : (1 <= p')%nat) by (apply (mo_pos _ Hmp); eapply nth_error_In; eauto).
      rewrite (ds_t _ _ _ _ _ _ _ Hd _ k p').
      + destruct (good_at mp rs Hrs Hgood k p' Ek) as (_ & _ & _ & E1'). destruct (good_at mp rs Hrs Hgood (S k) p Hk) as (_ & _ & E0' & _).
        nred. rewrite E1', E0'. pose proof (co_taus _ (mo_cfg _ Hmp)) as Htau. unfold seg_time, seg_start, seg_h. cbn [Rsum]. nred. field. lra.
      + exists p'. repeat split; auto; try lia. rewrite (offset_S _ _ _ Ek). lia.
    - rewrite (ds_t _ _ _ _ _ _ _ Hd _ k j); [reflexivity|]. exists p. repeat split; auto; lia. }
  nred. rewrite E0, E1. unfold seg_time, middle. nred. field.
Qed.

Lemma mid_residuals_ok k p cx cu : nth_error orders k = Some p -> seg_polys mp rs y k cx cu ->
  exists l, mid_residuals mp ph v (mmul I (v_X v)) (mmul I (v_U v)) (mmul D (v_X v)) ti sw taus k = Ok l /\
    length l = (o_nx o * p)%nat /\
    forall s j, (s < o_nx o)%nat -> (j < p)%nat ->
      nth (s * p + j) l 0 = w k * (nth s (o_scale_x o) 0 * defect mp w ph y k cx cu s (middle rs k j)).
Proof.
  intros Hk Hc. pose proof (nth_error_lt _ _ _ Hk) as Hkl.
  assert (Hp : (1 <= p)%nat) by (apply (mo_pos _ Hmp); eapply nth_error_In; eauto).
  unfold mid_residuals. rewrite Hw by exact Hkl. cbn [bind].
  rewrite (at_ok taus k []) by (rewrite map_length; nred; lia). cbn [bind].
  pose proof (ad_tlen k p Hk) as Hlk. nred. rewrite Hlk.
  assert (Es : nsum (map (@length R) (firstn k taus)) = offset orders k).
  { rewrite <- firstn_map. nred. pose proof ad_mids as E. nred. rewrite E. apply nsum_firstn. }
  nred. rewrite Es.
  set (f := fun i => dyn_along o ph y cx cu (middle rs k i) (seg_time cf w y k (middle rs k i))).
  set (h := seg_h cf w y k).
  assert (Hf : forall i, length (f i) = o_nx o) by (intros i; apply ad_along).
  rewrite (mapM_ok _ (fun i => vec (o_nx o) (fun s => h * (nth s (o_scale_x o) 0 * nth s (f (i - offset orders k)%nat) 0)))).
  2:{ intros i Hi. apply in_seq in Hi. assert (Ei : i = (offset orders k + (i - offset orders k))%nat) by lia.
      set (j := (i - offset orders k)%nat) in *. assert (Hj : (j < p)%nat) by lia. clearbody j. subst i.
      pose proof (mid_time k p j Hk Hj) as Et. nred. rewrite Et. cbn [bind].
      assert (Ex : vunscale (N := Rnum) (o_scale_x o) (mrow (mmul I (v_X v)) (offset orders k + j)) = vec (o_nx o) (fun s => peval (cx s) (middle rs k j))).
      { apply unscale_vec; [apply (sh_sx _ Hsh)|unfold mrow; rewrite map_length, seq_length; apply (rp_ncX _ _ _ Hrep)|apply (sp_x _ Hsc)|].
        intros s Hs. unfold mrow. etransitivity; [apply (nth_map_seq (mget (mmul I (v_X v)) (offset orders k + j))); cbn [mmul nc]; rewrite (rp_ncX _ _ _ Hrep); exact Hs|].
        apply (mmul_scaled I (v_X v) NN _ _ _ (fun i => y_x y i s)); [exact Icols|intros; apply (rp_X _ _ _ Hrep); auto|].
        apply (HI k p j _ (cx s) Hk Hj). apply Hc; exact Hs. }
      assert (Eu : vunscale (N := Rnum) (o_scale_u o) (mrow (mmul I (v_U v)) (offset orders k + j)) = vec (o_nu o) (fun s => peval (cu s) (middle rs k j))).
      { apply unscale_vec; [apply (sh_su _ Hsh)|unfold mrow; rewrite map_length, seq_length; apply (rp_ncU _ _ _ Hrep)|apply (sp_u _ Hsc)|].
        intros s Hs. unfold mrow. etransitivity; [apply (nth_map_seq (mget (mmul I (v_U v)) (offset orders k + j))); cbn [mmul nc]; rewrite (rp_ncU _ _ _ Hrep); exact Hs|].
        apply (mmul_scaled I (v_U v) NN _ _ _ (fun i => y_u y i s)); [exact Icols|intros; apply (rp_U _ _ _ Hrep); auto|].
        apply (HI k p j _ (cu s) Hk Hj). apply Hc; exact Hs. }
      nred. rewrite Ex, Eu. unfold get_dynamics, at_.
      destruct (ad_along cx cu (middle rs k j) (seg_time cf w y k (middle rs k j))) as [Hl (g & Eg & E)].
      nred. rewrite Eg. cbn [bind]. 
      assert (Ha : a_arg o (un_a mp v) = a_of o y).
      { unfold a_arg, a_of, un_a. rewrite (unscale_vec _ (v_A v) (o_na o) (y_a y) (sh_sa _ Hsh) (rp_lenA _ _ _ Hrep) (sp_a _ Hsc) (rp_A _ _ _ Hrep)). reflexivity. }
      rewrite Ha. nred. rewrite E. cbn [bind]. rewrite Hl, Nat.eqb_refl. cbn [bind]. f_equal.
      replace (offset orders k + j - offset orders k)%nat with j by lia. fold (f j).
      rewrite (rp_t0 _ _ _ Hrep), (rp_tf _ _ _ Hrep). pose proof (sh_sx _ Hsh) as Hls. pose proof (Hf j) as Hlf.
      pose proof (sp_t _ Hsc) as Hst. pose proof (co_taus _ (mo_cfg _ Hmp)) as Htau.
      apply (list_eq_nth _ _ 0).
      - rewrite map_length. unfold vscale. rewrite length_map2, length_vec. nred. lia.
      - intros s Hs. rewrite map_length in Hs. unfold vscale in *. rewrite length_map2 in Hs. nred.
        rewrite (nth_map_in _ _ s 0 0) by (rewrite length_map2; lia). rewrite (nth_map2 _ _ _ s 0 0 0) by lia. rewrite nth_vec by lia.
        f_equal. unfold h, seg_h. field. lra. }
  cbn [bind]. replace (Nat.eqb p 0) with false by (symmetry; apply Nat.eqb_neq; lia).
  rewrite rows_mat.
  2:{ intros i Hi. rewrite map_length, seq_length in Hi.
      rewrite (nth_map_in _ _ i [] 0%nat) by (rewrite seq_length; exact Hi). apply length_vec. }
  cbn [bind]. eexists. split; [reflexivity|].
  set (B := msub _ _).
  assert (HB : nr B = p) by (unfold B; cbn [msub nr take_rows]; apply seq_length).
  assert (HB' : nc B = o_nx o) by (unfold B; cbn [msub nc take_rows mmul]; apply (rp_ncX _ _ _ Hrep)).
  assert (HlB : length (mvec B) = (o_nx o * p)%nat) by (rewrite length_mvec, HB, HB'; reflexivity).
  split; [rewrite map_length; exact HlB|]. intros s j Hs Hj.
  assert (Hsj : (s * p + j < o_nx o * p)%nat) by nia.
  etransitivity; [apply (nth_map_in (Rmult (w k)) (mvec B) _ 0 0); nred; lia|]. f_equal.
  etransitivity; [apply (nth_mvec_n B p j s HB Hj); rewrite HB'; exact Hs|].
  unfold B. cbn [msub mget take_rows].
  rewrite (nth_map_in _ _ j [] 0%nat) by (rewrite seq_length; exact Hj). rewrite seq_nth by exact Hj. rewrite nth_vec by exact Hs.
  rewrite (mmul_scaled D (v_X v) NN (nth s (o_scale_x o) 0) (offset orders k + j) s (fun i => y_x y i s) _ Dcols
    (fun i Hi => rp_X _ _ _ Hrep i s Hi Hs) (HD k p j _ (cx s) Hk Hj (proj1 Hc s Hs))).
  replace (offset orders k + j - offset orders k)%nat with j by lia. nred.
  unfold defect, rate. fold h. unfold f. ring.
Qed.
End Mid.
