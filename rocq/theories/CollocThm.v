(** Statements about class Collocation in the form used by Properties_Colloc (proofs). *)
From Coq Require Import Reals Lia Lra Bool Arith.
From Coquelicot Require Import Coquelicot.
From Coq Require Import String List.
From Verif Require Import Num PyList Mat Poly Roots Colloc Spec NumR PolyR ListR CollocR CompR GaussR CacheR JacobiR.
Import ListNotations.
Open Scope R_scope.

Lemma basis_kronecker m (roots : list R) i j d : NoDup roots -> (i < length roots)%nat -> (j < length roots)%nat ->
  poly_at m (nth j (@get_lagrange_polynomials Rnum m roots) d) (nth i roots 0)
  = Ok (if Nat.eqb i j then 1 else 0).
Proof.
  intros Hnd Hi Hj.
  pose proof (basis_nth (Ccfg ideal_lib m "" 0 1) roots j d Hj) as E. cbn [cf_meth] in E. rewrite E.
  rewrite basis_at by auto. rewrite peval_lagrange_num, lagv_node by auto. reflexivity.
Qed.

Lemma interp_exact (cf : ccfg Rnum) (roots pts : list R) : NoDup roots ->
  exists C, interp_matrix_of cf (get_lagrange_polynomials (cf_meth cf) roots) pts = Ok C /\
    nr C = length pts /\ nc C = length roots /\
    forall c i, (length c <= length roots)%nat -> (i < length pts)%nat ->
      row_dot C i (fun j => peval c (nth j roots 0)) = peval c (nth i pts 0).
Proof.
  intros Hnd. destruct (interp_matrix_of_ok cf roots pts Hnd) as (C & E & H).
  exists C. split; [exact E|]. destruct H as (Hr & Hc & Hg). split; [exact Hr|]. split; [exact Hc|].
  intros c i Hl Hi. exact (dmat_exact 0 roots pts C c i Hnd (conj Hr (conj Hc Hg)) Hl Hi).
Qed.
Lemma row_sum_one (cf : ccfg Rnum) (roots pts : list R) C i : NoDup roots -> roots <> [] ->
  interp_matrix_of cf (get_lagrange_polynomials (cf_meth cf) roots) pts = Ok C -> (i < length pts)%nat ->
  row_dot C i (fun _ => 1) = 1.
Proof.
  intros Hnd Hne E Hi. destruct (interp_exact cf roots pts Hnd) as (C' & E' & _ & _ & H).
  rewrite E in E'. inversion E'; subst C'.
  specialize (H [1] i). cbn [peval length] in H.
  assert (Hl : (1 <= length roots)%nat) by (destruct roots; [congruence|cbn; lia]).
  specialize (H Hl Hi).
  replace (row_dot C i (fun _ => 1)) with (row_dot C i (fun j => 1 + nth j roots 0 * 0)).
  - rewrite H. lra.
  - unfold row_dot. apply Rsum_ext. intros; lra.
Qed.

Lemma diff1_exact (cf : ccfg Rnum) (roots pts : list R) : NoDup roots ->
  exists D, diff_matrix_of cf (get_lagrange_polynomials (cf_meth cf) roots) pts 1 = Ok D /\
    nr D = length pts /\ nc D = length roots /\
    forall c i, (length c <= length roots)%nat -> (i < length pts)%nat ->
      is_derive (peval c) (nth i pts 0) (row_dot D i (fun j => peval c (nth j roots 0))).
Proof.
  intros Hnd. destruct (diff_matrix_of_ok cf roots pts 1 Hnd) as (D & E & H); [auto|].
  exists D. split; [exact E|]. destruct H as (Hr & Hc & Hg). split; [exact Hr|]. split; [exact Hc|].
  intros c i Hl Hi. pose proof (dmat_exact 1 roots pts D c i Hnd (conj Hr (conj Hc Hg)) Hl Hi) as HH.
  unfold row_dot. rewrite HH. apply dform1_derive.
Qed.
Lemma diff2_exact (cf : ccfg Rnum) (roots pts : list R) : NoDup roots ->
  exists D, diff_matrix_of cf (get_lagrange_polynomials (cf_meth cf) roots) pts 2 = Ok D /\
    nr D = length pts /\ nc D = length roots /\
    forall c i, (length c <= length roots)%nat -> (i < length pts)%nat ->
      is_derive_n (peval c) 2 (nth i pts 0) (row_dot D i (fun j => peval c (nth j roots 0))).
Proof.
  intros Hnd. destruct (diff_matrix_of_ok cf roots pts 2 Hnd) as (D & E & H); [auto|].
  exists D. split; [exact E|]. destruct H as (Hr & Hc & Hg). split; [exact Hr|]. split; [exact Hc|].
  intros c i Hl Hi. pose proof (dmat_exact 2 roots pts D c i Hnd (conj Hr (conj Hc Hg)) Hl Hi) as HH.
  unfold row_dot. rewrite HH. apply dform2_derive.
Qed.
Lemma diff_other_raises (N : num) (cf : ccfg N) (roots pts : list N) order :
  roots <> [] -> pts <> [] -> order <> 1%nat -> order <> 2%nat ->
  diff_matrix_of cf (get_lagrange_polynomials (cf_meth cf) roots) pts order = Raise UnboundLocalError.
Proof.
  intros Hr Hp H1 H2. destruct roots as [|r roots]; [congruence|]. destruct pts as [|x pts]; [congruence|].
  unfold diff_matrix_of, basis_matrix, get_lagrange_polynomials. cbn [length seq map mapM].
  destruct (cf_meth cf); cbn [poly_der_at];
    destruct (Nat.eqb_spec order 1), (Nat.eqb_spec order 2); try congruence; reflexivity.
Qed.

Lemma weights_exact_thm (cf : ccfg Rnum) (roots : list R) (a b : R) : NoDup roots -> integ_exact (l_integ (cf_lib cf)) ->
  exists w, quad_weights_of cf (get_lagrange_polynomials (cf_meth cf) roots) a b = Ok w /\
    length w = length roots /\
    forall c, (length c <= length roots)%nat ->
      Rsum (length roots) (fun j => nth j w 0 * peval c (nth j roots 0)) = RInt (peval c) a b.
Proof.
  intros Hnd Hig. eexists. split; [apply quad_weights_of_ok; auto|].
  split; [rewrite map_length, seq_length; reflexivity|].
  intros c Hl. rewrite <- (weights_exact roots c a b Hnd Hl). apply Rsum_ext. intros j Hj.
  f_equal. set (f := fun j => RInt (peval (@lagrange_num Rnum roots j)) a b).
  rewrite (nth_indep _ 0 (f 0%nat)) by (rewrite map_length, seq_length; auto).
  rewrite (map_nth f). rewrite seq_nth by auto. reflexivity.
Qed.

(** C05 *)
Lemma meth_diff cf (roots pts : list R) k : NoDup roots -> (k = 1 \/ k = 2)%nat ->
  exists A B, diff_matrix_of (with_meth cf Symbolic) (get_lagrange_polynomials Symbolic roots) pts k = Ok A /\
    diff_matrix_of (with_meth cf Numerical) (get_lagrange_polynomials Numerical roots) pts k = Ok B /\ mat_eq A B.
Proof.
  intros Hnd Hk.
  destruct (diff_matrix_of_ok (with_meth cf Symbolic) roots pts k Hnd Hk) as (A & EA & Ar & Ac & Ag).
  destruct (diff_matrix_of_ok (with_meth cf Numerical) roots pts k Hnd Hk) as (B & EB & Br & Bc & Bg).
  exists A, B. split; [exact EA|]. split; [exact EB|]. split; [congruence|]. split; [congruence|].
  intros i j Hi Hj. rewrite Ag, Bg; auto; congruence.
Qed.
Lemma meth_interp cf (roots pts : list R) : NoDup roots ->
  exists A B, interp_matrix_of (with_meth cf Symbolic) (get_lagrange_polynomials Symbolic roots) pts = Ok A /\
    interp_matrix_of (with_meth cf Numerical) (get_lagrange_polynomials Numerical roots) pts = Ok B /\ mat_eq A B.
Proof.
  intros Hnd.
  destruct (interp_matrix_of_ok (with_meth cf Symbolic) roots pts Hnd) as (A & EA & Ar & Ac & Ag).
  destruct (interp_matrix_of_ok (with_meth cf Numerical) roots pts Hnd) as (B & EB & Br & Bc & Bg).
  exists A, B. split; [exact EA|]. split; [exact EB|]. split; [congruence|]. split; [congruence|].
  intros i j Hi Hj. rewrite Ag, Bg; auto; congruence.
Qed.
Lemma meth_quad cf (roots : list R) a b : NoDup roots -> integ_exact (l_integ (cf_lib cf)) ->
  exists w, quad_weights_of (with_meth cf Symbolic) (get_lagrange_polynomials Symbolic roots) a b = Ok w /\
    quad_weights_of (with_meth cf Numerical) (get_lagrange_polynomials Numerical roots) a b = Ok w.
Proof.
  intros Hnd Hig. eexists.
  split; [apply (quad_weights_of_ok (with_meth cf Symbolic)); auto|apply (quad_weights_of_ok (with_meth cf Numerical)); auto].
Qed.

(** C06 *)
Lemma comp_diff1_thm cf orders : cfg_ok cf -> (forall p, In p orders -> (1 <= p)%nat) ->
  exists rs D, mapM (c_roots cf) orders = Ok rs /\ comp_diff cf orders 1 = Ok D /\
    nr D = total_nodes orders /\ nc D = total_nodes orders /\
    forall ys k p r i c, nth_error orders k = Some p -> nth_error rs k = Some r ->
      (i <= p)%nat -> (k = 0 \/ 1 <= i)%nat -> seg_interp orders k r ys c ->
      is_derive (peval c) (nth i r 0) (row_dot D (offset orders k + i) ys).
Proof.
  intros Hcf Hp. destruct (seg_nodes_ok cf orders Hcf Hp) as (rs & Hs & _ & _).
  destruct (comp_diff_ok cf orders rs 1 Hs) as (D & E & Hr & Hc & H); [auto|].
  exists rs, D. split; [apply Hs|]. split; [exact E|]. split; [exact Hr|]. split; [exact Hc|].
  intros ys k p r i c H1 H2 H3 H4 H5. unfold row_dot. rewrite Hc, (H k p r i ys c); auto. apply dform1_derive.
Qed.
Lemma comp_diff2_thm cf orders : cfg_ok cf -> (forall p, In p orders -> (1 <= p)%nat) ->
  exists rs D, mapM (c_roots cf) orders = Ok rs /\ comp_diff cf orders 2 = Ok D /\
    nr D = total_nodes orders /\ nc D = total_nodes orders /\
    forall ys k p r i c, nth_error orders k = Some p -> nth_error rs k = Some r ->
      (i <= p)%nat -> (k = 0 \/ 1 <= i)%nat -> seg_interp orders k r ys c ->
      is_derive_n (peval c) 2 (nth i r 0) (row_dot D (offset orders k + i) ys).
Proof.
  intros Hcf Hp. destruct (seg_nodes_ok cf orders Hcf Hp) as (rs & Hs & _ & _).
  destruct (comp_diff_ok cf orders rs 2 Hs) as (D & E & Hr & Hc & H); [auto|].
  exists rs, D. split; [apply Hs|]. split; [exact E|]. split; [exact Hr|]. split; [exact Hc|].
  intros ys k p r i c H1 H2 H3 H4 H5. unfold row_dot. rewrite Hc, (H k p r i ys c); auto. apply dform2_derive.
Qed.

(** C08 *)
Lemma comp_interp_thm cf orders (taus : list (list R)) : cfg_ok cf -> (forall p, In p orders -> (1 <= p)%nat) ->
  length taus = length orders ->
  exists rs C D1 D2, mapM (c_roots cf) orders = Ok rs /\ comp_interp cf taus orders = Ok C /\
    comp_interpD cf taus orders 1 = Ok D1 /\ comp_interpD cf taus orders 2 = Ok D2 /\
    (nr C = offset (map (@length R) taus) (length taus) /\ nc C = total_nodes orders) /\
    (nr D1 = offset (map (@length R) taus) (length taus) /\ nc D1 = total_nodes orders) /\
    (nr D2 = offset (map (@length R) taus) (length taus) /\ nc D2 = total_nodes orders) /\
    forall ys k p r t i c, nth_error orders k = Some p -> nth_error rs k = Some r -> nth_error taus k = Some t ->
      (i < length t)%nat -> seg_interp orders k r ys c ->
      let row := (offset (map (@length R) taus) k + i)%nat in
      row_dot C row ys = peval c (nth i t 0) /\
      is_derive (peval c) (nth i t 0) (row_dot D1 row ys) /\
      is_derive_n (peval c) 2 (nth i t 0) (row_dot D2 row ys).
Proof.
  intros Hcf Hp Hl. destruct (seg_nodes_ok cf orders Hcf Hp) as (rs & Hs & _ & _).
  destruct (comp_interp_ok cf taus orders rs Hs Hl) as (C & EC & Cr & Cc & HC).
  destruct (comp_interpD_ok cf taus orders rs 1 Hs Hl (or_introl eq_refl)) as (D1 & E1 & R1' & C1 & H1).
  destruct (comp_interpD_ok cf taus orders rs 2 Hs Hl (or_intror eq_refl)) as (D2 & E2 & R2' & C2 & H2).
  exists rs, C, D1, D2. split; [apply Hs|]. split; [exact EC|]. split; [exact E1|]. split; [exact E2|].
  split; [auto|]. split; [auto|]. split; [auto|].
  intros ys k p r t i c K1 K2 K3 K4 K5 row. unfold row_dot, row. rewrite Cc, C1, C2.
  rewrite (HC k p r t i ys c), (H1 k p r t i ys c), (H2 k p r t i ys c) by auto.
  split; [reflexivity|]. split; [apply dform1_derive|apply dform2_derive].
Qed.

(** C07 *)
Lemma lgr_first_weight cf p r : cfg_ok cf -> cf_scheme cf = "LGR"%string -> (2 <= p)%nat ->
  c_roots cf p = Ok r -> ell_int r (cf_tau0 cf) (cf_tau1 cf) 0 = 0.
Proof.
  intros [[_ _ Hrad _ _] _ Ht] Hs Hp. unfold c_roots, taus_fn. rewrite Hs. cbn [String.eqb Ascii.eqb Bool.eqb].
  unfold lgr_roots. destruct (Nat.ltb_spec 1 p); [|lia]. intros E; inversion E as [E']; clear E.
  rewrite scale_roots_R in E'. specialize (Hrad (p - 1)%nat ltac:(lia)).
  set (js := l_j_roots (cf_lib cf) (p - 1) 1 0) in *.
  assert (Hlj : length js = (p - 1)%nat) by apply Hrad.
  subst r. apply radau_w0; auto.
  - eapply increasing_nodup. apply (ends_good (cf_tau0 cf) (cf_tau1 cf) p js); auto; try lia; apply Hrad.
  - nred. rewrite Hlj. lia.
  - nred. rewrite Hlj. exact Hrad.
Qed.

Lemma comp_quad_thm cf orders : cfg_ok cf -> orders <> [] -> (forall p, In p orders -> (1 <= p)%nat) ->
  forall a b : R,
  exists rs W ws, mapM (c_roots cf) orders = Ok rs /\ comp_quad cf orders a b = Ok W /\
    mapM (fun p => quad_weights cf p a b) orders = Ok ws /\
    length W = total_nodes orders /\
    forall ys cs, (forall k r, nth_error rs k = Some r -> seg_interp orders k r ys (cs k)) ->
      Rsum (total_nodes orders) (fun j => nth j W 0 * ys j) =
      Rsum (length orders) (fun k => RInt (peval (cs k)) a b)
      - Rsum (length orders - 1) (fun k => nth 0 (nth (S k) ws []) 0 * ys (offset orders (S k))).
Proof.
  intros Hcf Hne Hp a b. destruct (seg_nodes_ok cf orders Hcf Hp) as (rs & Hs & Hl & _).
  assert (Hig := lo_integ _ (co_lib _ Hcf)).
  destruct (comp_quad_ok cf orders rs a b Hs Hne Hig) as (W & EW & HlW & HW).
  exists rs, W, (map (wts a b) rs). split; [apply Hs|]. split; [exact EW|].
  destruct Hs as [Hrs Hn].
  split; [|split; [exact HlW|]].
  - clear - Hrs Hn Hig. revert rs Hrs Hn. induction orders as [|p orders IH]; intros rs Hrs Hn.
    + cbn in *. inversion Hrs. reflexivity.
    + cbn [mapM] in Hrs. destruct (c_roots cf p) as [r|] eqn:Er; [|discriminate]. cbn [bind] in Hrs.
      destruct (mapM (c_roots cf) orders) as [rs'|] eqn:Es; [|discriminate]. cbn [bind] in Hrs.
      inversion Hrs; subst rs. cbn [mapM]. unfold quad_weights at 1. rewrite Er. cbn [bind].
      destruct (Hn 0%nat p r eq_refl eq_refl) as (_ & Hlr & Hnd).
      rewrite quad_weights_of_ok by auto. cbn [bind].
      rewrite (IH rs' eq_refl) by (intros k; apply (Hn (S k))). reflexivity.
  - intros ys cs Hcs. rewrite (HW ys cs Hcs). f_equal. apply Rsum_ext. intros k Hk.
    f_equal. destruct (nth_error rs (S k)) as [r|] eqn:Er.
    2:{ apply nth_error_None in Er. lia. }
    destruct (nth_error orders (S k)) as [p|] eqn:Ep.
    2:{ apply nth_error_None in Ep. lia. }
    destruct (Hn (S k) p r Ep Er) as (_ & Hlr & _).
    assert (Ew : nth (S k) (map (wts a b) rs) [] = wts a b r) by (apply nth_error_nth, map_nth_error; exact Er).
    nred. rewrite Ew.
    rewrite (nth_error_nth rs (S k) [] Er). unfold wts. rewrite Hlr. reflexivity.
Qed.

Lemma comp_quad_lgr cf orders : cfg_ok cf -> cf_scheme cf = "LGR"%string -> orders <> [] ->
  (1 <= hd 0 orders)%nat -> (forall p, In p (tl orders) -> (2 <= p)%nat) ->
  exists rs W, mapM (c_roots cf) orders = Ok rs /\ comp_quad cf orders (cf_tau0 cf) (cf_tau1 cf) = Ok W /\
    length W = total_nodes orders /\
    forall ys cs, (forall k r, nth_error rs k = Some r -> seg_interp orders k r ys (cs k)) ->
      Rsum (total_nodes orders) (fun j => nth j W 0 * ys j) =
      Rsum (length orders) (fun k => RInt (peval (cs k)) (cf_tau0 cf) (cf_tau1 cf)).
Proof.
  intros Hcf Hs Hne H0 Hp.
  assert (Hp1 : forall p, In p orders -> (1 <= p)%nat).
  { destruct orders as [|p0 orders]; [congruence|]. intros p [<-|Hin]; [exact H0|]. specialize (Hp p Hin). lia. }
  destruct (seg_nodes_ok cf orders Hcf Hp1) as (rs & Hsn & Hl & _).
  destruct (comp_quad_ok cf orders rs (cf_tau0 cf) (cf_tau1 cf) Hsn Hne (lo_integ _ (co_lib _ Hcf))) as (W & EW & HlW & HW).
  exists rs, W. split; [apply Hsn|]. split; [exact EW|]. split; [exact HlW|].
  intros ys cs Hcs. rewrite (HW ys cs Hcs). rewrite (Rsum_0 (length orders - 1)); [lra|].
  intros k Hk. destruct Hsn as [_ Hn].
  destruct (nth_error rs (S k)) as [r|] eqn:Er.
  2:{ apply nth_error_None in Er. lia. }
  destruct (nth_error orders (S k)) as [p|] eqn:Ep.
  2:{ apply nth_error_None in Ep. lia. }
  destruct (Hn (S k) p r Ep Er) as (Ec & _).
  rewrite (nth_error_nth rs (S k) [] Er). rewrite (lgr_first_weight cf p r); auto; [lra|].
  apply Hp. destruct orders as [|p0 orders]; [congruence|]. cbn in Ep. eapply nth_error_In; eauto.
Qed.

(** one trapezoid per segment: the weight of the shared node is halved *)
Lemma comp_quad_wrong cf : cfg_ok cf -> In (cf_scheme cf) ["LGR"; "LGL"]%string ->
  exists rs W, mapM (c_roots cf) [1; 1]%nat = Ok rs /\ comp_quad cf [1; 1]%nat (cf_tau0 cf) (cf_tau1 cf) = Ok W /\
  let ys := fun _ : nat => 1 in let cs := fun _ : nat => [1] in
  (forall k r, nth_error rs k = Some r -> seg_interp [1; 1]%nat k r ys (cs k)) /\
  Rsum 3 (fun j => nth j W 0 * ys j) = 3 / 2 * (cf_tau1 cf - cf_tau0 cf) /\
  Rsum 2 (fun k => RInt (peval (cs k)) (cf_tau0 cf) (cf_tau1 cf)) = 2 * (cf_tau1 cf - cf_tau0 cf).
Proof.
  intros Hcf Hs.
  destruct (seg_nodes_ok cf [1; 1]%nat Hcf) as (rs & Hsn & Hl & Hg).
  { intros p [<-|[<-|[]]]; lia. }
  set (t0 := cf_tau0 cf) in *. set (t1 := cf_tau1 cf) in *.
  assert (Ht : t0 < t1) by apply (co_taus _ Hcf).
  destruct (comp_quad_ok cf [1; 1]%nat rs t0 t1 Hsn ltac:(discriminate) (lo_integ _ (co_lib _ Hcf))) as (W & EW & HlW & HW).
  assert (Hr1 : forall k r, nth_error rs k = Some r -> r = [t0; t1]).
  { intros k r Hr. destruct Hsn as [_ Hn].
    assert (Hk : (k < 2)%nat) by (change 2%nat with (length [1; 1]%nat); rewrite <- Hl; apply nth_error_Some; nred; congruence).
    destruct (Hn k 1%nat r) as (Ec & _); auto.
    { destruct k as [|[|k]]; [reflexivity|reflexivity|lia]. }
    unfold c_roots, taus_fn in Ec.
    destruct Hs as [Hs|[Hs|[]]]; rewrite <- Hs in Ec; cbn in Ec; inversion Ec; reflexivity. }
  assert (Hint : forall k r, nth_error rs k = Some r -> seg_interp [1; 1]%nat k r (fun _ => 1) [1]).
  { intros k r Hr. rewrite (Hr1 k r Hr). split; [cbn; lia|]. intros j _. cbn. lra. }
  assert (HI : RInt (peval [1]) t0 t1 = t1 - t0).
  { rewrite RInt_peval. cbn. unfold Q2R. cbn. field. }
  exists rs, W. split; [apply Hsn|]. split; [exact EW|]. cbv zeta. split; [exact Hint|]. split.
  - pose proof (HW (fun _ => 1) (fun _ => [1]) Hint) as E. cbn [total_nodes offset length Nat.add] in E.
    rewrite E. cbn [Rsum Nat.sub]. rewrite HI.
    destruct rs as [|r0 [|r1 [|r2 rs]]]; cbn in Hl; try discriminate.
    cbn [nth]. rewrite (Hr1 1%nat r1 eq_refl). unfold ell_int. rewrite RInt_peval.
    cbn. field. lra.
  - cbn [Rsum]. rewrite HI. lra.
Qed.

(** Gauss-type exactness *)
Lemma lgr_weights cf p : cfg_ok cf -> cf_scheme cf = "LGR"%string -> (2 <= p)%nat ->
  exists r w, c_roots cf p = Ok r /\ quad_weights cf p (cf_tau0 cf) (cf_tau1 cf) = Ok w /\
    nth 0 w 0 = 0 /\
    forall c, (length c <= 2 * p - 1)%nat ->
      Rsum (S p) (fun j => nth j w 0 * peval c (nth j r 0)) = RInt (peval c) (cf_tau0 cf) (cf_tau1 cf).
Proof.
  intros Hcf Hs Hp. destruct (c_roots_good cf p Hcf ltac:(lia)) as (r & Er & Hg).
  pose proof (good_nodup _ _ _ _ Hg) as Hnd. destruct Hg as (Hlr & _).
  exists r, (wts (cf_tau0 cf) (cf_tau1 cf) r). split; [exact Er|]. split.
  { unfold quad_weights. rewrite Er. cbn [bind]. apply quad_weights_of_ok; auto. apply (lo_integ _ (co_lib _ Hcf)). }
  split.
  { unfold wts. rewrite Hlr. cbn [seq map nth]. eapply lgr_first_weight; eauto. }
  intros c Hc.
  assert (Ew : forall j, (j < S p)%nat -> nth j (wts (cf_tau0 cf) (cf_tau1 cf) r) 0 = ell_int r (cf_tau0 cf) (cf_tau1 cf) j).
  { intros j Hj. unfold wts. rewrite (nth_indep _ 0 (ell_int r (cf_tau0 cf) (cf_tau1 cf) 0)) by (rewrite map_length, seq_length; nred; lia).
    rewrite map_nth. rewrite seq_nth by (nred; lia). reflexivity. }
  erewrite Rsum_ext by (intros j Hj; rewrite Ew by auto; reflexivity).
  destruct (Nat.le_gt_cases (length c) (S p)) as [Hle|Hgt].
  - rewrite <- Hlr. apply (weights_exact r c); auto. nred; lia.
  - unfold c_roots, taus_fn in Er. rewrite Hs in Er. cbn [String.eqb Ascii.eqb Bool.eqb] in Er.
    unfold lgr_roots in Er. destruct (Nat.ltb_spec 1 p); [|lia]. inversion Er as [E']. clear Er.
    rewrite scale_roots_R in E'.
    pose proof (lo_radau _ (co_lib _ Hcf) (p - 1)%nat ltac:(lia)) as Hrad.
    set (js := l_j_roots (cf_lib cf) (p - 1) 1 0) in *.
    assert (Hlj : length js = (p - 1)%nat) by apply Hrad.
    subst r. replace (S p) with (length js + 2)%nat by (nred; lia).
    apply radau_gauss; auto; nred; try lia. { apply (co_taus _ Hcf). } { nred. rewrite Hlj. exact Hrad. }
Qed.
Lemma lgl_weights cf p : cfg_ok cf -> cf_scheme cf = "LGL"%string -> (2 <= p)%nat ->
  exists r w, c_roots cf p = Ok r /\ quad_weights cf p (cf_tau0 cf) (cf_tau1 cf) = Ok w /\
    forall c, (length c <= 2 * p)%nat ->
      Rsum (S p) (fun j => nth j w 0 * peval c (nth j r 0)) = RInt (peval c) (cf_tau0 cf) (cf_tau1 cf).
Proof.
  intros Hcf Hs Hp. destruct (c_roots_good cf p Hcf ltac:(lia)) as (r & Er & Hg).
  pose proof (good_nodup _ _ _ _ Hg) as Hnd. destruct Hg as (Hlr & _).
  exists r, (wts (cf_tau0 cf) (cf_tau1 cf) r). split; [exact Er|]. split.
  { unfold quad_weights. rewrite Er. cbn [bind]. apply quad_weights_of_ok; auto. apply (lo_integ _ (co_lib _ Hcf)). }
  intros c Hc.
  assert (Ew : forall j, (j < S p)%nat -> nth j (wts (cf_tau0 cf) (cf_tau1 cf) r) 0 = ell_int r (cf_tau0 cf) (cf_tau1 cf) j).
  { intros j Hj. unfold wts. rewrite (nth_indep _ 0 (ell_int r (cf_tau0 cf) (cf_tau1 cf) 0)) by (rewrite map_length, seq_length; nred; lia).
    rewrite map_nth. rewrite seq_nth by (nred; lia). reflexivity. }
  erewrite Rsum_ext by (intros j Hj; rewrite Ew by auto; reflexivity).
  destruct (Nat.le_gt_cases (length c) (S p)) as [Hle|Hgt].
  - rewrite <- Hlr. apply (weights_exact r c); auto. nred; lia.
  - unfold c_roots, taus_fn in Er. rewrite Hs in Er. cbn [String.eqb Ascii.eqb Bool.eqb] in Er.
    unfold lgl_roots in Er. destruct (Nat.ltb_spec 1 p); [|lia]. inversion Er as [E']. clear Er.
    rewrite scale_roots_R in E'.
    pose proof (lo_lobatto _ (co_lib _ Hcf) (p - 1)%nat ltac:(lia)) as Hlob.
    set (js := l_j_roots (cf_lib cf) (p - 1) 1 1) in *.
    assert (Hlj : length js = (p - 1)%nat) by apply Hlob.
    subst r. replace (S p) with (length js + 2)%nat by (nred; lia).
    apply lobatto_gauss; auto; nred; try lia. { apply (co_taus _ Hcf). } { nred. rewrite Hlj. exact Hlob. }
Qed.

(** C09 *)
Lemma cache_thm (N : num) (cf : ccfg N) os (h : list (ccall N)) :
  forall ps, (forall c p, In c h -> In p ps -> ~ overrides p c) ->
  let o := run cf os h in
  (forall p t d, In p ps -> snd (st_diff_matrix cf o (KDeg p) t d) = diff_matrix cf p t d) /\
  (forall p a b, In p ps -> snd (st_quad_weights cf o (KDeg p) a b) = quad_weights cf p a b) /\
  (forall p t, In p ps -> snd (st_interp_matrix cf o t (KDeg p)) = interp_matrix cf t p) /\
  (forall qs d M, incl qs ps -> (snd (st_comp_diff cf o qs d) = Ok M <-> comp_diff cf qs d = Ok M)) /\
  (forall qs a b M, incl qs ps -> (snd (st_comp_quad cf o qs a b) = Ok M <-> comp_quad cf qs a b = Ok M)) /\
  (forall qs t, incl qs ps -> snd (st_comp_interp cf o t qs) = comp_interp cf t qs) /\
  (forall qs t d, incl qs ps -> snd (st_comp_interpD cf o t qs d) = comp_interpD cf t qs d).
Proof.
  intros ps Hps o.
  assert (Hinv : forall p, In p ps -> inv N cf p o).
  { intros p Hp. apply inv_history. intros c Hc. apply Hps; auto. }
  assert (Hinvs : forall qs, incl qs ps -> invs N cf qs o) by (intros qs Hq p Hp; apply Hinv, Hq; auto).
  repeat split; intros.
  - apply diff_result; auto.
  - apply quad_result; auto.
  - apply interp_result; auto.
  - apply (comp_diff_result N cf o qs d M); auto.
  - apply (comp_diff_result N cf o qs d M); auto.
  - apply (comp_quad_result N cf o qs a b M); auto.
  - apply (comp_quad_result N cf o qs a b M); auto.
  - apply comp_interp_result; auto.
  - apply comp_interpD_result; auto.
Qed.
Lemma custom_thm (N : num) (cf : ccfg N) os (h1 h2 : list (ccall N)) d k r :
  (forall c, In c h2 -> ~ resets k c) ->
  let o := run cf os (h1 ++ CCustom (d ++ [(k, r)]) :: h2) in
  let basis := get_lagrange_polynomials (cf_meth cf) r in
  (forall t od, snd (st_diff_matrix cf o k t od) =
     diff_matrix_of cf basis (match t with None => r | Some t => t end) od) /\
  (forall a b, snd (st_quad_weights cf o k a b) = quad_weights_of cf basis a b) /\
  (forall t, snd (st_interp_matrix cf o t k) = interp_matrix_of cf basis t).
Proof.
  intros H o basis.
  assert (Hk : key_inv N cf k r o).
  { unfold o, run. rewrite fold_left_app. cbn [fold_left]. apply kinv_history; auto.
    cbn [st_call]. apply custom_last. }
  unfold st_diff_matrix, st_quad_weights, st_interp_matrix.
  rewrite (basis_custom N cf o k r Hk). cbn [snd bind]. auto.
Qed.

Lemma cache_fresh (N : num) (cf : ccfg N) (os os' : list nat) (h : list (ccall N)) (ps : list nat) :
  (forall c p, In c h -> In p ps -> ~ overrides p c) ->
  let o := run cf os h in let new := fst (st_new cf os') in
  (forall p t d, In p ps -> snd (st_diff_matrix cf o (KDeg p) t d) = snd (st_diff_matrix cf new (KDeg p) t d)) /\
  (forall p a b, In p ps -> snd (st_quad_weights cf o (KDeg p) a b) = snd (st_quad_weights cf new (KDeg p) a b)) /\
  (forall p t, In p ps -> snd (st_interp_matrix cf o t (KDeg p)) = snd (st_interp_matrix cf new t (KDeg p))) /\
  (forall qs d M, incl qs ps -> (snd (st_comp_diff cf o qs d) = Ok M <-> snd (st_comp_diff cf new qs d) = Ok M)) /\
  (forall qs a b M, incl qs ps -> (snd (st_comp_quad cf o qs a b) = Ok M <-> snd (st_comp_quad cf new qs a b) = Ok M)) /\
  (forall qs t, incl qs ps -> snd (st_comp_interp cf o t qs) = snd (st_comp_interp cf new t qs)) /\
  (forall qs t d, incl qs ps -> snd (st_comp_interpD cf o t qs d) = snd (st_comp_interpD cf new t qs d)).
Proof.
  intros H o new.
  destruct (cache_thm N cf os h ps H) as (A1 & A2 & A3 & A4 & A5 & A6 & A7).
  destruct (cache_thm N cf os' [] ps) as (B1 & B2 & B3 & B4 & B5 & B6 & B7); [intros c p []|].
  change (run cf os' []) with new in *. fold o in A1, A2, A3, A4, A5, A6, A7.
  split; [intros; rewrite A1, B1; auto|]. split; [intros; rewrite A2, B2; auto|].
  split; [intros; rewrite A3, B3; auto|]. split; [intros; rewrite A4, B4; auto; tauto|].
  split; [intros; rewrite A5, B5; auto; tauto|]. split; [intros; rewrite A6, B6; auto|].
  intros; rewrite A7, B7; auto.
Qed.

Lemma row_owner orders row : orders <> [] -> (row < total_nodes orders)%nat ->
  (forall p, In p orders -> (1 <= p)%nat) ->
  exists k p i, nth_error orders k = Some p /\ (i <= p)%nat /\ (k = 0 \/ 1 <= i)%nat /\ row = (offset orders k + i)%nat.
Proof.
  intros Hne Hr _. destruct (owner_exists orders row Hne Hr) as (k & j & Hk & Hj & Hkj & E).
  exists k, (nth k orders 0%nat), j. split; [apply nth_error_nth'; auto|auto].
Qed.
Lemma seg_interp_exists (cf : ccfg Rnum) orders : cfg_ok cf -> (forall p, In p orders -> (1 <= p)%nat) ->
  exists rs, mapM (c_roots cf) orders = Ok rs /\
  forall ys k r, nth_error rs k = Some r -> exists c, seg_interp orders k r ys c.
Proof.
  intros Hcf Hp. destruct (seg_nodes_ok cf orders Hcf Hp) as (rs & Hs & Hl & _).
  exists rs. split; [apply Hs|]. intros ys k r Hr. destruct Hs as [_ Hn].
  destruct (nth_error orders k) as [p|] eqn:Ep.
  - destruct (Hn k p r Ep Hr) as (_ & _ & Hnd). apply interp_exists. exact Hnd.
  - apply nth_error_None in Ep. assert (k < length rs)%nat by (apply nth_error_Some; nred; congruence). nred. lia.
Qed.

(** Lobatto weights of the end point are positive *)
Lemma lobatto_w0_pos (t0 t1 : R) js : t0 < t1 -> NoDup (ends t0 t1 js) -> jacobi_roots (length js) 1 1 js ->
  0 < ell_int (ends t0 t1 js) t0 t1 0.
Proof.
  intros Ht Hnd Hj. pose (ss := map (scale1 t0 t1) js).
  destruct (poly_of_roots ss) as (q & Hlq & Hq).
  unfold ss in Hlq. rewrite map_length in Hlq.
  pose (c := @pmul Rnum [t1; -1] (@pmul Rnum q q)).
  assert (Hqn : q <> []) by (intros ->; discriminate).
  assert (Hqq : @length R (@pmul Rnum q q) = (2 * length js + 1)%nat).
  { rewrite length_pmul by auto. rewrite Hlq. lia. }
  assert (Hlc : @length R c = (2 * length js + 2)%nat).
  { unfold c. rewrite length_pmul; [|discriminate|].
    - rewrite Hqq. cbn [length]. lia.
    - intros E. rewrite E in Hqq. cbn in Hqq. lia. }
  assert (Hc : forall x, peval c x = (t1 - x) * (prod_roots ss x * prod_roots ss x)).
  { intros x. unfold c. rewrite !peval_pmul, !Hq. cbn [peval]. ring. }
  pose proof (lobatto_gauss t0 t1 js c Ht Hnd Hj ltac:(lia) ltac:(lia)) as HG.
  assert (Hpos : 0 < RInt (peval c) t0 t1).
  { rewrite (RInt_scale1 (peval c) t0 t1 Ht (continuous_peval c)).
    destruct (prod_roots_nonzero js) as (u & Hu & Hnz).
    assert (HP : 0 < ip (fun _ => 1) (fun u => peval c (scale1 t0 t1 u))).
    { apply (ip_pos (fun _ => 1)) with (x0 := u); auto.
      - intros x. apply continuous_const.
      - intros; lra.
      - intros x. apply (continuous_comp (scale1 t0 t1) (peval c)); [|apply continuous_peval].
        apply (ex_derive_continuous (scale1 t0 t1)). unfold scale1. auto_derive. auto.
      - intros x Hx. rewrite Hc. apply Rmult_le_pos; [unfold scale1; nra|apply Rle_0_sqr].
      - rewrite Hc. unfold ss. rewrite prod_roots_scale. apply Rmult_lt_0_compat; [unfold scale1; nra|].
        apply Rsqr_pos_lt. apply Rmult_integral_contrapositive; split; [|exact Hnz]. apply pow_nonzero. lra. }
    unfold ip in HP. apply Rmult_lt_0_compat; [lra|].
    rewrite (RInt_ext (fun u => peval c (scale1 t0 t1 u)) (fun x => 1 * peval c (scale1 t0 t1 x))); [exact HP|].
    intros; lra. }
  rewrite <- HG in Hpos. replace (length js + 2)%nat with (S (length js + 1)) in Hpos by lia.
  rewrite Rsum_S_l in Hpos.
  rewrite (Rsum_0 (length js + 1)) in Hpos.
  - assert (Hc0 : 0 <= peval c (nth 0 (ends t0 t1 js) 0)).
    { rewrite Hc. apply Rmult_le_pos; [cbn; unfold scale1; lra|apply Rle_0_sqr]. }
    destruct (Rle_or_lt (ell_int (ends t0 t1 js) t0 t1 0) 0); [nra|auto].
  - intros k Hk. replace (peval c _) with 0; [lra|]. symmetry. rewrite Hc.
    unfold ends. cbn [app map nth]. rewrite map_app.
    destruct (Nat.eq_dec k (length js)) as [->|Hne].
    + rewrite app_nth2; rewrite map_length; [|lia]. rewrite Nat.sub_diag. cbn. unfold scale1. lra.
    + rewrite app_nth1 by (rewrite map_length; lia).
      assert (Hz : forall l x, In x l -> prod_roots l x = 0).
      { induction l as [|a l IH]; intros x []; cbn; [subst; lra|rewrite IH by auto; lra]. }
      rewrite (Hz ss); [lra|]. apply nth_In. unfold ss. rewrite map_length. lia.
Qed.
Lemma lgl_first_weight cf p r : cfg_ok cf -> cf_scheme cf = "LGL"%string -> (1 <= p)%nat ->
  c_roots cf p = Ok r -> 0 < ell_int r (cf_tau0 cf) (cf_tau1 cf) 0.
Proof.
  intros Hcf Hs Hp. destruct (c_roots_good cf p Hcf Hp) as (r' & Er' & Hg). intros Er.
  assert (r' = r) by (nred; congruence). subst r'. pose proof (good_nodup _ _ _ _ Hg) as Hnd. clear Er'.
  destruct Hcf as [[_ _ _ Hlob _] _ Ht].
  revert Er. unfold c_roots, taus_fn. rewrite Hs. cbn [String.eqb Ascii.eqb Bool.eqb].
  unfold lgl_roots. destruct (Nat.ltb_spec 1 p).
  - intros E; inversion E as [E']; clear E.
    rewrite scale_roots_R in E'. specialize (Hlob (p - 1)%nat ltac:(lia)).
    set (js := l_j_roots (cf_lib cf) (p - 1) 1 1) in *.
    assert (Hlj : length js = (p - 1)%nat) by apply Hlob.
    subst r. apply (lobatto_w0_pos _ _ js); auto. nred. rewrite Hlj. exact Hlob.
  - destruct (Nat.eqb_spec p 1); [|lia]. intros E; inversion E as [E']; clear E.
    assert (Ee : r = ends (cf_tau0 cf) (cf_tau1 cf) []).
    { subst r. unfold ends, scale1. cbn. f_equal; [lra|]. f_equal. lra. }
    nred. rewrite E'. rewrite Ee in *. apply lobatto_w0_pos; auto.
    split; [reflexivity|]. split; [intros i j Hij; cbn in Hij; lia|]. split; [intros x []|].
    intros [|q0 q] Hq; [|cbn in Hq; lia]. cbn [peval prod_roots length].
    rewrite (RInt_ext _ (fun _ => 0)) by (intros; lra). rewrite RInt_const. apply Rmult_0_r.
Qed.
Lemma comp_quad_lgl_wrong cf orders : cfg_ok cf ->
  cf_scheme cf = "LGL"%string -> (2 <= length orders)%nat -> (forall p, In p orders -> (1 <= p)%nat) ->
  exists rs W, mapM (c_roots cf) orders = Ok rs /\ comp_quad cf orders (cf_tau0 cf) (cf_tau1 cf) = Ok W /\
  let ys := fun _ : nat => 1 in let cs := fun _ : nat => [1] in
  (forall k r, nth_error rs k = Some r -> seg_interp orders k r ys (cs k)) /\
  Rsum (total_nodes orders) (fun j => nth j W 0 * ys j) <
  Rsum (length orders) (fun k => RInt (peval (cs k)) (cf_tau0 cf) (cf_tau1 cf)).
Proof.
  intros Hcf Hs Hl2 Hp.
  destruct (seg_nodes_ok cf orders Hcf Hp) as (rs & Hsn & Hl & Hg).
  assert (Hne : orders <> []) by (intros ->; cbn in Hl2; lia).
  destruct (comp_quad_ok cf orders rs (cf_tau0 cf) (cf_tau1 cf) Hsn Hne (lo_integ _ (co_lib _ Hcf))) as (W & EW & HlW & HW).
  exists rs, W. split; [apply Hsn|]. split; [exact EW|]. cbv zeta.
  assert (Hint : forall k r, nth_error rs k = Some r -> seg_interp orders k r (fun _ => 1) [1]).
  { intros k r Hr. destruct (nth_error orders k) as [p|] eqn:Ep.
    - destruct (Hg k p r Ep Hr) as (Hlr & _). split; [cbn; nred; lia|]. intros j _. cbn. lra.
    - apply nth_error_None in Ep. assert (k < length rs)%nat by (apply nth_error_Some; nred; congruence). nred. lia. }
  split; [exact Hint|]. rewrite (HW (fun _ => 1) (fun _ => [1]) Hint).
  assert (0 < Rsum (length orders - 1) (fun k => ell_int (nth (S k) rs []) (cf_tau0 cf) (cf_tau1 cf) 0 * 1)); [|lra].
  assert (Hpos : forall n, (n < length orders)%nat ->
    0 <= Rsum n (fun k => ell_int (nth (S k) rs []) (cf_tau0 cf) (cf_tau1 cf) 0 * 1) /\
    ((1 <= n)%nat -> 0 < Rsum n (fun k => ell_int (nth (S k) rs []) (cf_tau0 cf) (cf_tau1 cf) 0 * 1))).
  { induction n as [|n IH]; intros Hn; [cbn; split; [lra|lia]|].
    destruct IH as [IH _]; [lia|]. cbn [Rsum].
    assert (0 < ell_int (nth (S n) rs []) (cf_tau0 cf) (cf_tau1 cf) 0); [|split; intros; lra].
    destruct (nth_error rs (S n)) as [r|] eqn:Er.
    2:{ apply nth_error_None in Er. nred. lia. }
    destruct (nth_error orders (S n)) as [p|] eqn:Ep.
    2:{ apply nth_error_None in Ep. lia. }
    destruct Hsn as [_ Hsn]. destruct (Hsn (S n) p r Ep Er) as (Ec & _).
    rewrite (nth_error_nth rs (S n) [] Er). apply (lgl_first_weight cf p r); auto.
    apply Hp. eapply nth_error_In; eauto. }
  apply Hpos; lia.
Qed.
