(** Lower bounds on the objective of every feasible point (proofs of C61). *)
From Coq Require Import Reals Lia Lra Psatz Bool Arith String.
From Coquelicot Require Import Coquelicot.
From Coq Require Import List.
From Verif Require Import Num PyList Mat Poly Roots Colloc Ocp Transcribe Spec SpecOcp SpecHadapt SpecBalance SpecDual NumR ListR PolyR CollocR CompR CollocThm MeshR BlockR DiscR NlpR OcpR NlpThm CostR BalanceR ExactR WeightR ConvexR.
Import ListNotations.
Open Scope R_scope.

Lemma length_pder1 (c : list R) : (@length R (pder c) <= length c - 1)%nat.
Proof.
  destruct c as [|a c]; [cbn; lia|]. cbn [Poly.pder]. cbn [length]. assert (G : forall k (l : list R), @length R (@pder_from Rnum k l) = length l).
  { intros k l. revert k. induction l as [|b l IH]; intros k; cbn; [reflexivity|]. now rewrite IH. }
  nred. rewrite G. lia.
Qed.
Lemma poly_prod (a b : list R) : exists c, (length c <= length a + length b - 1)%nat /\ forall x, peval c x = peval a x * peval b x.
Proof.
  destruct a as [|a0 a]; [exists []; split; [cbn; lia|intros x; cbn; ring]|]. destruct b as [|b0 b]; [exists []; split; [cbn; lia|intros x; cbn; ring]|].
  exists (@pmul Rnum (a0 :: a) (b0 :: b)). split; [|intros x; apply peval_pmul]. rewrite length_pmul by discriminate. lia.
Qed.
Lemma poly_sum n (c : nat -> list R) m : (forall s, (s < n)%nat -> (length (c s) <= m)%nat) -> exists g, (length g <= m)%nat /\ forall x, peval g x = Rsum n (fun s => peval (c s) x).
Proof. intros H. destruct (comb_poly n (fun _ => 1) c m H) as (g & L & E). exists g. split; [exact L|]. intros x. rewrite E. apply Rsum_ext. intros. ring. Qed.

Section Phase.
Variables (mp : mpo Rnum) (npath nterm : nat -> option nat) (rs : list (list R)) (w : nat -> R) (ph : nat) (y : utraj) (V : vfun) (W : nat -> list R).
Let o := mp_ocp mp.
Let cf := mp_cf mp.
Let orders := mp_orders mp.
Let t0 := cf_tau0 cf.
Let t1 := cf_tau1 cf.
Hypothesis Hmp : mpo_ok mp.
Hypothesis Hok : ocp_ok o npath nterm.
Hypothesis Hph : (ph < o_nph o)%nat.
Hypothesis Hrs : length rs = length orders.
Hypothesis Hgood : forall k q r, nth_error orders k = Some q -> nth_error rs k = Some r -> good_nodes t0 t1 q r.
Hypothesis Hw : forall k, (k < length orders)%nat -> 0 < w k.
Hypothesis Hsum : Rsum (length orders) w = 1.
Hypothesis Hb : bounds_ok mp ph y.
Hypothesis Hdyn : dynamics_ok mp rs w ph y.
Hypothesis Hpath : path_ok mp rs w ph y.
Hypothesis Htime : y_t0 y <= y_tf y.
Hypothesis Hslow : slower o ph (y_t0 y) (y_tf y) V.
(** the weights *)
Hypothesis HWpos : forall k j, (k < length orders)%nat -> 0 <= nth j (W k) 0.
Hypothesis HWex : forall k q, nth_error orders k = Some q -> exact_to t0 t1 q (nth k rs []) (W k) (2 * q - 1).
Hypothesis HW0 : forall k, (1 <= k < length orders)%nat -> nth 0 (W k) 0 = 0.
Hypothesis Hlc : forall q, In q orders -> (length (v_c V) <= 2 * q)%nat.
Hypothesis Hla : forall q s, In q orders -> (s < o_nx o)%nat -> (length (v_a V s) <= q)%nat.
Let T k x := seg_time cf w y k x.

Lemma node_lt i k j : owned orders i k j -> (i < total_nodes orders)%nat.
Proof. intros H. exact (owned_lt _ _ _ _ H). Qed.
Lemma d_range k x : (k < length orders)%nat -> t0 <= x <= t1 -> y_t0 y <= T k x <= y_tf y.
Proof.
  intros Hk Hx. pose proof (co_taus _ (mo_cfg _ Hmp)) as Ht. fold cf in Ht. fold t0 t1 in Ht. unfold T, seg_time, seg_start.
  assert (A : 0 <= Rsum k w) by (apply Rsum_nonneg; intros i Hi; apply Rlt_le, Hw; lia).
  assert (B : Rsum k w + w k <= 1).
  { rewrite <- Hsum. change (Rsum k w + w k) with (Rsum (S k) w). apply Rsum_mono; [lia|]. intros i Hi. apply Rlt_le, Hw. exact Hi. }
  assert (C : seg_h cf w y k * (x - t0) = (y_tf y - y_t0 y) * (w k * ((x - t0) / (t1 - t0)))).
  { unfold seg_h. fold t0 t1. field. lra. }
  fold t0. rewrite C. assert (D : 0 <= (x - t0) / (t1 - t0) <= 1).
  { split; [apply Rmult_le_pos; [lra|apply Rlt_le, Rinv_0_lt_compat; lra]|]. apply Rmult_le_reg_r with (t1 - t0); [lra|]. unfold Rdiv. rewrite Rmult_assoc, Rinv_l by lra. lra. }
  pose proof (Hw k Hk) as E. assert (F : 0 <= w k * ((x - t0) / (t1 - t0)) <= w k) by (split; [apply Rmult_le_pos; lra|nra]).
  split; nra.
Qed.
(** the rate at an owned node *)
Lemma rate_le i k j : owned orders i k j -> let t := T k (nth j (nth k rs []) 0) in
  Derive (peval (v_c V)) t + Rsum (o_nx o) (fun s => Derive (peval (v_a V s)) t * y_x y i s + peval (v_a V s) t * nth s (dyn_val o ph y i t) 0) <= run_val o ph y i t.
Proof.
  intros Ho t. pose proof (node_lt i k j Ho) as Hi. pose proof (arg_of mp y) as Ha. fold o in Ha.
  assert (Lx : length (vec (o_nx o) (y_x y i)) = o_nx o) by (unfold vec; now rewrite map_length, seq_length).
  assert (Lu : length (vec (o_nu o) (y_u y i)) = o_nu o) by (unfold vec; now rewrite map_length, seq_length).
  assert (Nx : forall s, (s < o_nx o)%nat -> nth s (vec (o_nx o) (y_x y i)) 0 = y_x y i s) by (intros s Hs; apply nth_vec; exact Hs).
  assert (Nu : forall c, (c < o_nu o)%nat -> nth c (vec (o_nu o) (y_u y i)) 0 = y_u y i c) by (intros s Hs; apply nth_vec; exact Hs).
  pose proof Ho as (q & Eq & Hj & _ & _). pose proof (MeshR.nth_error_lt _ _ _ Eq) as Hk.
  assert (Htt : y_t0 y <= t <= y_tf y).
  { apply d_range; [exact Hk|]. assert (Er : nth_error rs k = Some (nth k rs [])) by (apply nth_error_nth'; lia). destruct (Hgood k q _ Eq Er) as (L & I & A & B). split.
    - destruct j as [|j]; [rewrite A; lra|]. rewrite <- A. apply Rlt_le, I. nred. lia.
    - destruct (Nat.eq_dec j q) as [->|]; [rewrite B; lra|]. rewrite <- B. apply Rlt_le, I. nred. lia. }
  pose proof (sh_dyn _ (ok_shapes _ _ _ Hok)) as L1. pose proof (sh_run _ (ok_shapes _ _ _ Hok)) as L2.
  destruct (nth_error (o_dyn o) ph) as [f|] eqn:Ef; [|apply nth_error_None in Ef; nred; lia].
  destruct (nth_error (o_run o) ph) as [g|] eqn:Eg; [|apply nth_error_None in Eg; nred; lia].
  destruct (ok_dyn _ _ _ Hok ph f _ _ t _ Ef Lx Lu Ha) as (d & Ed & _). destruct (ok_run _ _ _ Hok ph g _ _ t _ Eg Lx Lu Ha) as (l & El).
  destruct Hb as (Bx & Bu & _). fold orders o in Bx, Bu.
  assert (Ax : allowed_x o ph (vec (o_nx o) (y_x y i))).
  { destruct (Nat.eqb ph 0 && Nat.eqb i 0) eqn:E.
    - right. split; [apply andb_true_iff in E; destruct E as [E _]; apply Nat.eqb_eq in E; exact E|]. intros s Hs. rewrite Nx by exact Hs. specialize (Bx i s Hi Hs). rewrite E in Bx. exact Bx.
    - left. intros s Hs. rewrite Nx by exact Hs. specialize (Bx i s Hi Hs). rewrite E in Bx. exact Bx. }
  assert (Au : allowed_u o ph (vec (o_nu o) (y_u y i))) by (intros c Hc; rewrite Nu by exact Hc; exact (Bu i c Hi Hc)).
  assert (Ap : allowed_path o ph (vec (o_nx o) (y_x y i)) (vec (o_nu o) (y_u y i)) t (a_of o y)).
  { intros kf cs c Ek Ec Hin. apply (Hpath i k j c Ho). fold cf o. fold (T k (nth j (nth k rs []) 0)). fold t. unfold path_val. nred. rewrite Ek, Ec. exact Hin. }
  pose proof (Hslow f g _ _ t _ d l Ef Eg Lx Lu Ha Htt Ax Au Ap Ed El) as HH.
  assert (E1 : dyn_val o ph y i t = d) by (unfold dyn_val; nred; rewrite Ef, Ed; reflexivity). assert (E2 : run_val o ph y i t = l) by (unfold run_val; nred; rewrite Eg, El; reflexivity).
  nred. rewrite E1, E2. eapply Rle_trans; [|exact HH]. right. f_equal. apply Rsum_ext. intros s Hs. rewrite Nx by exact Hs. reflexivity.
Qed.
Lemma T_derive k x : is_derive (T k) x (seg_h cf w y k).
Proof. unfold T, seg_time. auto_derive; [exact I|ring]. Qed.
Lemma comp_derive X k x : is_derive (fun x => peval X (T k x)) x (seg_h cf w y k * Derive (peval X) (T k x)).
Proof.
  evar_last; [apply (is_derive_comp (peval X) (T k)); [apply Derive_correct, ex_derive_peval|apply T_derive]|]. unfold scal; cbn; unfold mult; cbn. ring.
Qed.
Lemma seg_le k q c : nth_error orders k = Some q -> (forall s, (s < o_nx o)%nat -> seg_interp orders k (nth k rs []) (fun i => y_x y i s) (c s)) ->
  value (o_nx o) V (T k t1) (y_x y (offset orders (S k))) - value (o_nx o) V (T k t0) (y_x y (offset orders k)) <= seg_cost mp rs w ph y W k.
Proof.
  intros Eq Hc. pose proof (MeshR.nth_error_lt _ _ _ Eq) as Hk. pose proof (nth_error_In _ _ Eq) as Hin.
  assert (Er : nth_error rs k = Some (nth k rs [])) by (apply nth_error_nth'; lia). pose proof (Hgood k q _ Eq Er) as (Lr & _ & R0 & R1).
  assert (HT : forall x, T k x = (seg_start w y k - seg_h cf w y k * t0) + seg_h cf w y k * x) by (intros x; unfold T, seg_time; fold t0; ring).
  assert (HG : exists G, (length G <= 2 * q)%nat /\ forall x, peval G x = peval (v_c V) (T k x) + Rsum (o_nx o) (fun s => peval (v_a V s) (T k x) * peval (c s) x)).
  { destruct (poly_affine (v_c V) (seg_start w y k - seg_h cf w y k * t0) (seg_h cf w y k)) as (g0 & Lg0 & Eg0).
    destruct (finite_choice (fun s d => (length d <= 2 * q)%nat /\ forall x, peval d x = peval (v_a V s) (T k x) * peval (c s) x) [] (o_nx o)) as [d Hd].
    { intros s Hs. destruct (poly_affine (v_a V s) (seg_start w y k - seg_h cf w y k * t0) (seg_h cf w y k)) as (a & La & Ea). destruct (poly_prod a (c s)) as (d & Ld & Ed).
      exists d. split; [|intros x; rewrite Ed, Ea, HT; reflexivity]. pose proof (proj1 (Hc s Hs)) as Lc. specialize (Hla q s Hin Hs). nred. lia. }
    destruct (poly_sum (o_nx o) d (2 * q)) as (g1 & Lg1 & Eg1); [intros s Hs; apply Hd; exact Hs|].
    exists (@padd Rnum g0 g1). split; [rewrite length_padd; specialize (Hlc q Hin); lia|]. intros x. rewrite peval_padd, Eg0, Eg1, HT. f_equal. apply Rsum_ext. intros s Hs. rewrite (proj2 (Hd s Hs)), HT. reflexivity. }
  destruct HG as (G & LG & EG).
  assert (DG : forall x, peval (@pder Rnum G) x = seg_h cf w y k * Derive (peval (v_c V)) (T k x) +
     Rsum (o_nx o) (fun s => seg_h cf w y k * Derive (peval (v_a V s)) (T k x) * peval (c s) x + peval (v_a V s) (T k x) * Derive (peval (c s)) x)).
  { intros x. apply (is_derive_unique2 (peval G) x); [apply is_derive_peval|].
    apply is_derive_ext with (f := fun x => peval (v_c V) (T k x) + Rsum (o_nx o) (fun s => peval (v_a V s) (T k x) * peval (c s) x)); [intros t; symmetry; apply EG|].
    apply (is_derive_plus (fun x => peval (v_c V) (T k x)) (fun x => Rsum (o_nx o) (fun s => peval (v_a V s) (T k x) * peval (c s) x))); [apply comp_derive|].
    apply (is_derive_Rsum (o_nx o) (fun s x => peval (v_a V s) (T k x) * peval (c s) x)). intros s Hs.
    apply (is_derive_mult (fun x => peval (v_a V s) (T k x)) (peval (c s))); [apply comp_derive|apply Derive_correct, ex_derive_peval|intros; apply Rmult_comm]. }
  assert (Ec : forall s j, (s < o_nx o)%nat -> (j <= q)%nat -> peval (c s) (nth j (nth k rs []) 0) = y_x y (offset orders k + j) s).
  { intros s j Hs Hj. apply (proj2 (Hc s Hs) j). nred. lia. }
  (* the difference is the integral of the derivative *)
  assert (EI : value (o_nx o) V (T k t1) (y_x y (offset orders (S k))) - value (o_nx o) V (T k t0) (y_x y (offset orders k)) = RInt (peval (@pder Rnum G)) t0 t1).
  { transitivity (peval G t1 - peval G t0).
    - rewrite !EG. unfold value. rewrite (offset_S _ _ _ Eq). f_equal; f_equal; apply Rsum_ext; intros s Hs.
      + pose proof (Ec s q Hs (le_n q)) as X. rewrite R1 in X. rewrite X. reflexivity.
      + pose proof (Ec s 0%nat Hs ltac:(lia)) as X. rewrite R0, Nat.add_0_r in X. rewrite X. reflexivity.
    - symmetry. apply is_RInt_unique. apply (is_RInt_derive (peval G)); [intros x _; apply is_derive_peval|intros x _; apply continuous_peval]. }
  rewrite EI. rewrite <- (HWex k q Eq (@pder Rnum G)) by (pose proof (length_pder1 G); nred; lia).
  unfold seg_cost. fold cf orders. rewrite (nth_error_nth _ _ 0%nat Eq). rewrite <- Rsum_scal. apply Rsum_le. intros j Hj.
  unfold omega. destruct (Nat.leb 1 k && Nat.eqb j 0) eqn:E.
  - apply andb_true_iff in E. destruct E as [E1 E2]. apply Nat.leb_le in E1. apply Nat.eqb_eq in E2. subst j. nred. rewrite (HW0 k) by lia. right. ring.
  - assert (Ho : owned orders (offset orders k + j) k j).
    { exists q. split; [exact Eq|]. split; [lia|]. split; [|reflexivity]. apply andb_false_iff in E. destruct E as [E|E]; [apply Nat.leb_gt in E; left; lia|apply Nat.eqb_neq in E; right; lia]. }
    pose proof (rate_le _ k j Ho) as RL. cbv zeta in RL.
    assert (Hh : 0 <= seg_h cf w y k).
    { unfold seg_h. pose proof (co_taus _ (mo_cfg _ Hmp)) as Ht. fold cf in Ht. pose proof (Hw k Hk). apply Rmult_le_pos; [apply Rmult_le_pos; lra|apply Rlt_le, Rinv_0_lt_compat; lra]. }
    assert (D : peval (@pder Rnum G) (nth j (nth k rs []) 0) <= seg_h cf w y k * run_at mp rs w ph y k j).
    { rewrite DG. unfold run_at. fold cf orders o. fold (T k (nth j (nth k rs []) 0)). set (t := T k (nth j (nth k rs []) 0)) in *.
      apply Rle_trans with (seg_h cf w y k * (Derive (peval (v_c V)) t + Rsum (o_nx o) (fun s => Derive (peval (v_a V s)) t * y_x y (offset orders k + j) s + peval (v_a V s) t * nth s (dyn_val o ph y (offset orders k + j) t) 0))).
      - right. rewrite Rmult_plus_distr_l, <- Rsum_scal. f_equal. apply Rsum_ext. intros s Hs. rewrite (Ec s j Hs ltac:(lia)).
        pose proof (Hdyn _ k j s (c s) Ho Hs (Hc s Hs)) as D. apply derive_iff in D. rewrite D. fold cf o. fold (T k (nth j (nth k rs []) 0)). fold t. ring.
      - apply Rmult_le_compat_l; [exact Hh|exact RL]. }
    pose proof (HWpos k j Hk) as P. nred. nra.
Qed.
Lemma phase_le C B : cost_interp mp rs w ph y C -> start_basis mp rs B -> (forall k q, nth_error orders k = Some q -> exact_to t0 t1 q (nth k rs []) (W k) (S q)) ->
  bound mp ph y V <= phase_cost mp w ph y C - start_cost mp rs w ph y B.
Proof.
  intros HC HB HWs. assert (Hlo : (1 <= length orders)%nat) by (unfold orders; rewrite (mo_len _ Hmp); exact (mo_nseg _ Hmp)).
  rewrite (cost_nodes mp rs w ph y W Hgood Hrs HWs Hlo C B HC HB). unfold bound. fold o orders. apply Rplus_le_compat_l.
  set (g := fun k => value (o_nx o) V (T k t0) (y_x y (offset orders k))).
  assert (Ht := co_taus _ (mo_cfg _ Hmp)). fold cf in Ht. fold t0 t1 in Ht.
  assert (E0 : T 0 t0 = y_t0 y) by (unfold T, seg_time, seg_start; cbn [Rsum]; fold t0; ring).
  assert (EK : T (length orders) t0 = y_tf y) by (unfold T, seg_time, seg_start; rewrite Hsum; fold t0; ring).
  assert (O0 : offset orders 0 = 0%nat) by (unfold offset; destruct orders; reflexivity).
  assert (OK : offset orders (length orders) = (total_nodes orders - 1)%nat) by (unfold total_nodes; lia).
  rewrite <- E0, <- EK, <- OK. replace (y_x y 0) with (y_x y (offset orders 0)) by (rewrite O0; reflexivity).
  change (g (length orders) - g 0%nat <= Rsum (length orders) (seg_cost mp rs w ph y W)).
  rewrite <- Rsum_tele. apply Rsum_le. intros k Hk. pose proof (nth_error_nth' orders 0%nat Hk) as Eq.
  assert (Hnd : NoDup (nth k rs [])) by (apply (good_nodup t0 t1 (nth k orders 0%nat)); apply (Hgood k _ _ Eq); apply nth_error_nth'; lia).
  destruct (finite_choice (fun s c => seg_interp orders k (nth k rs []) (fun i => y_x y i s) c) [] (o_nx o)) as [c Hc]; [intros s _; apply interp_exists; exact Hnd|].
  pose proof (seg_le k _ c Eq Hc) as SL. unfold g. replace (T (S k) t0) with (T k t1); [exact SL|]. unfold T, seg_time, seg_start, seg_h. fold t0 t1. cbn [Rsum]. field. lra.
Qed.
End Phase.

Section Program.
Variables (mp : mpo Rnum) (npath nterm : nat -> option nat) (z p : list R) (V : nat -> vfun).
Let o := mp_ocp mp.
Let cf := mp_cf mp.
Let orders := mp_orders mp.
Hypothesis Hin : input_ok mp npath nterm z p.
Hypothesis Hp : widths_ok (mp_nseg mp) (o_nph o) p.
Hypothesis Hs : cf_scheme cf = "LGR"%string \/ cf_scheme cf = "LGL"%string /\ length orders = 1%nat.
Hypothesis Hq : forall q, In q orders -> (2 <= q)%nat.
Hypothesis Hlc : forall ph q, (ph < o_nph o)%nat -> In q orders -> (length (v_c (V ph)) <= 2 * q)%nat.
Hypothesis Hla : forall ph q s, (ph < o_nph o)%nat -> In q orders -> (s < o_nx o)%nat -> (length (v_a (V ph) s) <= q)%nat.

Theorem lower_thm : exists n, nlp_at mp z p = Ok n /\
  (feasible n -> (forall ph, (ph < o_nph o)%nat -> y_t0 (user_traj mp z ph) <= y_tf (user_traj mp z ph)) ->
   (forall ph, (ph < o_nph o)%nat -> slower o ph (y_t0 (user_traj mp z ph)) (y_tf (user_traj mp z ph)) (V ph)) ->
   Rsum (o_nph o) (fun ph => bound mp ph (user_traj mp z ph) (V ph)) <= n_f n).
Proof.
  pose proof Hin as [Hmp Hok Hsc Hz Hlp].
  destruct (nlp_at_ok mp Hmp npath nterm Hok Hsc z p Hz Hlp) as (rs & n & Er & En & Hrs & Hg & _ & _ & _ & _ & Hb & Hsat & Hf).
  fold o in Hb, Hsat, Hf. fold orders cf in Hg. exists n. split; [exact En|]. intros [F1 F2] Ht HV. pose proof (proj1 Hb F1) as B. destruct (proj1 Hsat F2) as [P _].
  destruct (cost_polys_exist mp npath nterm z p Hin rs Er) as (C & Bz & HC & HB). fold o in HC.
  assert (HWs : exists W, forall k, (k < length orders)%nat -> exact_to (cf_tau0 cf) (cf_tau1 cf) (nth k orders 0%nat) (nth k rs []) (W k) (2 * nth k orders 0%nat - 1) /\
     (forall j, 0 <= nth j (W k) 0) /\ ((1 <= k)%nat -> nth 0 (W k) 0 = 0)).
  { apply (finite_choice (fun k w => exact_to (cf_tau0 cf) (cf_tau1 cf) (nth k orders 0%nat) (nth k rs []) w (2 * nth k orders 0%nat - 1) /\ (forall j, 0 <= nth j w 0) /\ ((1 <= k)%nat -> nth 0 w 0 = 0)) []).
    intros k Hk. pose proof (nth_error_nth' orders 0%nat Hk) as Eq. destruct (mapM_inv _ _ _ Er) as [_ HI]. destruct (HI k _ Eq) as (r & E1 & E2). rewrite (nth_error_nth _ _ _ E1).
    pose proof (Hq _ (nth_In _ 0%nat Hk)) as H2. set (q := nth k orders 0%nat) in *. pose proof (mo_cfg _ Hmp) as Hcf. fold cf in Hcf.
    assert (Hnn : forall w, quad_weights cf q (cf_tau0 cf) (cf_tau1 cf) = Ok w -> forall j, 0 <= nth j w 0).
    { intros w Ew. exact (weights_nonneg_ok mp Hmp q w (nth_In _ 0%nat Hk) Ew). }
    destruct Hs as [Hs'|[Hs' H1]].
    - destruct (lgr_weights cf q Hcf Hs' H2) as (r' & w & Er' & Ew & W0 & WX). assert (r' = r) as -> by (pose proof (eq_trans (eq_sym Er') E2) as X; injection X as X; exact X).
      exists w. split; [exact WX|]. split; [exact (Hnn w Ew)|]. intros _. exact W0.
    - destruct (lgl_weights cf q Hcf Hs' H2) as (r' & w & Er' & Ew & WX). assert (r' = r) as -> by (pose proof (eq_trans (eq_sym Er') E2) as X; injection X as X; exact X).
      exists w. split; [intros c Hc; apply WX; lia|]. split; [exact (Hnn w Ew)|]. intros Hk1. lia. }
  destruct HWs as (W & HWs).
  assert (HWX : forall k q, nth_error orders k = Some q -> exact_to (cf_tau0 cf) (cf_tau1 cf) q (nth k rs []) (W k) (2 * q - 1)).
  { intros k q Eq. pose proof (MeshR.nth_error_lt _ _ _ Eq) as Hk. destruct (HWs k Hk) as [X _]. rewrite (nth_error_nth _ _ _ Eq) in X. exact X. }
  nred. rewrite (Hf C Bz HC HB). apply Rsum_le. intros ph Hph. destruct (P ph Hph) as (PD & PP & _).
  destruct (part_widths mp p Hmp Hp ph Hph) as [W1 W2].
  apply (phase_le mp npath nterm rs (width mp p ph) ph (user_traj mp z ph) (V ph) W Hmp Hok Hph Hrs Hg W1 W2 (B ph Hph) PD PP (Ht ph Hph) (HV ph Hph)).
  - intros k j Hk. apply (HWs k Hk).
  - exact HWX.
  - intros k [Hk1 Hk]. apply (HWs k Hk). exact Hk1.
  - intros q Hi. exact (Hlc ph q Hph Hi).
  - intros q s Hi Hsx. exact (Hla ph q s Hph Hi Hsx).
  - exact (HC ph Hph).
  - exact HB.
  - intros k q Eq c Hc. apply (HWX k q Eq). pose proof (Hq q (nth_error_In _ _ Eq)). lia.
Qed.
End Program.
