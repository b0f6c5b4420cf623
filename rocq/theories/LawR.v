(** Linear laws at the points that meet the constraints (proofs of C82). *)
From Coq Require Import Reals Lia Lra Bool Arith String.
From Coquelicot Require Import Coquelicot.
From Coq Require Import List.
From Verif Require Import Num PyList Mat Poly Roots Colloc Ocp Transcribe Spec SpecOcp SpecHadapt SpecLaw NumR ListR PolyR CollocR CompR CollocThm MeshR BlockR DiscR NlpR OcpR NlpThm CostR BalanceR ScaleR ConvexR TransR WeightR ExactR UniqueR DualR.
Import ListNotations.
Open Scope R_scope.

Section Phase.
Variables (mp : mpo Rnum) (npath nterm : nat -> option nat) (rs : list (list R)) (w : nat -> R) (ph : nat) (y : utraj) (alpha : nat -> R) (beta : R) (D : list R -> list R -> Prop).
Let o := mp_ocp mp.
Let cf := mp_cf mp.
Let orders := mp_orders mp.
Let t0 := cf_tau0 cf.
Let t1 := cf_tau1 cf.
Hypothesis Hmp : mpo_ok mp.
Hypothesis Hok : ocp_ok o npath nterm.
Hypothesis Hph : (ph < o_nph o)%nat.
Hypothesis Hrs : length rs = length orders.
Hypothesis Hgood : forall k q r, nth_error orders k = Some q -> nth_error rs k = Some r -> good_nodes t0 t1 q r.
Hypothesis Hdyn : dynamics_ok mp rs w ph y.
Hypothesis HD : nodes_in mp y D.
Let amt i := amount (o_nx o) alpha (y_x y i).
Let T k x := seg_time cf w y k x.

Lemma law_nodes k q : nth_error orders k = Some q -> good_nodes t0 t1 q (nth k rs []).
Proof. intros E. apply (Hgood k q _ E). apply nth_error_nth'. rewrite Hrs. exact (MeshR.nth_error_lt _ _ _ E). Qed.
Lemma law_rate rel i k j : law rel o ph alpha beta D -> owned orders i k j -> exists r,
  rel r beta /\ forall c, (forall s, (s < o_nx o)%nat -> seg_interp orders k (nth k rs []) (fun i => y_x y i s) (c s)) ->
    Rsum (o_nx o) (fun s => alpha s * Derive (peval (c s)) (nth j (nth k rs []) 0)) = seg_h cf w y k * r.
Proof.
  intros HL Ho. set (t := T k (nth j (nth k rs []) 0)). pose proof (arg_of mp y) as Ha. fold o in Ha.
  assert (Hi : (i < total_nodes orders)%nat).
  { destruct Ho as (q & Eq & Hj & _ & ->). pose proof (MeshR.nth_error_lt _ _ _ Eq) as Hk. pose proof (offset_S _ _ _ Eq) as E. pose proof (offset_mono orders (S k) (length orders) ltac:(lia)) as M. unfold total_nodes. lia. }
  destruct (nth_error (o_dyn o) ph) as [f|] eqn:Ef; [|apply nth_error_None in Ef; rewrite (sh_dyn _ (ok_shapes _ _ _ Hok)) in Ef; lia].
  assert (Lx : length (vec (o_nx o) (y_x y i)) = o_nx o) by (unfold vec; rewrite map_length, seq_length; reflexivity).
  assert (Lu : length (vec (o_nu o) (y_u y i)) = o_nu o) by (unfold vec; rewrite map_length, seq_length; reflexivity).
  destruct (ok_dyn _ _ _ Hok ph f _ _ t _ Ef Lx Lu Ha) as (d & Ed & _).
  pose proof (HL f _ _ t _ d Ef Lx Lu Ha Ed (HD i Hi)) as HR.
  exists (Rsum (o_nx o) (fun s => alpha s * nth s d 0)). split; [exact HR|]. intros c Hc. rewrite <- Rsum_scal. apply Rsum_ext. intros s Hs.
  pose proof (Hdyn i k j s (c s) Ho Hs (Hc s Hs)) as X. apply is_derive_unique in X. rewrite X. fold o cf.
  assert (Ev : dyn_val o ph y i (seg_time cf w y k (nth j (nth k rs []) 0)) = d).
  { fold (T k (nth j (nth k rs []) 0)). fold t. unfold dyn_val. nred. rewrite Ef, Ed. reflexivity. }
  nred. rewrite Ev. ring.
Qed.
Lemma T_next k : T k t1 = T (S k) t0.
Proof. assert (Ht := co_taus _ (mo_cfg _ Hmp)). fold cf t0 t1 in Ht. unfold T, seg_time, seg_start, seg_h. fold t0 t1. cbn [Rsum]. field. lra. Qed.
Lemma ends c k q : nth_error orders k = Some q -> (forall s, (s < o_nx o)%nat -> seg_interp orders k (nth k rs []) (fun i => y_x y i s) (c s)) ->
  forall j, (j <= q)%nat -> Rsum (o_nx o) (fun s => alpha s * peval (c s) (nth j (nth k rs []) 0)) = amt (offset orders k + j).
Proof.
  intros Eq Hc j Hj. destruct (law_nodes k q Eq) as (L & _). unfold amt, amount. apply Rsum_ext. intros s Hs. rewrite (proj2 (Hc s Hs) j) by (nred; lia). reflexivity.
Qed.
(** on a segment, with the same rate at all nodes but the first *)
Lemma law_seg c k q : law eq o ph alpha beta D -> nth_error orders k = Some q -> (1 <= q)%nat ->
  (forall s, (s < o_nx o)%nat -> seg_interp orders k (nth k rs []) (fun i => y_x y i s) (c s)) ->
  forall tau, Rsum (o_nx o) (fun s => alpha s * peval (c s) tau) = amt (offset orders k) + beta * (T k tau - T k t0).
Proof.
  intros HL Eq Hq Hc tau. pose proof (law_nodes k q Eq) as Hg. pose proof Hg as (L & _ & R0 & R1). pose proof (good_nodup _ _ _ _ Hg) as Hnd.
  destruct (comb_poly (o_nx o) alpha c (S q)) as (g & Lg & Eg); [intros s Hs; pose proof (proj1 (Hc s Hs)); nred; lia|].
  set (h := seg_h cf w y k). set (A := amt (offset orders k)).
  rewrite <- Eg. rewrite (same_rates (nth k rs []) g [A - beta * h * t0; beta * h]); [| |nred; lia|nred; lia|cbn [length]; nred; lia| |].
  - cbn [peval]. unfold T, seg_time. fold h t0. nred. ring.
  - exact Hnd.
  - intros j Hj. assert (Ho : owned orders (offset orders k + j) k j) by (exists q; repeat split; [exact Eq|nred; lia|right; lia]).
    destruct (law_rate eq _ k j HL Ho) as (r & -> & HR). specialize (HR c Hc).
    transitivity (h * beta); [unfold h; rewrite <- HR|].
    + apply is_derive_unique. apply is_derive_ext with (f := fun x => Rsum (o_nx o) (fun s => alpha s * peval (c s) x)); [intros t; symmetry; apply Eg|].
      apply (is_derive_Rsum (o_nx o) (fun s x => alpha s * peval (c s) x)). intros s Hs. apply is_derive_scal. apply Derive_correct, ex_derive_peval.
    + symmetry. apply is_derive_unique. cbn [peval]. nred. auto_derive; [exact I|ring].
  - rewrite Eg. rewrite (ends c k q Eq Hc 0%nat ltac:(lia)), Nat.add_0_r, R0. cbn [peval]. fold A. nred. ring.
Qed.
Lemma law_polys k : (k < length orders)%nat -> exists c, forall s, (s < o_nx o)%nat -> seg_interp orders k (nth k rs []) (fun i => y_x y i s) (c s).
Proof.
  intros Hk. pose proof (good_nodup _ _ _ _ (law_nodes k _ (nth_error_nth' orders 0%nat Hk))) as Hnd.
  apply (finite_choice (fun s c => seg_interp orders k (nth k rs []) (fun i => y_x y i s) c) [] (o_nx o)). intros s _. apply interp_exists. exact Hnd.
Qed.
Lemma T_zero : T 0 t0 = y_t0 y.
Proof. unfold T, seg_time, seg_start. cbn [Rsum]. fold t0. ring. Qed.
Lemma law_starts k : law eq o ph alpha beta D -> (forall q, In q orders -> (1 <= q)%nat) -> (k <= length orders)%nat -> amt (offset orders k) = amt 0 + beta * (T k t0 - y_t0 y).
Proof.
  intros HL Hpos. induction k as [|k IH]; intros Hk; [rewrite offset_0, T_zero; ring|].
  assert (Hk' : (k < length orders)%nat) by lia. pose proof (nth_error_nth' orders 0%nat Hk') as Eq. set (q := nth k orders 0%nat) in *. destruct (law_polys k Hk') as (c & Hc).
  pose proof (law_seg c k q HL Eq (Hpos q (nth_error_In _ _ Eq)) Hc t1) as E. destruct (law_nodes k q Eq) as (_ & _ & _ & R1). rewrite <- R1, (ends c k q Eq Hc q (le_n q)), R1, T_next in E.
  rewrite (offset_S _ _ _ Eq), E, (IH ltac:(lia)). ring.
Qed.
Lemma law_all c k tau : law eq o ph alpha beta D -> (forall q, In q orders -> (1 <= q)%nat) -> (k < length orders)%nat ->
  (forall s, (s < o_nx o)%nat -> seg_interp orders k (nth k rs []) (fun i => y_x y i s) (c s)) ->
  Rsum (o_nx o) (fun s => alpha s * peval (c s) tau) = amt 0 + beta * (T k tau - y_t0 y).
Proof.
  intros HL Hpos Hk Hc. pose proof (nth_error_nth' orders 0%nat Hk) as Eq. rewrite (law_seg c k _ HL Eq (Hpos _ (nth_error_In _ _ Eq)) Hc tau), (law_starts k HL Hpos) by lia. ring.
Qed.
(** on a segment, with a rate that is at most [beta] *)
Variable W : nat -> list R.
Hypothesis Hw : forall k, (k < length orders)%nat -> 0 <= seg_h cf w y k.
Hypothesis HWpos : forall k j, (k < length orders)%nat -> 0 <= nth j (W k) 0.
Hypothesis HWex : forall k q, nth_error orders k = Some q -> exact_to t0 t1 q (nth k rs []) (W k) q.
Hypothesis HW0 : forall k, (1 <= k < length orders)%nat -> nth 0 (W k) 0 = 0.
Lemma less_seg k q : law Rle o ph alpha beta D -> nth_error orders k = Some q -> (1 <= q)%nat -> amt (offset orders (S k)) <= amt (offset orders k) + beta * (T (S k) t0 - T k t0).
Proof.
  intros HL Eq Hq. pose proof (MeshR.nth_error_lt _ _ _ Eq) as Hk. destruct (law_polys k Hk) as (c & Hc). destruct (law_nodes k q Eq) as (L & _ & R0 & R1).
  destruct (comb_poly (o_nx o) alpha c (S q)) as (g & Lg & Eg); [intros s Hs; pose proof (proj1 (Hc s Hs)); nred; lia|].
  assert (DG : forall x, peval (@pder Rnum g) x = Rsum (o_nx o) (fun s => alpha s * Derive (peval (c s)) x)).
  { intros x. apply (is_derive_unique2 (peval g) x); [apply is_derive_peval|].
    apply is_derive_ext with (f := fun x => Rsum (o_nx o) (fun s => alpha s * peval (c s) x)); [intros t; symmetry; apply Eg|].
    apply (is_derive_Rsum (o_nx o) (fun s x => alpha s * peval (c s) x)). intros s Hs. apply is_derive_scal. apply Derive_correct, ex_derive_peval. }
  assert (EI : amt (offset orders (S k)) - amt (offset orders k) = RInt (peval (@pder Rnum g)) t0 t1).
  { transitivity (peval g t1 - peval g t0).
    - rewrite <- R0, <- R1, !Eg, (ends c k q Eq Hc q (le_n q)), (ends c k q Eq Hc 0%nat ltac:(lia)), Nat.add_0_r, (offset_S _ _ _ Eq). reflexivity.
    - symmetry. apply is_RInt_unique. apply (is_RInt_derive (peval g)); [intros x _; apply is_derive_peval|intros x _; apply continuous_peval]. }
  rewrite <- (HWex k q Eq (@pder Rnum g)) in EI by (pose proof (length_pder1 g); nred; lia).
  assert (E1 : Rsum (S q) (fun j => nth j (W k) 0 * (seg_h cf w y k * beta)) = beta * (T (S k) t0 - T k t0)).
  { rewrite <- T_next. pose proof (HWex k q Eq [1]) as X. specialize (X ltac:(cbn [length]; lia)).
    assert (I1 : RInt (peval [1]) t0 t1 = t1 - t0).
    { transitivity (RInt (fun _ => 1) t0 t1); [apply RInt_ext; intros x _; cbn; nred; ring|]. rewrite RInt_const. unfold scal; cbn; unfold mult; cbn. ring. }
    rewrite I1 in X. transitivity (seg_h cf w y k * beta * Rsum (S q) (fun j => nth j (W k) 0 * peval [1] (nth j (nth k rs []) 0))).
    - rewrite <- Rsum_scal. apply Rsum_ext. intros j _. cbn. nred. ring.
    - rewrite X. unfold T, seg_time. fold t0. ring. }
  enough (Rsum (S q) (fun j => nth j (W k) 0 * peval (@pder Rnum g) (nth j (nth k rs []) 0)) <= Rsum (S q) (fun j => nth j (W k) 0 * (seg_h cf w y k * beta))) by lra.
  apply Rsum_le. intros j Hj. destruct (Nat.eq_dec k 0) as [->|Nk]; [|destruct (Nat.eq_dec j 0) as [->|Nj]; [rewrite HW0 by lia; lra|]].
  - apply Rmult_le_compat_l; [exact (HWpos _ j Hk)|]. rewrite DG. assert (Ho : owned orders (offset orders 0 + j) 0 j) by (exists q; repeat split; [exact Eq|lia|left; reflexivity]).
    destruct (law_rate Rle _ 0 j HL Ho) as (r & Hr & HR). rewrite (HR c Hc). apply Rmult_le_compat_l; [exact (Hw _ Hk)|exact Hr].
  - apply Rmult_le_compat_l; [exact (HWpos _ j Hk)|]. rewrite DG. assert (Ho : owned orders (offset orders k + j) k j) by (exists q; repeat split; [exact Eq|lia|right; lia]).
    destruct (law_rate Rle _ k j HL Ho) as (r & Hr & HR). rewrite (HR c Hc). apply Rmult_le_compat_l; [exact (Hw _ Hk)|exact Hr].
Qed.
Lemma less_starts k k' : law Rle o ph alpha beta D -> (forall q, In q orders -> (1 <= q)%nat) -> (k <= k' <= length orders)%nat -> amt (offset orders k') <= amt (offset orders k) + beta * (T k' t0 - T k t0).
Proof.
  intros HL Hpos [H1 H2]. induction k' as [|k' IH]; [assert (k = 0)%nat as -> by lia; lra|].
  destruct (Nat.eq_dec k (S k')) as [->|Nk]; [lra|]. specialize (IH ltac:(lia) ltac:(lia)).
  assert (Hk' : (k' < length orders)%nat) by lia. pose proof (nth_error_nth' orders 0%nat Hk') as Eq. pose proof (less_seg k' _ HL Eq (Hpos _ (nth_error_In _ _ Eq))) as X. lra.
Qed.
End Phase.

(** weights at the nodes that no scheme needs a rate at the first node of later segments for *)
Lemma law_weights mp (rs : list (list R)) : mpo_ok mp -> mapM (c_roots (mp_cf mp)) (mp_orders mp) = Ok rs ->
  cf_scheme (mp_cf mp) = "LGR"%string \/ cf_scheme (mp_cf mp) = "LGL"%string /\ length (mp_orders mp) = 1%nat ->
  (forall q, In q (mp_orders mp) -> (2 <= q)%nat) ->
  exists W, forall k, (k < length (mp_orders mp))%nat -> exact_to (cf_tau0 (mp_cf mp)) (cf_tau1 (mp_cf mp)) (nth k (mp_orders mp) 0%nat) (nth k rs []) (W k) (nth k (mp_orders mp) 0%nat) /\
     (forall j, 0 <= nth j (W k) 0) /\ ((1 <= k)%nat -> nth 0 (W k) 0 = 0).
Proof.
  intros Hmp Er Hs Hq. set (cf := mp_cf mp) in *. set (orders := mp_orders mp) in *.
  apply (finite_choice (fun k w => exact_to (cf_tau0 cf) (cf_tau1 cf) (nth k orders 0%nat) (nth k rs []) w (nth k orders 0%nat) /\ (forall j, 0 <= nth j w 0) /\ ((1 <= k)%nat -> nth 0 w 0 = 0)) []).
  intros k Hk. pose proof (nth_error_nth' orders 0%nat Hk) as Eq. destruct (mapM_inv _ _ _ Er) as [_ HI]. destruct (HI k _ Eq) as (r & E1 & E2). rewrite (nth_error_nth _ _ _ E1).
  pose proof (Hq _ (nth_In _ 0%nat Hk)) as H2. set (q := nth k orders 0%nat) in *. pose proof (mo_cfg _ Hmp) as Hcf. fold cf in Hcf.
  assert (Hnn : forall w, quad_weights cf q (cf_tau0 cf) (cf_tau1 cf) = Ok w -> forall j, 0 <= nth j w 0).
  { intros w Ew. exact (weights_nonneg_ok mp Hmp q w (nth_In _ 0%nat Hk) Ew). }
  destruct Hs as [Hs'|[Hs' H1]].
  - destruct (lgr_weights cf q Hcf Hs' H2) as (r' & w & Er' & Ew & W0 & WX). assert (r' = r) as -> by (pose proof (eq_trans (eq_sym Er') E2) as X; injection X as X; exact X).
    exists w. split; [intros c Hc; apply WX; lia|]. split; [exact (Hnn w Ew)|]. intros _. exact W0.
  - destruct (lgl_weights cf q Hcf Hs' H2) as (r' & w & Er' & Ew & WX). assert (r' = r) as -> by (pose proof (eq_trans (eq_sym Er') E2) as X; injection X as X; exact X).
    exists w. split; [intros c Hc; apply WX; lia|]. split; [exact (Hnn w Ew)|]. intros Hk1. lia.
Qed.

Section Program.
Variables (mp : mpo Rnum) (npath nterm : nat -> option nat) (z p : list R).
Let o := mp_ocp mp.
Let cf := mp_cf mp.
Let orders := mp_orders mp.
Hypothesis Hin : input_ok mp npath nterm z p.

Theorem law_thm : exists rs n, mapM (c_roots cf) orders = Ok rs /\ nlp_at mp z p = Ok n /\
  (feasible n -> forall ph alpha beta D, (ph < o_nph o)%nat -> law eq o ph alpha beta D ->
   let y := user_traj mp z ph in let w := width mp p ph in nodes_in mp y D ->
   (forall i k j, owned orders i k j ->
      amount (o_nx o) alpha (y_x y i) = amount (o_nx o) alpha (y_x y 0) + beta * (node_time cf w y k (nth j (nth k rs []) 0) - y_t0 y)) /\
   (forall k c tau, (k < length orders)%nat -> (forall s, (s < o_nx o)%nat -> seg_interp orders k (nth k rs []) (fun i => y_x y i s) (c s)) ->
      amount (o_nx o) alpha (fun s => peval (c s) tau) = amount (o_nx o) alpha (y_x y 0) + beta * (node_time cf w y k tau - y_t0 y))).
Proof.
  pose proof Hin as [Hmp Hok Hsc Hz Hlp].
  destruct (nlp_at_ok mp Hmp npath nterm Hok Hsc z p Hz Hlp) as (rs & n & Er & En & Hrs & Hg & _ & _ & _ & _ & _ & Hsat & _).
  fold o in Hsat. fold orders cf in Hg. exists rs, n. split; [exact Er|]. split; [exact En|]. intros [_ F2] ph alpha beta D Hph HL y w HD. destruct (proj1 Hsat F2) as [P _].
  destruct (P ph Hph) as (PD & _). fold y w in PD. assert (Ht := co_taus _ (mo_cfg _ Hmp)). fold cf in Ht.
  assert (Hpos : forall q, In q orders -> (1 <= q)%nat) by exact (mo_pos _ Hmp).
  assert (G : forall k c tau, (k < length orders)%nat -> (forall s, (s < o_nx o)%nat -> seg_interp orders k (nth k rs []) (fun i => y_x y i s) (c s)) ->
      amount (o_nx o) alpha (fun s => peval (c s) tau) = amount (o_nx o) alpha (y_x y 0) + beta * (node_time cf w y k tau - y_t0 y)).
  { intros k c tau Hk Hc. rewrite node_time_seg by exact Ht. exact (law_all mp npath nterm rs w ph y alpha beta D Hmp Hok Hph Hrs Hg PD HD c k tau HL Hpos Hk Hc). }
  split; [|exact G]. intros i k j (q & Eq & Hj & _ & ->). pose proof (MeshR.nth_error_lt _ _ _ Eq) as Hk. destruct (law_polys mp rs y Hrs Hg k Hk) as (c & Hc).
  rewrite <- (G k c _ Hk Hc). symmetry. eapply (ends mp rs); eassumption.
Qed.

Theorem less_thm : widths_ok (mp_nseg mp) (o_nph o) p ->
  cf_scheme cf = "LGR"%string \/ cf_scheme cf = "LGL"%string /\ length orders = 1%nat -> (forall q, In q orders -> (2 <= q)%nat) ->
  exists n, nlp_at mp z p = Ok n /\
  (feasible n -> forall ph alpha beta D, (ph < o_nph o)%nat -> law Rle o ph alpha beta D ->
   let y := user_traj mp z ph in let w := width mp p ph in y_t0 y <= y_tf y -> nodes_in mp y D ->
   forall k k', (k <= k' <= length orders)%nat ->
      amount (o_nx o) alpha (y_x y (offset orders k')) <= amount (o_nx o) alpha (y_x y (offset orders k)) + beta * (seg_start w y k' - seg_start w y k)).
Proof.
  intros Hp Hs Hq. pose proof Hin as [Hmp Hok Hsc Hz Hlp].
  destruct (nlp_at_ok mp Hmp npath nterm Hok Hsc z p Hz Hlp) as (rs & n & Er & En & Hrs & Hg & _ & _ & _ & _ & _ & Hsat & _).
  fold o in Hsat. fold orders cf in Hg. exists n. split; [exact En|]. intros [_ F2] ph alpha beta D Hph HL y w Hyt HD k k' Hkk. destruct (proj1 Hsat F2) as [P _].
  destruct (P ph Hph) as (PD & _). fold y w in PD. assert (Ht := co_taus _ (mo_cfg _ Hmp)). fold cf in Ht.
  destruct (law_weights mp rs Hmp Er Hs Hq) as (W & HW). fold orders cf in HW. destruct (part_widths mp p Hmp Hp ph Hph) as [W1 _]. fold w orders in W1.
  assert (X := less_starts mp npath nterm rs w ph y alpha beta D Hmp Hok Hph Hrs Hg PD HD W). fold orders o cf in X.
  assert (S0 : forall k, seg_time cf w y k (cf_tau0 cf) = seg_start w y k) by (intros; unfold seg_time; ring). rewrite <- !S0. apply X; [| | | |exact HL| |exact Hkk].
  - intros i Hi. unfold seg_h. pose proof (W1 i Hi). apply Rmult_le_pos; [apply Rmult_le_pos; lra|apply Rlt_le, Rinv_0_lt_compat; lra].
  - intros i j Hi. apply (HW i Hi).
  - intros i q Eq. pose proof (MeshR.nth_error_lt _ _ _ Eq) as Hi. destruct (HW i Hi) as [E _]. rewrite (nth_error_nth _ _ _ Eq) in E. exact E.
  - intros i [H1 Hi]. apply (HW i Hi). exact H1.
  - intros q Hi. specialize (Hq q Hi). lia.
Qed.
End Program.
