(** Exact polynomial solutions on a mesh (proofs of C59). *)
From Coq Require Import Reals Lia Lra Bool Arith String.
From Coquelicot Require Import Coquelicot.
From Coq Require Import List.
From Verif Require Import Num PyList Mat Poly Roots Colloc Ocp Transcribe Spec SpecOcp SpecHadapt SpecExact NumR ListR PolyR CollocR CompR CollocThm MeshR BlockR DiscR NlpR OcpR NlpThm CostR BalanceR ScaleR AdResid.
Import ListNotations.
Open Scope R_scope.

Lemma vec_eq n f g : (forall i, (i < n)%nat -> f i = g i) -> vec n f = vec n g.
Proof. intros H. unfold vec. apply map_ext_in. intros i Hi. apply in_seq in Hi. apply H. lia. Qed.

Section Phase.
Variables (mp : mpo Rnum) (rs : list (list R)) (w : nat -> R) (ph : nat) (P : ptraj) (y : utraj).
Let o := mp_ocp mp.
Let cf := mp_cf mp.
Let orders := mp_orders mp.
Let K := length orders.
Let t0 := cf_tau0 cf.
Let t1 := cf_tau1 cf.
Hypothesis Ht : t0 < t1.
Hypothesis HK : (1 <= K)%nat.
Hypothesis Hpos : forall q, In q orders -> (1 <= q)%nat.
Hypothesis Hrs : length rs = K.
Hypothesis Hgood : forall k q r, nth_error orders k = Some q -> nth_error rs k = Some r -> good_nodes t0 t1 q r.
Hypothesis Hw : forall k, (k < K)%nat -> 0 < w k.
Hypothesis Hsum : Rsum K w = 1.
Hypothesis Hs : samples mp rs w P y.
Hypothesis Hsol : solves o ph P.
Hypothesis Hres : resolved mp P.
Let T k x := seg_time cf w y k x.

Lemma T_node k x : node_time cf w y k x = T k x.
Proof. apply node_time_seg. exact Ht. Qed.
Lemma T_next k : T k t1 = T (S k) t0.
Proof. unfold T, seg_time, seg_start, seg_h. fold t0 t1. cbn [Rsum]. field. lra. Qed.
Lemma T_range k x : (k < K)%nat -> t0 <= x <= t1 -> p_t0 P <= T k x <= p_tf P.
Proof.
  intros Hk Hx. destruct Hs as (E0 & E1 & _). unfold T, seg_time, seg_start. rewrite E0, E1. pose proof (so_time _ _ _ Hsol) as Hd.
  assert (A : 0 <= Rsum k w) by (apply Rsum_nonneg; intros i Hi; apply Rlt_le, Hw; lia).
  assert (B : Rsum k w + w k <= 1).
  { rewrite <- Hsum. change (Rsum k w + w k) with (Rsum (S k) w). apply Rsum_mono; [lia|]. intros i Hi. apply Rlt_le, Hw. exact Hi. }
  assert (C : seg_h cf w y k * (x - t0) = (p_tf P - p_t0 P) * (w k * ((x - t0) / (t1 - t0)))).
  { unfold seg_h. rewrite E0, E1. fold t0 t1. field. lra. }
  fold t0. rewrite C. assert (D : 0 <= (x - t0) / (t1 - t0) <= 1).
  { split; [apply Rmult_le_pos; [lra|apply Rlt_le, Rinv_0_lt_compat; lra]|]. apply Rmult_le_reg_r with (t1 - t0); [lra|]. unfold Rdiv. rewrite Rmult_assoc, Rinv_l by lra. lra. }
  pose proof (Hw k Hk) as E. assert (F : 0 <= w k * ((x - t0) / (t1 - t0)) <= w k) by (split; [apply Rmult_le_pos; lra|nra]).
  split; [|]; nra.
Qed.
Lemma T_first : T 0 t0 = p_t0 P.
Proof. destruct Hs as (E0 & _). unfold T, seg_time, seg_start. cbn [Rsum]. rewrite E0. fold t0. ring. Qed.
Lemma T_last : T (K - 1) t1 = p_tf P.
Proof.
  rewrite T_next. replace (S (K - 1)) with K by lia. destruct Hs as (E0 & E1 & _). unfold T, seg_time, seg_start. rewrite Hsum, E0, E1. fold t0. ring.
Qed.
Lemma nodes_of k q : nth_error orders k = Some q -> good_nodes t0 t1 q (nth k rs []).
Proof. intros E. apply (Hgood k q _ E). apply nth_error_nth'. rewrite Hrs. exact (MeshR.nth_error_lt _ _ _ E). Qed.
Lemma node_range k q j : nth_error orders k = Some q -> (j <= q)%nat -> t0 <= nth j (nth k rs []) 0 <= t1.
Proof.
  intros E Hj. destruct (nodes_of k q E) as (L & I & A & B). split.
  - destruct j as [|j]; [rewrite A; lra|]. rewrite <- A. apply Rlt_le, I. nred. lia.
  - destruct (Nat.eq_dec j q) as [->|]; [rewrite B; lra|]. rewrite <- B. apply Rlt_le, I. nred. lia.
Qed.
(** values at the nodes of a segment, its first one included *)
Lemma at_node k q j : nth_error orders k = Some q -> (j <= q)%nat ->
  (forall s, (s < o_nx o)%nat -> y_x y (offset orders k + j) s = peval (p_x P s) (T k (nth j (nth k rs []) 0))) /\
  (forall c, (c < o_nu o)%nat -> y_u y (offset orders k + j) c = peval (p_u P c) (T k (nth j (nth k rs []) 0))).
Proof.
  intros Eq Hj. destruct Hs as (_ & _ & _ & H). destruct (le_lt_dec 1 j) as [H1|H1].
  - specialize (H (offset orders k + j)%nat k j). rewrite <- T_node. apply H. exists q. auto.
  - assert (j = 0)%nat as -> by lia. destruct k as [|k].
    + rewrite <- T_node. apply H. exists q. auto.
    + destruct (nth_error orders k) as [q'|] eqn:Eq'; [|apply nth_error_None in Eq'; pose proof (MeshR.nth_error_lt _ _ _ Eq); lia].
      destruct (nodes_of (S k) q Eq) as (_ & _ & N0 & _). rewrite N0, <- T_next. destruct (nodes_of k q' Eq') as (_ & _ & _ & N1). rewrite <- N1.
      rewrite Nat.add_0_r, (offset_S _ _ _ Eq'). rewrite <- T_node. apply H. exists q'. split; [exact Eq'|]. split; [lia|]. split; [|reflexivity].
      right. apply Hpos. exact (nth_error_In _ _ Eq').
Qed.
(** the polynomial of a segment *)
Lemma seg_poly k q X c ys : nth_error orders k = Some q -> (length X <= S q)%nat ->
  (forall j, (j <= q)%nat -> ys (offset orders k + j)%nat = peval X (T k (nth j (nth k rs []) 0))) ->
  seg_interp orders k (nth k rs []) ys c -> forall x, peval c x = peval X (T k x).
Proof.
  intros Eq HX Hy [Lc Ec]. pose proof (nodes_of k q Eq) as G. pose proof (good_nodup _ _ _ _ G) as Hnd. destruct G as (L & _).
  destruct (poly_affine X (seg_start w y k - seg_h cf w y k * t0) (seg_h cf w y k)) as (d & Ld & Ed).
  assert (E : forall x, peval d x = peval X (T k x)) by (intros x; rewrite Ed; f_equal; unfold T, seg_time; fold t0; ring).
  intros x. rewrite <- E. apply (interp_unique (nth k rs [])); auto; [nred; lia|]. intros j Hj. rewrite (Ec j Hj), E. apply Hy. nred. lia.
Qed.
Lemma seg_derive k X c x : (forall x, peval c x = peval X (T k x)) -> is_derive (peval c) x (seg_h cf w y k * Derive (peval X) (T k x)).
Proof.
  intros E. apply is_derive_ext with (f := fun x => peval X (T k x)); [intros t; symmetry; apply E|]. unfold T, seg_time.
  evar_last.
  - apply (is_derive_comp (peval X) (fun x => seg_start w y k + seg_h cf w y k * (x - cf_tau0 cf))).
    + apply Derive_correct, ex_derive_peval.
    + auto_derive; [exact I|reflexivity].
  - unfold scal; cbn; unfold mult; cbn. ring.
Qed.
(** values of the user functions *)
Lemma args_eq i t : (forall s, (s < o_nx o)%nat -> y_x y i s = peval (p_x P s) t) -> (forall c, (c < o_nu o)%nat -> y_u y i c = peval (p_u P c) t) ->
  vec (o_nx o) (y_x y i) = vec (o_nx o) (y_x (at_time P t) 0) /\ vec (o_nu o) (y_u y i) = vec (o_nu o) (y_u (at_time P t) 0) /\ a_of o y = a_of o (at_time P t).
Proof.
  intros H1 H2. split; [apply vec_eq; exact H1|]. split; [apply vec_eq; exact H2|]. unfold a_of. destruct (Nat.eqb (o_na o) 0); [reflexivity|]. f_equal.
  apply vec_eq. destruct Hs as (_ & _ & Ha & _). exact Ha.
Qed.
Lemma exact_dyn : dynamics_ok mp rs w ph y.
Proof.
  intros i k j s c (q & Eq & Hj & _ & ->) Hss Hc. fold o in Hss. fold orders in Eq, Hc |- *. fold cf. fold o.
  destruct (at_node k q j Eq Hj) as [Ax Au]. destruct (args_eq _ _ Ax Au) as (B1 & B2 & B3).
  pose proof (MeshR.nth_error_lt _ _ _ Eq) as Hk. pose proof (T_range k _ Hk (node_range k q j Eq Hj)) as R.
  assert (E : forall x, peval c x = peval (p_x P s) (T k x)).
  { apply (seg_poly k q (p_x P s) c (fun i => y_x y i s) Eq); [apply (Hres q (nth_error_In _ _ Eq)); exact Hss| |exact Hc].
    intros j' Hj'. apply (at_node k q j' Eq Hj'). exact Hss. }
  evar_last; [apply (seg_derive k (p_x P s) c _ E)|]. f_equal. pose proof (so_dyn _ _ _ Hsol _ s R Hss) as D. apply derive_iff in D. rewrite D.
  unfold dyn_val. fold (T k (nth j (nth k rs []) 0)). nred. rewrite B1, B2, B3. reflexivity.
Qed.
Lemma exact_path : path_ok mp rs w ph y.
Proof.
  intros i k j c (q & Eq & Hj & _ & ->). fold orders in Eq |- *. fold cf. fold o. destruct (at_node k q j Eq Hj) as [Ax Au]. destruct (args_eq _ _ Ax Au) as (B1 & B2 & B3).
  pose proof (MeshR.nth_error_lt _ _ _ Eq) as Hk. pose proof (T_range k _ Hk (node_range k q j Eq Hj)) as R. fold (T k (nth j (nth k rs []) 0)).
  intros Hc. apply (so_path _ _ _ Hsol _ c R). unfold path_val in *. nred. rewrite <- B1, <- B2, <- B3. exact Hc.
Qed.
Lemma first_last : exists q r, nth_error orders 0 = Some q /\ nth_error orders (K - 1) = Some r.
Proof.
  destruct (nth_error orders 0) as [q|] eqn:E; [|apply nth_error_None in E; unfold K in *; lia].
  destruct (nth_error orders (K - 1)) as [r|] eqn:E'; [|apply nth_error_None in E'; unfold K in *; lia]. eauto.
Qed.
Lemma at_first : (forall s, (s < o_nx o)%nat -> y_x y 0 s = peval (p_x P s) (p_t0 P)) /\ (forall c, (c < o_nu o)%nat -> y_u y 0 c = peval (p_u P c) (p_t0 P)).
Proof.
  destruct first_last as (q & _ & Eq & _). pose proof (at_node 0 q 0 Eq (Nat.le_0_l q)) as A. destruct (nodes_of 0 q Eq) as (_ & _ & N & _).
  rewrite N, T_first in A. replace (offset orders 0 + 0)%nat with 0%nat in A by (destruct orders; reflexivity). exact A.
Qed.
Lemma at_last : (forall s, (s < o_nx o)%nat -> y_x y (total_nodes orders - 1) s = peval (p_x P s) (p_tf P)) /\
  (forall c, (c < o_nu o)%nat -> y_u y (total_nodes orders - 1) c = peval (p_u P c) (p_tf P)).
Proof.
  destruct first_last as (_ & q & _ & Eq). pose proof (at_node (K - 1) q q Eq (le_n q)) as A. destruct (nodes_of (K - 1) q Eq) as (_ & _ & _ & N).
  rewrite N, T_last in A. replace (offset orders (K - 1) + q)%nat with (total_nodes orders - 1)%nat in A; [exact A|].
  rewrite <- (offset_S _ _ _ Eq). replace (S (K - 1)) with K by lia. unfold total_nodes. fold K. lia.
Qed.
Lemma ends_eq : vec (o_nx o) (y_x y (total_nodes orders - 1)) = vec (o_nx o) (y_x (at_ends P) 1) /\ y_tf y = y_tf (at_ends P) /\
  vec (o_nx o) (y_x y 0) = vec (o_nx o) (y_x (at_ends P) 0) /\ y_t0 y = y_t0 (at_ends P) /\ a_of o y = a_of o (at_ends P).
Proof.
  destruct Hs as (E0 & E1 & Ea & _). split; [apply vec_eq; exact (proj1 at_last)|]. split; [exact E1|]. split; [apply vec_eq; exact (proj1 at_first)|]. split; [exact E0|].
  unfold a_of. destruct (Nat.eqb (o_na o) 0); [reflexivity|]. f_equal. apply vec_eq. exact Ea.
Qed.
Lemma exact_term : terminal_ok mp ph y.
Proof.
  intros c Hc. apply (so_term _ _ _ Hsol). destruct ends_eq as (B1 & B2 & B3 & B4 & B5). unfold term_val in *. fold o orders in Hc. nred. rewrite <- B1, <- B2, <- B3, <- B4, <- B5. exact Hc.
Qed.
Lemma exact_mayer : mayer_val o ph y (total_nodes orders - 1) = mayer_val o ph (at_ends P) 1.
Proof. destruct ends_eq as (B1 & B2 & B3 & B4 & B5). unfold mayer_val. nred. rewrite B1, B2, B3, B4, B5. reflexivity. Qed.
Lemma exact_midu : midu_ok mp rs ph y.
Proof.
  intros _ k q j c d Eq Hj Hc Hd. fold o in Hc. fold orders in Eq, Hd. fold o. pose proof (MeshR.nth_error_lt _ _ _ Eq) as Hk.
  rewrite (seg_poly k q (p_u P c) d (fun i => y_u y i c) Eq); [|apply (Hres q (nth_error_In _ _ Eq)); exact Hc| |exact Hd].
  - apply (so_u _ _ _ Hsol); [|exact Hc]. apply (T_range k _ Hk). pose proof (node_range k q j Eq ltac:(lia)). pose proof (node_range k q (S j) Eq ltac:(lia)). lra.
  - intros j' Hj'. apply (at_node k q j' Eq Hj'). exact Hc.
Qed.
Lemma exact_bounds : bounds_ok mp ph y.
Proof.
  destruct Hs as (E0 & E1 & Ea & Hn). fold o in Ea. assert (Hne : orders <> []) by (intros E; unfold K in HK; rewrite E in HK; cbn in HK; lia).
  assert (G : forall i, (i < total_nodes orders)%nat -> exists t, p_t0 P <= t <= p_tf P /\
    (forall s, (s < o_nx o)%nat -> y_x y i s = peval (p_x P s) t) /\ (forall c, (c < o_nu o)%nat -> y_u y i c = peval (p_u P c) t)).
  { intros i Hi. destruct (owned_exists orders i Hne Hi) as (k & j & q & Eq & Hj & _ & ->). destruct (at_node k q j Eq Hj) as [Ax Au].
    exists (T k (nth j (nth k rs []) 0)). split; [|auto]. apply (T_range k _ (MeshR.nth_error_lt _ _ _ Eq) (node_range k q j Eq Hj)). }
  split; [|split; [|split; [|split]]]; fold o orders.
  - intros i s Hi Hss. destruct (Nat.eqb_spec ph 0) as [E|E]; [destruct (Nat.eqb_spec i 0) as [->|]|]; cbn [andb].
    + rewrite (proj1 at_first s Hss). apply (so_init _ _ _ Hsol s E Hss).
    + destruct (G i Hi) as (t & Rt & Ax & _). rewrite (Ax s Hss). apply (so_x _ _ _ Hsol t s Rt Hss).
    + destruct (G i Hi) as (t & Rt & Ax & _). rewrite (Ax s Hss). apply (so_x _ _ _ Hsol t s Rt Hss).
  - intros i c Hi Hc. destruct (G i Hi) as (t & Rt & _ & Au). rewrite (Au c Hc). apply (so_u _ _ _ Hsol t c Rt Hc).
  - rewrite E0. apply (so_t0 _ _ _ Hsol).
  - rewrite E1. apply (so_tf _ _ _ Hsol).
  - intros i Hi. rewrite (Ea i Hi). apply (so_a _ _ _ Hsol i Hi).
Qed.
Lemma exact_phase : no_slopes o -> phase_ok mp rs w ph y.
Proof.
  intros Hn. destruct (Hn ph) as [N1 N2]. split; [exact exact_dyn|]. split; [exact exact_path|]. split; [intros X; fold o in X; nred; congruence|].
  split; [exact exact_midu|]. split; [intros X; fold o in X; nred; congruence|exact exact_term].
Qed.
(** ** cost *)
Lemma exact_run L C k q : run_poly o ph P L -> cost_interp mp rs w ph y C -> nth_error orders k = Some q ->
  (cf_scheme cf = "LGR"%string /\ (2 <= q)%nat /\ (length L <= 2 * q - 1)%nat \/ (length L <= S q)%nat) -> cfg_ok cf -> c_roots cf q = Ok (nth k rs []) ->
  seg_h cf w y k * RInt (peval (C k)) t0 t1 = peval (@pint Rnum L) (T k t1) - peval (@pint Rnum L) (T k t0).
Proof.
  intros HL HC Eq Hcase Hcf Er. pose proof (MeshR.nth_error_lt _ _ _ Eq) as Hk. destruct (HC k Hk) as [LC EC]. pose proof (nodes_of k q Eq) as G. pose proof (good_nodup _ _ _ _ G) as Hnd. destruct G as (Lr & _).
  assert (Hrun : forall j, (j <= q)%nat -> peval (C k) (nth j (nth k rs []) 0) = peval L (T k (nth j (nth k rs []) 0))).
  { intros j Hj. rewrite (EC j ltac:(nred; lia)). unfold run_at. fold o orders cf. destruct (at_node k q j Eq Hj) as [Ax Au]. destruct (args_eq _ _ Ax Au) as (B1 & B2 & B3).
    fold (T k (nth j (nth k rs []) 0)). rewrite <- (HL _ (T_range k _ Hk (node_range k q j Eq Hj))). unfold run_val. nred. rewrite B1, B2, B3. reflexivity. }
  destruct (poly_affine L (seg_start w y k - seg_h cf w y k * t0) (seg_h cf w y k)) as (d & Ld & Ed).
  assert (E : forall x, peval d x = peval L (T k x)) by (intros x; rewrite Ed; f_equal; unfold T, seg_time; fold t0; ring).
  assert (EI : RInt (peval (C k)) t0 t1 = RInt (peval d) t0 t1).
  { destruct Hcase as [(Hs' & Hq & HLl)|HLl].
    - destruct (lgr_weights cf q Hcf Hs' Hq) as (r & W & Er' & _ & _ & HW). assert (r = nth k rs []) as -> by (pose proof (eq_trans (eq_sym Er') Er) as X; injection X as X; exact X).
      fold t0 t1 in HW. rewrite <- (HW (C k)) by (nred; lia). rewrite <- (HW d) by (nred; lia). apply Rsum_ext. intros j Hj. rewrite Hrun, E by lia. reflexivity.
    - apply RInt_ext. intros x _. apply (interp_unique (nth k rs [])); auto; [nred; lia|]. intros j Hj. rewrite Hrun, E by (nred; lia). reflexivity. }
  rewrite EI. destruct (poly_affine (@pint Rnum L) (seg_start w y k - seg_h cf w y k * t0) (seg_h cf w y k)) as (D & _ & ED).
  assert (E' : forall x, peval D x = peval (@pint Rnum L) (T k x)) by (intros x; rewrite ED; f_equal; unfold T, seg_time; fold t0; ring).
  rewrite <- !E'. transitivity (RInt (fun x => seg_h cf w y k * peval d x) t0 t1).
  - rewrite RInt_peval. symmetry. exact (is_RInt_unique _ _ _ _ (is_RInt_scal _ _ _ (seg_h cf w y k) _ (is_RInt_peval d t0 t1))).
  - apply is_RInt_unique. apply (is_RInt_derive (peval D)).
    + intros x _. evar_last; [apply (seg_derive k (@pint Rnum L) D x E')|]. f_equal. rewrite E. rewrite <- (pder_pint L). apply is_derive_unique, is_derive_peval.
    + intros x _. apply (continuous_scal_r (V := R_NormedModule) (seg_h cf w y k) (peval d)). apply continuous_peval.
Qed.
End Phase.

Section Program.
Variables (mp : mpo Rnum) (npath nterm : nat -> option nat) (p : list R) (Ps : nat -> ptraj).
Let o := mp_ocp mp.
Let cf := mp_cf mp.
Let orders := mp_orders mp.
Hypothesis Hmp : mpo_ok mp.
Hypothesis Hok : ocp_ok o npath nterm.
Hypothesis Hsc : scales_pos o.
Hypothesis Hp : widths_ok (mp_nseg mp) (o_nph o) p.
Hypothesis Hn : no_slopes o.
Hypothesis Hsol : forall ph, (ph < o_nph o)%nat -> solves o ph (Ps ph).
Hypothesis Hlink : linked o Ps.
Hypothesis Hres : forall ph, (ph < o_nph o)%nat -> resolved mp (Ps ph).

Lemma part_widths ph : (ph < o_nph o)%nat ->
  (forall k, (k < length orders)%nat -> 0 < width mp p ph k) /\ Rsum (length orders) (width mp p ph) = 1.
Proof.
  intros Hph. destruct Hp as [_ H]. destruct (H ph Hph) as (A & B & C). unfold orders. rewrite (mo_len _ Hmp).
  assert (E : forall k, (k < mp_nseg mp)%nat -> width mp p ph k = nth k (phase_part (mp_nseg mp) ph p) 0).
  { intros k Hk. unfold width, phase_part. rewrite nth_firstn_lt by exact Hk. rewrite nth_skipn. f_equal. nia. }
  split.
  - intros k Hk. rewrite (E k Hk). apply B. apply nth_In. lia.
  - rewrite (Rsum_ext _ _ _ E). rewrite <- C, total_Rsum, A. reflexivity.
Qed.
Lemma samples_exist rs : length rs = length orders -> exists z, length z = (o_nph o * nvars mp)%nat /\
  forall ph, (ph < o_nph o)%nat -> samples mp rs (width mp p ph) (Ps ph) (user_traj mp z ph).
Proof.
  intros Hrs. assert (Hne : orders <> []) by (intros E; pose proof (mo_nseg _ Hmp); pose proof (mo_len _ Hmp) as L; fold orders in L; rewrite E in L; cbn in L; lia).
  set (y0 := fun ph => Utraj (fun _ _ => 0) (fun _ _ => 0) (p_t0 (Ps ph)) (p_tf (Ps ph)) (p_a (Ps ph))).
  destruct (finite_choice (fun ph (tm : nat -> R) => forall i, (i < total_nodes orders)%nat ->
      exists k j, owned orders i k j /\ tm i = node_time cf (width mp p ph) (y0 ph) k (nth j (nth k rs []) 0)) (fun _ => 0) (o_nph o)) as [tm Htm].
  { intros ph _. apply (finite_choice (fun i t => exists k j, owned orders i k j /\ t = node_time cf (width mp p ph) (y0 ph) k (nth j (nth k rs []) 0)) 0).
    intros i Hi. destruct (owned_exists orders i Hne Hi) as (k & j & Hkj). eauto. }
  set (ys := fun ph => Utraj (fun i s => peval (p_x (Ps ph) s) (tm ph i)) (fun i c => peval (p_u (Ps ph) c) (tm ph i)) (p_t0 (Ps ph)) (p_tf (Ps ph)) (p_a (Ps ph))).
  exists (pack mp ys). split; [apply length_pack|]. intros ph Hph.
  destruct (pack_traj mp ys ph (ok_shapes _ _ _ Hok) Hsc Hph) as (A & B & C & D & E). fold o orders in A, B, E.
  split; [exact C|]. split; [exact D|]. split; [exact E|]. intros i k j Hkj. cbv zeta. fold orders in Hkj. fold o cf.
  assert (Hi : (i < total_nodes orders)%nat) by (apply (owned_lt orders i k j); auto; exact (mo_pos _ Hmp)).
  destruct (Htm ph Hph i Hi) as (k' & j' & Hkj' & Et). destruct (owned_unique orders i k j k' j' (mo_pos _ Hmp) Hkj Hkj') as [<- <-].
  assert (Et' : node_time cf (width mp p ph) (user_traj mp (pack mp ys) ph) k (nth j (nth k rs []) 0) = tm ph i).
  { rewrite Et. unfold node_time. rewrite C, D. reflexivity. }
  nred. rewrite Et'. split; intros s Hs'; [exact (A i s Hi Hs')|exact (B i s Hi Hs')].
Qed.
Theorem exact_thm : exists rs, mapM (c_roots cf) orders = Ok rs /\
  (exists z, length z = (o_nph o * nvars mp)%nat /\ forall ph, (ph < o_nph o)%nat -> samples mp rs (width mp p ph) (Ps ph) (user_traj mp z ph)) /\
  forall z, length z = (o_nph o * nvars mp)%nat -> (forall ph, (ph < o_nph o)%nat -> samples mp rs (width mp p ph) (Ps ph) (user_traj mp z ph)) ->
    exists n, nlp_at mp z p = Ok n /\ feasible n /\
      forall Ls, (forall ph, (ph < o_nph o)%nat -> run_poly o ph (Ps ph) (Ls ph)) ->
        cf_scheme cf = "LGR"%string /\ (forall ph q, (ph < o_nph o)%nat -> In q orders -> (2 <= q)%nat /\ (length (Ls ph) <= 2 * q - 1)%nat) \/
        length orders = 1%nat /\ (forall ph q, (ph < o_nph o)%nat -> In q orders -> (length (Ls ph) <= S q)%nat) ->
        n_f n = Rsum (o_nph o) (fun ph => exact_cost o ph (Ps ph) (Ls ph)).
Proof.
  assert (Hlp : length p = (o_nph o * mp_nseg mp)%nat) by (destruct Hp as [L _]; rewrite L; lia).
  assert (Hlo : (1 <= length orders)%nat) by (unfold orders; rewrite (mo_len _ Hmp); exact (mo_nseg _ Hmp)).
  pose proof (co_taus _ (mo_cfg _ Hmp)) as Ht. fold cf in Ht.
  assert (HR : exists rs, mapM (c_roots cf) orders = Ok rs /\ length rs = length orders).
  { destruct (nlp_at_ok mp Hmp npath nterm Hok Hsc (pack mp (fun _ => Utraj (fun _ _ => 0) (fun _ _ => 0) 0 0 (fun _ => 0))) p (length_pack _ _) Hlp) as (rs & n & E1 & _ & E2 & _). eauto. }
  destruct HR as (rs & Er & Hrs). exists rs. split; [exact Er|]. split; [exact (samples_exist rs Hrs)|]. intros z Hz Hs.
  destruct (objective mp npath nterm z p (Build_input_ok _ _ _ _ _ Hmp Hok Hsc Hz Hlp)) as (rs1 & n1 & Er1 & En1 & (C0 & B0 & HC0 & HB0) & _ & HLGR & Hone).
  destruct (nlp_at_ok mp Hmp npath nterm Hok Hsc z p Hz Hlp) as (rs2 & n & Er2 & En & _ & Hg & _ & _ & _ & _ & Hb & Hsat & _).
  assert (rs1 = rs) as -> by (pose proof (eq_trans (eq_sym Er1) Er) as X; injection X as X; exact X).
  assert (rs2 = rs) as -> by (pose proof (eq_trans (eq_sym Er2) Er) as X; injection X as X; exact X).
  assert (n1 = n) as -> by (pose proof (eq_trans (eq_sym En1) En) as X; injection X as X; exact X).
  fold orders cf in Hg. exists n. split; [exact En|]. split.
  - split; [apply Hb|apply Hsat; split].
    + intros ph Hph. destruct (part_widths ph Hph) as [W1 W2]. exact (exact_bounds mp rs _ ph (Ps ph) _ Ht Hlo (mo_pos _ Hmp) Hrs Hg W1 W2 (Hs ph Hph) (Hsol ph Hph)).
    + intros ph Hph. destruct (part_widths ph Hph) as [W1 W2]. exact (exact_phase mp rs _ ph (Ps ph) _ Ht Hlo (mo_pos _ Hmp) Hrs Hg W1 W2 (Hs ph Hph) (Hsol ph Hph) (Hres ph Hph) Hn).
    + intros _ k i j Ek. destruct (ok_links _ _ _ Hok i j (nth_error_In _ _ Ek)) as [Hi Hj]. destruct (Hlink k i j Ek) as (A & B & C).
      destruct (part_widths i Hi) as [W1 W2]. destruct (part_widths j Hj) as [W3 W4].
      destruct (at_last mp rs _ (Ps i) _ Ht Hlo (mo_pos _ Hmp) Hrs Hg W2 (Hs i Hi)) as [Lx Lu].
      destruct (at_first mp rs _ (Ps j) _ Ht Hlo (mo_pos _ Hmp) Hrs Hg W3 W4 (Hs j Hj)) as [Fx Fu].
      destruct (Hs i Hi) as (_ & Ei & _). destruct (Hs j Hj) as (Ej & _). unfold link_ok. split; [|split].
      * intros s Hs'. rewrite (Lx s Hs'), (Fx s Hs'). exact (A s Hs').
      * intros c Hc. rewrite (Lu c Hc), (Fu c Hc). exact (B c Hc).
      * rewrite Ei, Ej. exact C.
  - intros Ls HL Hcase. transitivity (Rsum (o_nph o) (fun ph => phase_cost mp (width mp p ph) ph (user_traj mp z ph) (C0 ph))).
    + destruct Hcase as [[Hl Hq]|[H1 _]]; [apply HLGR|apply Hone]; auto. intros q Hin. destruct (o_nph o) as [|m] eqn:En0.
      * pose proof (sh_nph _ (ok_shapes _ _ _ Hok)). lia.
      * apply (Hq 0%nat q ltac:(lia)). fold orders in Hin. destruct orders; [destruct Hin|right; exact Hin].
    + apply Rsum_ext. intros ph Hph. destruct (part_widths ph Hph) as [W1 W2]. unfold phase_cost, exact_cost. fold o cf orders. f_equal.
      * apply (exact_mayer mp rs _ ph (Ps ph) _ Ht Hlo (mo_pos _ Hmp) Hrs Hg W1 W2 (Hs ph Hph)).
      * transitivity (Rsum (length orders) (fun k => peval (@pint Rnum (Ls ph)) (seg_time cf (width mp p ph) (user_traj mp z ph) (S k) (cf_tau0 cf)) - peval (@pint Rnum (Ls ph)) (seg_time cf (width mp p ph) (user_traj mp z ph) k (cf_tau0 cf)))).
        -- apply Rsum_ext. intros k Hk. destruct (nth_error orders k) as [q|] eqn:Eq; [|apply nth_error_None in Eq; lia].
           pose proof (T_next mp (width mp p ph) (user_traj mp z ph) Ht k) as Et. cbv beta in Et. fold cf in Et. rewrite <- Et.
           apply (exact_run mp rs (width mp p ph) ph (Ps ph) (user_traj mp z ph) Ht Hlo (mo_pos _ Hmp) Hrs Hg W1 W2 (Hs ph Hph) (Hsol ph Hph) (Ls ph) (C0 ph) k q (HL ph Hph) (HC0 ph Hph) Eq); [|exact (mo_cfg _ Hmp)|].
           ++ destruct Hcase as [[Hl Hq]|[H1 Hq]]; [left; split; [exact Hl|apply (Hq ph q Hph (nth_error_In _ _ Eq))]|right; exact (Hq ph q Hph (nth_error_In _ _ Eq))].
           ++ destruct (mapM_inv _ _ _ Er) as [_ HI]. pose proof (HI k q) as X. destruct (X Eq) as (r & E1 & E2). rewrite (nth_error_nth _ _ _ E1). exact E2.
        -- rewrite (Rsum_tele (length orders) (fun k => peval (@pint Rnum (Ls ph)) (seg_time cf (width mp p ph) (user_traj mp z ph) k (cf_tau0 cf)))).
           pose proof (T_first mp rs _ (Ps ph) _ (Hs ph Hph)) as Ef. cbv beta in Ef. fold cf in Ef. rewrite Ef. pose proof (T_last mp rs _ (Ps ph) _ Ht Hlo Hrs W2 (Hs ph Hph)) as El. cbv beta in El. fold orders cf in El.
           pose proof (T_next mp (width mp p ph) (user_traj mp z ph) Ht (length orders - 1)) as Et. cbv beta in Et. fold cf in Et. replace (S (length orders - 1)) with (length orders) in Et by lia. rewrite <- Et, El.
           symmetry. exact (is_RInt_unique _ _ _ _ (is_RInt_peval (Ls ph) (p_t0 (Ps ph)) (p_tf (Ps ph)))).
Qed.
End Program.
