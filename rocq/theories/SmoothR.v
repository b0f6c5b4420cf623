(** Smooth solutions on a mesh (proofs of C62). *)
From Coq Require Import Reals Lia Lra Bool Arith String.
From Coquelicot Require Import Coquelicot.
From Coq Require Import List.
From Verif Require Import Num PyList Mat Poly Roots Colloc Ocp Transcribe Spec SpecOcp SpecHadapt SpecExact SpecSmooth NumR ListR PolyR CollocR CompR CollocThm MeshR BlockR DiscR NlpR OcpR NlpThm NlpMain CostR BalanceR ScaleR ConvexR TaylorR.
From Verif Require ExactR.
Import ListNotations.
Open Scope R_scope.

Lemma vec_eq n f g : (forall i, (i < n)%nat -> f i = g i) -> vec n f = vec n g.
Proof. intros H. unfold vec. apply map_ext_in. intros i Hi. apply in_seq in Hi. apply H. lia. Qed.

(** ** constants of the segments *)
Definition seg_const (cf : ccfg Rnum) (q : nat) (C : R) : Prop := 0 <= C /\
  forall r, c_roots cf q = Ok r -> forall f a h c, 0 < h -> interpolates c r (fun j => f (a + h * (nth j r 0 - cf_tau0 cf))) ->
  let dur := h * (cf_tau1 cf - cf_tau0 cf) in
  (forall M, smooth f a (a + dur) (S q) M ->
    (forall j, (j <= q)%nat -> Rabs (Derive (peval c) (nth j r 0) - h * Derive f (a + h * (nth j r 0 - cf_tau0 cf))) <= C * M * dur ^ S q) /\
    (forall j, (j < q)%nat -> let x := (nth j r 0 + nth (S j) r 0) / 2 in Rabs (peval c x - f (a + h * (x - cf_tau0 cf))) <= C * M * dur ^ S q)) /\
  (forall M m, (cf_scheme cf = "LGR"%string /\ (2 <= q)%nat /\ m = (2 * q - 2)%nat \/ m = q) -> smooth f a (a + dur) (S m) M ->
    Rabs (h * RInt (peval c) (cf_tau0 cf) (cf_tau1 cf) - RInt f a (a + dur)) <= C * M * dur ^ S (S m)).

Lemma nth_mid (r : list R) q j : (j < q)%nat -> nth j (map (fun j => (nth j r 0 + nth (S j) r 0) / 2) (seq 0 q)) 0 = (nth j r 0 + nth (S j) r 0) / 2.
Proof. intros Hj. rewrite (nth_map_in _ _ _ _ 0%nat) by (rewrite seq_length; exact Hj). rewrite seq_nth by exact Hj. reflexivity. Qed.
Lemma good_range t0 t1 q r j : t0 < t1 -> good_nodes t0 t1 q r -> (j <= q)%nat -> t0 <= nth j r 0 <= t1.
Proof.
  intros Ht (L & I & A & B) Hj. split.
  - destruct j as [|j]; [rewrite A; lra|]. rewrite <- A. apply Rlt_le, I. nred. lia.
  - destruct (Nat.eq_dec j q) as [->|]; [rewrite B; lra|]. rewrite <- B. apply Rlt_le, I. nred. lia.
Qed.
Lemma seg_const_exists cf q : cfg_ok cf -> (1 <= q)%nat -> exists C, seg_const cf q C.
Proof.
  intros Hcf Hq. destruct (c_roots_good cf q Hcf Hq) as (r & Er & Hg). pose proof (co_taus _ Hcf) as Ht.
  pose proof (good_nodup _ _ _ _ Hg) as Hnd. assert (Lr : length r = S q) by apply Hg.
  set (pts := map (fun j => (nth j r 0 + nth (S j) r 0) / 2) (seq 0 q)).
  assert (Lp : length pts = q) by (unfold pts; rewrite map_length, seq_length; reflexivity).
  destruct (segment_error cf (cf_tau0 cf) (cf_tau1 cf) q r pts Ht Hq Hg) as (C1 & H1 & E1).
  { intros x Hx. unfold pts in Hx. apply in_map_iff in Hx. destruct Hx as (j & <- & Hj). apply in_seq in Hj. cbv beta. pose proof (good_range _ _ _ _ j Ht Hg ltac:(lia)). pose proof (good_range _ _ _ _ (S j) Ht Hg ltac:(lia)). nred. lra. }
  assert (Hrg : forall j, (j < length r)%nat -> cf_tau0 cf <= nth j r 0 <= cf_tau1 cf) by (intros j Hj; apply (good_range _ _ q); [exact Ht|exact Hg|rewrite Lr in Hj; lia]).
  assert (HI : forall m W, (q <= m)%nat -> (forall c, (length c <= S m)%nat -> Rsum (length r) (fun j => nth j W 0 * peval c (nth j r 0)) = RInt (peval c) (cf_tau0 cf) (cf_tau1 cf)) ->
    exists C, 0 <= C /\ forall f a h c M, 0 < h -> interpolates c r (fun j => f (a + h * (nth j r 0 - cf_tau0 cf))) ->
    smooth f a (a + h * (cf_tau1 cf - cf_tau0 cf)) (S m) M ->
    Rabs (h * RInt (peval c) (cf_tau0 cf) (cf_tau1 cf) - RInt f a (a + h * (cf_tau1 cf - cf_tau0 cf))) <= C * M * (h * (cf_tau1 cf - cf_tau0 cf)) ^ S (S m)).
  { intros m W Hm HW. destruct (integral_error (cf_tau0 cf) (cf_tau1 cf) m r W Ht Hrg HW) as (C & HC & EC). exists C. split; [exact HC|].
    intros f a h c M Hh [Lc Ec] Hs. rewrite <- (HW c) by (nred; lia). rewrite (Rsum_ext (length r) _ (fun j => nth j W 0 * f (a + h * (nth j r 0 - cf_tau0 cf)))); [apply EC; assumption|].
    intros j Hj. exact (f_equal (Rmult (nth j W 0)) (Ec j Hj)). }
  destruct (weights_exact_thm cf r (cf_tau0 cf) (cf_tau1 cf) Hnd (lo_integ _ (co_lib _ Hcf))) as (W & _ & _ & HW).
  destruct (HI q W (le_n q)) as (C2 & H2 & E2); [intros c Hc; apply HW; nred; lia|].
  assert (HB : exists C, 0 <= C /\ (cf_scheme cf = "LGR"%string -> (2 <= q)%nat -> forall f a h c M, 0 < h -> interpolates c r (fun j => f (a + h * (nth j r 0 - cf_tau0 cf))) ->
    smooth f a (a + h * (cf_tau1 cf - cf_tau0 cf)) (S (2 * q - 2)) M ->
    Rabs (h * RInt (peval c) (cf_tau0 cf) (cf_tau1 cf) - RInt f a (a + h * (cf_tau1 cf - cf_tau0 cf))) <= C * M * (h * (cf_tau1 cf - cf_tau0 cf)) ^ S (S (2 * q - 2)))).
  { destruct (string_dec (cf_scheme cf) "LGR") as [Es|Es]; [|exists 0; split; [lra|intros; contradiction]].
    destruct (le_lt_dec 2 q) as [H2q|H2q]; [|exists 0; split; [lra|intros; lia]].
    destruct (lgr_weights cf q Hcf Es H2q) as (r' & W' & Er' & _ & _ & HW'). assert (r' = r) as -> by (pose proof (eq_trans (eq_sym Er') Er) as X; injection X as X; exact X).
    destruct (HI (2 * q - 2)%nat W' ltac:(lia)) as (C & HC & EC); [intros c Hc; rewrite Lr; apply HW'; lia|]. exists C. auto. }
  destruct HB as (C3 & H3 & E3). exists (C1 + C2 + C3). split; [lra|].
  intros r' Er' f a h c Hh Hc. assert (r' = r) as -> by (pose proof (eq_trans (eq_sym Er') Er) as X; injection X as X; exact X). cbv zeta.
  set (dur := h * (cf_tau1 cf - cf_tau0 cf)). assert (Hdur : 0 < dur) by (apply Rmult_lt_0_compat; lra).
  assert (HP : forall m M n, smooth f a (a + dur) m M -> 0 <= M * dur ^ n).
  { intros m M n Hs. apply Rmult_le_pos; [|apply pow_le; lra]. pose proof (proj2 (Hs a ltac:(lra))). pose proof (Rabs_pos (Derive_n f m a)). lra. }
  split.
  - intros M Hs. pose proof (HP _ _ (S q) Hs) as HPM. destruct (E1 f a h M c Hh Hs Hc) as [B1 B2]. split; intros j Hj.
    + eapply Rle_trans; [apply B1; exact Hj|]. fold dur. nra.
    + specialize (B2 j ltac:(rewrite Lp; exact Hj)). unfold pts in B2. rewrite nth_mid in B2 by exact Hj. eapply Rle_trans; [exact B2|]. fold dur. nra.
  - intros M m [(Es & H2q & Em)|Em] Hs; subst m.
    + eapply Rle_trans; [apply (E3 Es H2q f a h c M Hh Hc Hs)|]. fold dur. pose proof (HP _ _ (S (S (2 * q - 2))) Hs). nra.
    + eapply Rle_trans; [apply (E2 f a h c M Hh Hc Hs)|]. fold dur. pose proof (HP _ _ (S (S q)) Hs). nra.
Qed.

Section Phase.
Variables (mp : mpo Rnum) (rs : list (list R)) (w : nat -> R) (ph : nat) (P : ftraj) (y : utraj).
Let o := mp_ocp mp.
Let cf := mp_cf mp.
Let orders := mp_orders mp.
Let K := length orders.
Let t0 := cf_tau0 cf.
Let t1 := cf_tau1 cf.
Hypothesis Ht : t0 < t1.
Hypothesis HK : (1 <= K)%nat.
Hypothesis Hpos : forall q, In q orders -> (1 <= q)%nat.
Hypothesis Hrs : length rs = K.
Hypothesis Hgood : forall k q r, nth_error orders k = Some q -> nth_error rs k = Some r -> good_nodes t0 t1 q r.
Hypothesis Hw : forall k, (k < K)%nat -> 0 < w k.
Hypothesis Hsum : Rsum K w = 1.
Hypothesis Hs : fsamples mp rs w P y.
Hypothesis Hsol : fsolves o ph P.
Let T k x := seg_time cf w y k x.

Lemma T_node k x : node_time cf w y k x = T k x.
Proof. apply node_time_seg. exact Ht. Qed.
Lemma T_next k : T k t1 = T (S k) t0.
Proof. unfold T, seg_time, seg_start, seg_h. fold t0 t1. cbn [Rsum]. field. lra. Qed.
Lemma T_range k x : (k < K)%nat -> t0 <= x <= t1 -> f_t0 P <= T k x <= f_tf P.
Proof.
  intros Hk Hx. destruct Hs as (E0 & E1 & _). unfold T, seg_time, seg_start. rewrite E0, E1. pose proof (fs_time _ _ _ Hsol) as Hd.
  assert (A : 0 <= Rsum k w) by (apply Rsum_nonneg; intros i Hi; apply Rlt_le, Hw; lia).
  assert (B : Rsum k w + w k <= 1).
  { rewrite <- Hsum. change (Rsum k w + w k) with (Rsum (S k) w). apply Rsum_mono; [lia|]. intros i Hi. apply Rlt_le, Hw. exact Hi. }
  assert (C : seg_h cf w y k * (x - t0) = (f_tf P - f_t0 P) * (w k * ((x - t0) / (t1 - t0)))).
  { unfold seg_h. rewrite E0, E1. fold t0 t1. field. lra. }
  fold t0. rewrite C. assert (D : 0 <= (x - t0) / (t1 - t0) <= 1).
  { split; [apply Rmult_le_pos; [lra|apply Rlt_le, Rinv_0_lt_compat; lra]|]. apply Rmult_le_reg_r with (t1 - t0); [lra|]. unfold Rdiv. rewrite Rmult_assoc, Rinv_l by lra. lra. }
  pose proof (Hw k Hk) as E. assert (F : 0 <= w k * ((x - t0) / (t1 - t0)) <= w k) by (split; [apply Rmult_le_pos; lra|nra]).
  split; [|]; nra.
Qed.
Lemma T_first : T 0 t0 = f_t0 P.
Proof. destruct Hs as (E0 & _). unfold T, seg_time, seg_start. cbn [Rsum]. rewrite E0. fold t0. ring. Qed.
Lemma T_last : T (K - 1) t1 = f_tf P.
Proof.
  rewrite T_next. replace (S (K - 1)) with K by lia. destruct Hs as (E0 & E1 & _). unfold T, seg_time, seg_start. rewrite Hsum, E0, E1. fold t0. ring.
Qed.
Lemma nodes_of k q : nth_error orders k = Some q -> good_nodes t0 t1 q (nth k rs []).
Proof. intros E. apply (Hgood k q _ E). apply nth_error_nth'. rewrite Hrs. exact (MeshR.nth_error_lt _ _ _ E). Qed.
Lemma node_range k q j : nth_error orders k = Some q -> (j <= q)%nat -> t0 <= nth j (nth k rs []) 0 <= t1.
Proof.
  intros E Hj. destruct (nodes_of k q E) as (L & I & A & B). split.
  - destruct j as [|j]; [rewrite A; lra|]. rewrite <- A. apply Rlt_le, I. nred. lia.
  - destruct (Nat.eq_dec j q) as [->|]; [rewrite B; lra|]. rewrite <- B. apply Rlt_le, I. nred. lia.
Qed.
(** values at the nodes of a segment, its first one included *)
Lemma at_node k q j : nth_error orders k = Some q -> (j <= q)%nat ->
  (forall s, (s < o_nx o)%nat -> y_x y (offset orders k + j) s = f_x P s (T k (nth j (nth k rs []) 0))) /\
  (forall c, (c < o_nu o)%nat -> y_u y (offset orders k + j) c = f_u P c (T k (nth j (nth k rs []) 0))).
Proof.
  intros Eq Hj. destruct Hs as (_ & _ & _ & H). destruct (le_lt_dec 1 j) as [H1|H1].
  - specialize (H (offset orders k + j)%nat k j). rewrite <- T_node. apply H. exists q. auto.
  - assert (j = 0)%nat as -> by lia. destruct k as [|k].
    + rewrite <- T_node. apply H. exists q. auto.
    + destruct (nth_error orders k) as [q'|] eqn:Eq'; [|apply nth_error_None in Eq'; pose proof (MeshR.nth_error_lt _ _ _ Eq); lia].
      destruct (nodes_of (S k) q Eq) as (_ & _ & N0 & _). rewrite N0, <- T_next. destruct (nodes_of k q' Eq') as (_ & _ & _ & N1). rewrite <- N1.
      rewrite Nat.add_0_r, (offset_S _ _ _ Eq'). rewrite <- T_node. apply H. exists q'. split; [exact Eq'|]. split; [lia|]. split; [|reflexivity].
      right. apply Hpos. exact (nth_error_In _ _ Eq').
Qed.
(** values of the user functions *)
Lemma args_eq i t : (forall s, (s < o_nx o)%nat -> y_x y i s = f_x P s t) -> (forall c, (c < o_nu o)%nat -> y_u y i c = f_u P c t) ->
  vec (o_nx o) (y_x y i) = vec (o_nx o) (y_x (f_at P t) 0) /\ vec (o_nu o) (y_u y i) = vec (o_nu o) (y_u (f_at P t) 0) /\ a_of o y = a_of o (f_at P t).
Proof.
  intros H1 H2. split; [apply vec_eq; exact H1|]. split; [apply vec_eq; exact H2|]. unfold a_of. destruct (Nat.eqb (o_na o) 0); [reflexivity|]. f_equal.
  apply vec_eq. destruct Hs as (_ & _ & Ha & _). exact Ha.
Qed.
Lemma smooth_path : path_ok mp rs w ph y.
Proof.
  intros i k j c (q & Eq & Hj & _ & ->). fold orders in Eq |- *. fold cf. fold o. destruct (at_node k q j Eq Hj) as [Ax Au]. destruct (args_eq _ _ Ax Au) as (B1 & B2 & B3).
  pose proof (MeshR.nth_error_lt _ _ _ Eq) as Hk. pose proof (T_range k _ Hk (node_range k q j Eq Hj)) as R. fold (T k (nth j (nth k rs []) 0)).
  intros Hc. apply (fs_path _ _ _ Hsol _ c R). unfold path_val in *. nred. rewrite <- B1, <- B2, <- B3. exact Hc.
Qed.
Lemma first_last : exists q r, nth_error orders 0 = Some q /\ nth_error orders (K - 1) = Some r.
Proof.
  destruct (nth_error orders 0) as [q|] eqn:E; [|apply nth_error_None in E; unfold K in *; lia].
  destruct (nth_error orders (K - 1)) as [r|] eqn:E'; [|apply nth_error_None in E'; unfold K in *; lia]. eauto.
Qed.
Lemma at_first : (forall s, (s < o_nx o)%nat -> y_x y 0 s = f_x P s (f_t0 P)) /\ (forall c, (c < o_nu o)%nat -> y_u y 0 c = f_u P c (f_t0 P)).
Proof.
  destruct first_last as (q & _ & Eq & _). pose proof (at_node 0 q 0 Eq (Nat.le_0_l q)) as A. destruct (nodes_of 0 q Eq) as (_ & _ & N & _).
  rewrite N, T_first in A. replace (offset orders 0 + 0)%nat with 0%nat in A by (destruct orders; reflexivity). exact A.
Qed.
Lemma at_last : (forall s, (s < o_nx o)%nat -> y_x y (total_nodes orders - 1) s = f_x P s (f_tf P)) /\
  (forall c, (c < o_nu o)%nat -> y_u y (total_nodes orders - 1) c = f_u P c (f_tf P)).
Proof.
  destruct first_last as (_ & q & _ & Eq). pose proof (at_node (K - 1) q q Eq (le_n q)) as A. destruct (nodes_of (K - 1) q Eq) as (_ & _ & _ & N).
  rewrite N, T_last in A. replace (offset orders (K - 1) + q)%nat with (total_nodes orders - 1)%nat in A; [exact A|].
  rewrite <- (offset_S _ _ _ Eq). replace (S (K - 1)) with K by lia. unfold total_nodes. fold K. lia.
Qed.
Lemma ends_eq : vec (o_nx o) (y_x y (total_nodes orders - 1)) = vec (o_nx o) (y_x (f_ends P) 1) /\ y_tf y = y_tf (f_ends P) /\
  vec (o_nx o) (y_x y 0) = vec (o_nx o) (y_x (f_ends P) 0) /\ y_t0 y = y_t0 (f_ends P) /\ a_of o y = a_of o (f_ends P).
Proof.
  destruct Hs as (E0 & E1 & Ea & _). split; [apply vec_eq; exact (proj1 at_last)|]. split; [exact E1|]. split; [apply vec_eq; exact (proj1 at_first)|]. split; [exact E0|].
  unfold a_of. destruct (Nat.eqb (o_na o) 0); [reflexivity|]. f_equal. apply vec_eq. exact Ea.
Qed.
Lemma smooth_term : terminal_ok mp ph y.
Proof.
  intros c Hc. apply (fs_term _ _ _ Hsol). destruct ends_eq as (B1 & B2 & B3 & B4 & B5). unfold term_val in *. fold o orders in Hc. nred. rewrite <- B1, <- B2, <- B3, <- B4, <- B5. exact Hc.
Qed.
Lemma smooth_mayer : mayer_val o ph y (total_nodes orders - 1) = mayer_val o ph (f_ends P) 1.
Proof. destruct ends_eq as (B1 & B2 & B3 & B4 & B5). unfold mayer_val. nred. rewrite B1, B2, B3, B4, B5. reflexivity. Qed.
Lemma smooth_bounds : bounds_ok mp ph y.
Proof.
  destruct Hs as (E0 & E1 & Ea & Hn). fold o in Ea. assert (Hne : orders <> []) by (intros E; unfold K in HK; rewrite E in HK; cbn in HK; lia).
  assert (G : forall i, (i < total_nodes orders)%nat -> exists t, f_t0 P <= t <= f_tf P /\
    (forall s, (s < o_nx o)%nat -> y_x y i s = f_x P s t) /\ (forall c, (c < o_nu o)%nat -> y_u y i c = f_u P c t)).
  { intros i Hi. destruct (owned_exists orders i Hne Hi) as (k & j & q & Eq & Hj & _ & ->). destruct (at_node k q j Eq Hj) as [Ax Au].
    exists (T k (nth j (nth k rs []) 0)). split; [|auto]. apply (T_range k _ (MeshR.nth_error_lt _ _ _ Eq) (node_range k q j Eq Hj)). }
  split; [|split; [|split; [|split]]]; fold o orders.
  - intros i s Hi Hss. destruct (Nat.eqb_spec ph 0) as [E|E]; [destruct (Nat.eqb_spec i 0) as [->|]|]; cbn [andb].
    + rewrite (proj1 at_first s Hss). apply (fs_init _ _ _ Hsol s E Hss).
    + destruct (G i Hi) as (t & Rt & Ax & _). rewrite (Ax s Hss). apply (fs_x _ _ _ Hsol t s Rt Hss).
    + destruct (G i Hi) as (t & Rt & Ax & _). rewrite (Ax s Hss). apply (fs_x _ _ _ Hsol t s Rt Hss).
  - intros i c Hi Hc. destruct (G i Hi) as (t & Rt & _ & Au). rewrite (Au c Hc). apply (fs_u _ _ _ Hsol t c Rt Hc).
  - rewrite E0. apply (fs_t0 _ _ _ Hsol).
  - rewrite E1. apply (fs_tf _ _ _ Hsol).
  - intros i Hi. rewrite (Ea i Hi). apply (fs_a _ _ _ Hsol i Hi).
Qed.
(** ** errors of the segments *)
Variable C : R.
Hypothesis HC : forall q, In q orders -> seg_const cf q C.
Hypothesis Hroots : forall k q, nth_error orders k = Some q -> c_roots cf q = Ok (nth k rs []).

Lemma T_from k x : T k x = T k t0 + seg_h cf w y k * (x - t0).
Proof. unfold T, seg_time. fold t0. ring. Qed.
Lemma dur_eq k : seg_h cf w y k * (t1 - t0) = duration w P k.
Proof. destruct Hs as (E0 & E1 & _). unfold seg_h, duration. rewrite E0, E1. fold t0 t1. field. lra. Qed.
Lemma h_pos k : (k < K)%nat -> 0 < seg_h cf w y k.
Proof.
  intros Hk. apply Rmult_lt_reg_r with (t1 - t0); [lra|]. rewrite dur_eq, Rmult_0_l. unfold duration. pose proof (fs_time _ _ _ Hsol). pose proof (Hw k Hk). apply Rmult_lt_0_compat; lra.
Qed.
Lemma seg_smooth k f m M : (k < K)%nat -> smooth f (f_t0 P) (f_tf P) m M -> smooth f (T k t0) (T k t0 + seg_h cf w y k * (t1 - t0)) m M.
Proof.
  intros Hk H t Hx. rewrite <- T_from in Hx. pose proof (T_range k t0 Hk ltac:(lra)). pose proof (T_range k t1 Hk ltac:(lra)). apply H. lra.
Qed.
Lemma seg_data k q f ys c : nth_error orders k = Some q -> seg_interp orders k (nth k rs []) ys c ->
  (forall j, (j <= q)%nat -> ys (offset orders k + j)%nat = f (T k (nth j (nth k rs []) 0))) ->
  interpolates c (nth k rs []) (fun j => f (T k t0 + seg_h cf w y k * (nth j (nth k rs []) 0 - t0))).
Proof.
  intros Eq [Lc Ec] Hy. pose proof (nodes_of k q Eq) as (Lr & _). split; [exact Lc|]. intros j Hj. rewrite <- T_from, <- Hy by (nred; lia). apply Ec. exact Hj.
Qed.
Lemma dyn_error k q j s c M : nth_error orders k = Some q -> (j <= q)%nat -> (s < o_nx o)%nat -> smooth (f_x P s) (f_t0 P) (f_tf P) (S q) M ->
  seg_interp orders k (nth k rs []) (fun i => y_x y i s) c ->
  Rabs (Derive (peval c) (nth j (nth k rs []) 0) - seg_h cf w y k * nth s (dyn_val o ph y (offset orders k + j) (seg_time cf w y k (nth j (nth k rs []) 0))) 0) <= C * M * duration w P k ^ S q.
Proof.
  intros Eq Hj Hss Hsm Hc. pose proof (MeshR.nth_error_lt _ _ _ Eq) as Hk. fold K in Hk.
  destruct (HC q (nth_error_In _ _ Eq)) as [_ H]. specialize (H _ (Hroots k q Eq) (f_x P s) (T k t0) (seg_h cf w y k) c (h_pos k Hk)).
  fold t0 t1 in H. destruct H as [H _]; [apply (seg_data k q (f_x P s) _ c Eq Hc); intros j' Hj'; apply (at_node k q j' Eq Hj'); exact Hss|].
  destruct (H M (seg_smooth k _ _ M Hk Hsm)) as [B _]. specialize (B j Hj). rewrite <- T_from, dur_eq in B.
  destruct (at_node k q j Eq Hj) as [Ax Au]. destruct (args_eq _ _ Ax Au) as (B1 & B2 & B3).
  pose proof (T_range k _ Hk (node_range k q j Eq Hj)) as R. pose proof (is_derive_unique _ _ _ (fs_dyn _ _ _ Hsol _ s R Hss)) as D.
  match type of B with Rabs (_ - _ * ?X) <= _ => replace X with (nth s (dyn_val o ph (f_at P (T k (nth j (nth k rs []) 0))) 0 (T k (nth j (nth k rs []) 0))) 0) in B by (symmetry; exact D) end.
  unfold dyn_val in B |- *. fold (T k (nth j (nth k rs []) 0)). nred. rewrite B1, B2, B3. exact B.
Qed.
Lemma mid_error k q j c d M : nth_error orders k = Some q -> (j < q)%nat -> (c < o_nu o)%nat -> smooth (f_u P c) (f_t0 P) (f_tf P) (S q) M ->
  seg_interp orders k (nth k rs []) (fun i => y_u y i c) d -> let x := (nth j (nth k rs []) 0 + nth (S j) (nth k rs []) 0) / 2 in
  Rabs (peval d x - f_u P c (T k x)) <= C * M * duration w P k ^ S q /\ within (bnd ph (o_lbu o) c) (bnd ph (o_ubu o) c) (f_u P c (T k x)).
Proof.
  intros Eq Hj Hcc Hsm Hc x. pose proof (MeshR.nth_error_lt _ _ _ Eq) as Hk. fold K in Hk. split.
  - destruct (HC q (nth_error_In _ _ Eq)) as [_ H]. specialize (H _ (Hroots k q Eq) (f_u P c) (T k t0) (seg_h cf w y k) d (h_pos k Hk)).
    fold t0 t1 in H. destruct H as [H _]; [apply (seg_data k q (f_u P c) _ d Eq Hc); intros j' Hj'; apply (at_node k q j' Eq Hj'); exact Hcc|].
    destruct (H M (seg_smooth k _ _ M Hk Hsm)) as [_ B]. specialize (B j Hj). cbv zeta in B. fold x in B. rewrite <- T_from, dur_eq in B. exact B.
  - apply (fs_u _ _ _ Hsol); [|exact Hcc]. apply (T_range k _ Hk). pose proof (node_range k q j Eq ltac:(lia)). pose proof (node_range k q (S j) Eq ltac:(lia)). unfold x. lra.
Qed.
Lemma cost_error L Ck k q m M : run_fun o ph P L -> cost_interp mp rs w ph y Ck -> nth_error orders k = Some q ->
  (cf_scheme cf = "LGR"%string /\ (2 <= q)%nat /\ m = (2 * q - 2)%nat \/ m = q) -> smooth L (f_t0 P) (f_tf P) (S m) M ->
  Rabs (seg_h cf w y k * RInt (peval (Ck k)) t0 t1 - RInt L (T k t0) (T k t1)) <= C * M * duration w P k ^ S (S m).
Proof.
  intros HL Hi Eq Hm Hsm. pose proof (MeshR.nth_error_lt _ _ _ Eq) as Hk. fold K in Hk. specialize (Hi k Hk).
  destruct (HC q (nth_error_In _ _ Eq)) as [_ H]. specialize (H _ (Hroots k q Eq) L (T k t0) (seg_h cf w y k) (Ck k) (h_pos k Hk)).
  fold t0 t1 in H. destruct H as [_ H].
  - destruct Hi as [Lc Ec]. pose proof (nodes_of k q Eq) as (Lr & _). split; [exact Lc|]. intros j Hj. etransitivity; [exact (Ec j Hj)|]. rewrite <- T_from.
    assert (Hj' : (j <= q)%nat) by (nred; lia). destruct (at_node k q j Eq Hj') as [Ax Au]. destruct (args_eq _ _ Ax Au) as (B1 & B2 & B3).
    etransitivity; [|exact (HL _ (T_range k _ Hk (node_range k q j Eq Hj')))]. unfold run_at, run_val. fold o orders cf. fold (T k (nth j (nth k rs []) 0)). nred. rewrite B1, B2, B3. reflexivity.
  - specialize (H M m Hm (seg_smooth k _ _ M Hk Hsm)). rewrite <- T_from, dur_eq in H. exact H.
Qed.
End Phase.

(** ** from blocks to the program *)
Lemma Nsum_split l i : (i < Nsum l)%nat -> exists b r, (b < length l)%nat /\ (r < nth b l 0)%nat /\ i = (Nsum (firstn b l) + r)%nat.
Proof.
  revert i. induction l as [|x l IH]; intros i Hi; [cbn in Hi; lia|]. change (Nsum (x :: l)) with (x + Nsum l)%nat in Hi. destruct (le_lt_dec x i) as [Hx|Hx].
  - destruct (IH (i - x)%nat ltac:(lia)) as (b & r & Hb & Hr & E). exists (S b), r. cbn [length nth firstn]. split; [lia|]. split; [exact Hr|]. change (Nsum (x :: firstn b l)) with (x + Nsum (firstn b l))%nat. lia.
  - exists 0%nat, i. cbn [length nth firstn]. split; [lia|]. split; [exact Hx|reflexivity].
Qed.
Lemma sub_within eps c a l r : sat_within eps (sub_con c a l) -> (r < l)%nat -> (a + r < length (c_g c))%nat ->
  above (nth (a + r) (c_lo c) NaN) (nth (a + r) (c_g c) 0 + eps) /\ below (nth (a + r) (c_hi c) NaN) (nth (a + r) (c_g c) 0 - eps).
Proof.
  intros H Hr Ha. specialize (H r). unfold sub_con in H. cbn [c_g c_lo c_hi] in H. rewrite firstn_length, skipn_length in H. specialize (H ltac:(nred; lia)).
  rewrite !nth_firstn_lt, !nth_skipn in H by exact Hr. exact H.
Qed.
Lemma within_blocks eps mp npath nterm n :
  length (c_g (n_g n)) = (Nsum (map (fun ph => Nsum (block_rows mp npath nterm ph)) (seq 0 (o_nph (mp_ocp mp)))) + link_rows (mp_ocp mp))%nat ->
  (forall ph b, (ph < o_nph (mp_ocp mp))%nat -> (b < 6)%nat -> sat_within eps (g_block mp npath nterm n ph b)) ->
  sat_within eps (g_links mp npath nterm n) -> sat_within eps (n_g n).
Proof.
  intros HL HB HK i Hi. set (rows := fun ph => Nsum (block_rows mp npath nterm ph)) in *. set (N := o_nph (mp_ocp mp)) in *.
  destruct (le_lt_dec (Nsum (map rows (seq 0 N))) i) as [Hx|Hx].
  - replace i with (Nsum (map rows (seq 0 N)) + (i - Nsum (map rows (seq 0 N))))%nat by lia. unfold g_links in HK. fold rows N in HK. eapply sub_within; [exact HK|lia|lia].
  - destruct (Nsum_split _ _ Hx) as (ph & r & Hph & Hr & E). rewrite map_length, seq_length in Hph.
    rewrite (nth_map_in _ _ _ _ 0%nat), seq_nth in Hr by (rewrite ?seq_length; exact Hph). cbn [Nat.add] in Hr. unfold rows in Hr.
    destruct (Nsum_split _ _ Hr) as (b & r' & Hb & Hr' & E'). rewrite firstn_map in E.
    assert (Ef : firstn ph (seq 0 N) = seq 0 ph).
    { replace N with (ph + (N - ph))%nat by lia. rewrite seq_app, firstn_app, seq_length, Nat.sub_diag. cbn [firstn]. rewrite app_nil_r. apply firstn_all2. rewrite seq_length. lia. }
    rewrite Ef in E. assert (Ei : i = (Nsum (map rows (seq 0 ph)) + Nsum (firstn b (block_rows mp npath nterm ph)) + r')%nat) by lia. rewrite Ei in Hi |- *.
    eapply sub_within; [apply (HB ph b Hph Hb)|exact Hr'|exact Hi].
Qed.
Lemma sat_sat_within eps c : 0 <= eps -> sat c -> sat_within eps c.
Proof.
  intros He H i Hi. destruct (H i Hi) as [A B]. split.
  - destruct (nth i (c_lo c) NaN); cbn in *; auto; lra.
  - destruct (nth i (c_hi c) NaN); cbn in *; auto; lra.
Qed.
Lemma near_within eps g g' lo hi : length g = length g' -> (forall i, (i < length g)%nat -> Rabs (nth i g 0 - nth i g' 0) <= eps) ->
  sat (Con (N := Rnum) g' lo hi) -> sat_within eps (Con (N := Rnum) g lo hi).
Proof.
  intros Hl Hd H i Hi. cbn [c_g c_lo c_hi] in *. specialize (H i). cbn [c_g c_lo c_hi] in H. destruct (H ltac:(nred; lia)) as [A B]. specialize (Hd i Hi).
  apply Rabs_le_between in Hd. nred. split.
  - destruct (nth i lo NaN); cbn in *; auto; lra.
  - destruct (nth i hi NaN); cbn in *; auto; lra.
Qed.
Lemma sat_bounds (g : list R) (lb ub : list (ext R)) (sc : list R) n m : length g = (n * m)%nat ->
  length lb = n -> length ub = n -> length sc = n ->
  balanced (Con (N := Rnum) g (bound_block (N := Rnum) lb sc m) (bound_block (N := Rnum) ub sc m)) /\
  (sat (Con (N := Rnum) g (bound_block (N := Rnum) lb sc m) (bound_block (N := Rnum) ub sc m)) <->
   forall s i, (s < n)%nat -> (i < m)%nat ->
     within (escale (N := Rnum) (nth s lb NaN) (nth s sc 0)) (escale (N := Rnum) (nth s ub NaN) (nth s sc 0)) (nth (s * m + i) g 0)).
Proof.
  intros Hg Hl Hu Hs.
  assert (Hlen : forall b : list (ext R), length b = n -> length (bound_block (N := Rnum) b sc m) = (n * m)%nat).
  { intros b Hb. unfold bound_block. rewrite length_repeat_each, length_map2. nred. rewrite Hb, Hs, Nat.min_id. reflexivity. }
  assert (Hnth : forall b : list (ext R), length b = n -> forall s i, (s < n)%nat -> (i < m)%nat ->
    nth (s * m + i) (bound_block (N := Rnum) b sc m) NaN = escale (N := Rnum) (nth s b NaN) (nth s sc 0)).
  { intros b Hb s i H1 H2. unfold bound_block. rewrite nth_repeat_each; [|rewrite length_map2; nred; lia|auto].
    rewrite (nth_map2 _ b sc s NaN NaN 0) by (nred; lia). reflexivity. }
  split.
  - split; cbn [c_g c_lo c_hi]; nred; rewrite Hlen; auto.
  - unfold sat. cbn [c_g c_lo c_hi]. nred. rewrite Hg. split.
    + intros H s i H1 H2. rewrite <- (Hnth lb Hl s i), <- (Hnth ub Hu s i) by auto. apply H. nia.
    + intros H i Hi. destruct (divide_index m n i Hi) as (k & j & -> & Hk & Hj).
      nred. rewrite (Hnth lb Hl k j), (Hnth ub Hu k j) by auto. auto.
Qed.
Lemma near_bound_block eps (g : list R) (lb ub : list (ext R)) (sc : list R) n m : length g = (n * m)%nat ->
  length lb = n -> length ub = n -> length sc = n ->
  (forall s i, (s < n)%nat -> (i < m)%nat -> exists v, Rabs (nth (s * m + i) g 0 - v) <= eps /\
     within (escale (N := Rnum) (nth s lb NaN) (nth s sc 0)) (escale (N := Rnum) (nth s ub NaN) (nth s sc 0)) v) ->
  sat_within eps (Con (N := Rnum) g (bound_block (N := Rnum) lb sc m) (bound_block (N := Rnum) ub sc m)).
Proof.
  intros Hg Hl Hu Hs H.
  assert (Hix : forall idx, (idx < n * m)%nat -> exists s i, (s < n)%nat /\ (i < m)%nat /\ idx = (s * m + i)%nat).
  { intros idx Hi. assert (Hm : m <> 0%nat) by (intros ->; lia). exists (idx / m)%nat, (idx mod m)%nat. split; [apply Nat.div_lt_upper_bound; [exact Hm|lia]|].
    split; [apply Nat.mod_upper_bound; exact Hm|]. rewrite (Nat.div_mod idx m Hm) at 1. lia. }
  destruct (finite_choice (fun idx v => forall s i, (s < n)%nat -> (i < m)%nat -> idx = (s * m + i)%nat -> Rabs (nth idx g 0 - v) <= eps /\
     within (escale (N := Rnum) (nth s lb NaN) (nth s sc 0)) (escale (N := Rnum) (nth s ub NaN) (nth s sc 0)) v) 0 (n * m)) as [v Hv].
  { intros idx Hi. destruct (Hix idx Hi) as (s & i & H1 & H2 & E). destruct (H s i H1 H2) as (v & A & B). exists v. intros s' i' H1' H2' E'.
    assert (s' = s) by nia. subst s'. rewrite E. auto. }
  assert (Lg' : length (map v (seq 0 (n * m))) = (n * m)%nat) by (rewrite map_length, seq_length; reflexivity).
  assert (Ng' : forall idx, (idx < n * m)%nat -> nth idx (map v (seq 0 (n * m))) 0 = v idx) by (intros idx Hi; rewrite nth_map_seq by exact Hi; reflexivity).
  apply (near_within eps g (map v (seq 0 (n * m)))).
  - nred. lia.
  - intros idx Hi. assert (Hi' : (idx < n * m)%nat) by (nred; lia). rewrite (Ng' idx Hi'). destruct (Hix idx Hi') as (s & i & H1 & H2 & E). apply (Hv idx Hi' s i H1 H2 E).
  - apply (sat_bounds (map v (seq 0 (n * m))) lb ub sc n m Lg' Hl Hu Hs). intros s i H1 H2. rewrite Ng' by nia. apply (Hv (s * m + i)%nat ltac:(nia) s i H1 H2 eq_refl).
Qed.
Lemma seg_const_le cf q C C' : C <= C' -> cf_tau0 cf < cf_tau1 cf -> seg_const cf q C -> seg_const cf q C'.
Proof.
  intros Hle Ht [H0 H]. split; [lra|]. intros r Er f a h c Hh Hc. cbv zeta. destruct (H r Er f a h c Hh Hc) as [A B]. cbv zeta in A, B.
  set (dur := h * (cf_tau1 cf - cf_tau0 cf)) in *. assert (Hdur : 0 < dur) by (apply Rmult_lt_0_compat; lra).
  assert (HP : forall m M n, smooth f a (a + dur) m M -> C * M * dur ^ n <= C' * M * dur ^ n).
  { intros m M n Hs. assert (X : 0 <= M * dur ^ n); [|nra]. apply Rmult_le_pos; [|apply pow_le; lra]. pose proof (proj2 (Hs a ltac:(lra))). pose proof (Rabs_pos (Derive_n f m a)). lra. }
  split.
  - intros M Hs. destruct (A M Hs) as [A1 A2]. split; intros j Hj; (eapply Rle_trans; [|apply (HP _ _ _ Hs)]); auto.
  - intros M m Hm Hs. eapply Rle_trans; [|apply (HP _ _ _ Hs)]. auto.
Qed.
Lemma consts_exist cf Q : cfg_ok cf -> exists C, 0 <= C /\ forall q, (1 <= q <= Q)%nat -> seg_const cf q C.
Proof.
  intros Hcf. induction Q as [|Q (C & HC & H)]; [exists 0; split; [lra|intros; lia]|]. pose proof (co_taus _ Hcf) as Ht.
  destruct (seg_const_exists cf (S Q) Hcf ltac:(lia)) as (C' & H'). assert (0 <= C') by apply H'. exists (C + C'). split; [lra|].
  intros q Hq. destruct (Nat.eq_dec q (S Q)) as [->|]; [apply (seg_const_le cf _ C'); [lra|exact Ht|exact H']|]. apply (seg_const_le cf _ C); [lra|exact Ht|]. apply H. lia.
Qed.

Lemma scaled_bound a x c m d eps : 0 <= a -> Rabs x <= c * m * d -> c * a * m * d <= eps -> Rabs (a * x) <= eps.
Proof. intros Ha H He. rewrite Rabs_mult, (Rabs_pos_eq a Ha). eapply Rle_trans; [apply Rmult_le_compat_l; [exact Ha|exact H]|]. lra. Qed.
Lemma near0 v eps : Rabs v <= eps -> 0 <= v + eps /\ v - eps <= 0.
Proof. intros H. apply Rabs_le_between in H. lra. Qed.
Lemma RInt_parts f T K a b : (forall k, (k <= K)%nat -> a <= T k <= b) -> (forall t, a <= t <= b -> ex_derive f t) ->
  RInt f (T 0%nat) (T K) = Rsum K (fun k => RInt f (T k) (T (S k))).
Proof.
  intros HT Hc. assert (HI : forall i j, (i <= K)%nat -> (j <= K)%nat -> ex_RInt f (T i) (T j)).
  { intros i j Hi Hj. apply (ex_RInt_continuous (V := R_CompleteNormedModule)). intros t Ht. apply (ex_derive_continuous (V := R_NormedModule)). apply Hc.
    pose proof (HT i Hi). pose proof (HT j Hj). unfold Rmin, Rmax in Ht. destruct (Rle_dec (T i) (T j)); lra. }
  assert (G : forall n, (n <= K)%nat -> RInt f (T 0%nat) (T n) = Rsum n (fun k => RInt f (T k) (T (S k)))).
  { induction n as [|n IH]; intros Hn; [apply (RInt_point (V := R_CompleteNormedModule))|]. cbn [Rsum]. rewrite <- IH by lia. symmetry. apply (RInt_Chasles (V := R_CompleteNormedModule)); apply HI; lia. }
  apply G. lia.
Qed.

Section Program.
Variables (mp : mpo Rnum) (npath nterm : nat -> option nat) (p : list R) (Ps : nat -> ftraj) (M C : R).
Let o := mp_ocp mp.
Let cf := mp_cf mp.
Let orders := mp_orders mp.
Hypothesis Hmp : mpo_ok mp.
Hypothesis Hok : ocp_ok o npath nterm.
Hypothesis Hsc : scales_pos o.
Hypothesis Hp : widths_ok (mp_nseg mp) (o_nph o) p.
Hypothesis Hn : no_slopes o.
Hypothesis Hsol : forall ph, (ph < o_nph o)%nat -> fsolves o ph (Ps ph).
Hypothesis Hlink : flinked o Ps.
Hypothesis Hsm : forall ph, (ph < o_nph o)%nat -> smooth_traj mp ph (Ps ph) M.
Hypothesis HC : forall q, In q orders -> seg_const cf q C.

Lemma fsamples_exist rs : length rs = length orders -> exists z, length z = (o_nph o * nvars mp)%nat /\
  forall ph, (ph < o_nph o)%nat -> fsamples mp rs (width mp p ph) (Ps ph) (user_traj mp z ph).
Proof.
  intros Hrs. assert (Hne : orders <> []) by (intros E; pose proof (mo_nseg _ Hmp); pose proof (mo_len _ Hmp) as L; fold orders in L; rewrite E in L; cbn in L; lia).
  set (y0 := fun ph => Utraj (fun _ _ => 0) (fun _ _ => 0) (f_t0 (Ps ph)) (f_tf (Ps ph)) (f_a (Ps ph))).
  destruct (finite_choice (fun ph (tm : nat -> R) => forall i, (i < total_nodes orders)%nat ->
      exists k j, owned orders i k j /\ tm i = node_time cf (width mp p ph) (y0 ph) k (nth j (nth k rs []) 0)) (fun _ => 0) (o_nph o)) as [tm Htm].
  { intros ph _. apply (finite_choice (fun i t => exists k j, owned orders i k j /\ t = node_time cf (width mp p ph) (y0 ph) k (nth j (nth k rs []) 0)) 0).
    intros i Hi. destruct (owned_exists orders i Hne Hi) as (k & j & Hkj). eauto. }
  set (ys := fun ph => Utraj (fun i s => f_x (Ps ph) s (tm ph i)) (fun i c => f_u (Ps ph) c (tm ph i)) (f_t0 (Ps ph)) (f_tf (Ps ph)) (f_a (Ps ph))).
  exists (pack mp ys). split; [apply length_pack|]. intros ph Hph.
  destruct (pack_traj mp ys ph (ok_shapes _ _ _ Hok) Hsc Hph) as (A & B & E1 & D & E). fold o orders in A, B, E.
  split; [exact E1|]. split; [exact D|]. split; [exact E|]. intros i k j Hkj. cbv zeta. fold orders in Hkj. fold o cf.
  assert (Hi : (i < total_nodes orders)%nat) by (apply (owned_lt orders i k j); auto; exact (mo_pos _ Hmp)).
  destruct (Htm ph Hph i Hi) as (k' & j' & Hkj' & Et). destruct (owned_unique orders i k j k' j' (mo_pos _ Hmp) Hkj Hkj') as [<- <-].
  assert (Et' : node_time cf (width mp p ph) (user_traj mp (pack mp ys) ph) k (nth j (nth k rs []) 0) = tm ph i).
  { rewrite Et. unfold node_time. rewrite E1, D. reflexivity. }
  nred. rewrite Et'. split; intros s Hs'; [exact (A i s Hi Hs')|exact (B i s Hi Hs')].
Qed.
Theorem smooth_program : exists rs, mapM (c_roots cf) orders = Ok rs /\
  (exists z, length z = (o_nph o * nvars mp)%nat /\ forall ph, (ph < o_nph o)%nat -> fsamples mp rs (width mp p ph) (Ps ph) (user_traj mp z ph)) /\
  forall z, length z = (o_nph o * nvars mp)%nat -> (forall ph, (ph < o_nph o)%nat -> fsamples mp rs (width mp p ph) (Ps ph) (user_traj mp z ph)) ->
    exists n, nlp_at mp z p = Ok n /\ sat (n_x n) /\
      (forall eps, 0 <= eps ->
        (forall ph k q s, (ph < o_nph o)%nat -> nth_error orders k = Some q -> (s < o_nx o)%nat ->
           C * nth s (o_scale_x o) 0 * M * duration (width mp p ph) (Ps ph) k ^ S q <= eps) ->
        (forall ph k q c, (ph < o_nph o)%nat -> nth_error orders k = Some q -> (c < o_nu o)%nat -> nth ph (o_midu o) false = true ->
           C * nth c (o_scale_u o) 0 * M * duration (width mp p ph) (Ps ph) k ^ S q <= eps) ->
        sat_within eps (n_g n)) /\
      (forall Ls m ML, (forall ph, (ph < o_nph o)%nat -> run_fun o ph (Ps ph) (Ls ph)) ->
        cf_scheme cf = "LGR"%string /\ (forall k q, nth_error orders k = Some q -> (2 <= q)%nat /\ m k = (2 * q)%nat) \/
        length orders = 1%nat /\ (forall k q, nth_error orders k = Some q -> m k = (q + 2)%nat) ->
        (forall ph k, (ph < o_nph o)%nat -> (k < length orders)%nat -> smooth (Ls ph) (f_t0 (Ps ph)) (f_tf (Ps ph)) (m k - 1) ML) ->
        Rabs (n_f n - Rsum (o_nph o) (fun ph => fcost o ph (Ps ph) (Ls ph))) <=
          C * ML * Rsum (o_nph o) (fun ph => Rsum (length orders) (fun k => duration (width mp p ph) (Ps ph) k ^ m k))).
Proof.
  assert (Hlp : length p = (o_nph o * mp_nseg mp)%nat) by (destruct Hp as [L _]; rewrite L; lia).
  assert (Hlo : (1 <= length orders)%nat) by (unfold orders; rewrite (mo_len _ Hmp); exact (mo_nseg _ Hmp)).
  assert (Hne : orders <> []) by (intros E; rewrite E in Hlo; cbn in Hlo; lia).
  pose proof (co_taus _ (mo_cfg _ Hmp)) as Ht. fold cf in Ht.
  assert (HR : exists rs, mapM (c_roots cf) orders = Ok rs /\ length rs = length orders).
  { destruct (nlp_at_ok mp Hmp npath nterm Hok Hsc (pack mp (fun _ => Utraj (fun _ _ => 0) (fun _ _ => 0) 0 0 (fun _ => 0))) p (length_pack _ _) Hlp) as (rs & n & E1 & _ & E2 & _). eauto. }
  destruct HR as (rs & Er & Hrs). exists rs. split; [exact Er|]. split; [exact (fsamples_exist rs Hrs)|]. intros z Hz Hs.
  pose proof (Build_input_ok _ _ _ _ _ Hmp Hok Hsc Hz Hlp) as Hin.
  destruct (objective mp npath nterm z p Hin) as (rs1 & n1 & Er1 & En1 & (C0 & B0 & HC0 & HB0) & _ & HLGR & Hone).
  destruct (nlp_at_ok mp Hmp npath nterm Hok Hsc z p Hz Hlp) as (rs2 & n & Er2 & En & _ & Hg & _ & _ & _ & _ & Hb & _).
  destruct (nlp_blocks_full mp npath nterm z p Hin) as (rs3 & n3 & Er3 & En3 & HBk & HLk).
  destruct (nlp_lengths mp npath nterm z p Hin) as (n4 & z0 & En4 & _ & _ & _ & _ & _ & HLn).
  assert (rs1 = rs) as -> by (pose proof (eq_trans (eq_sym Er1) Er) as X; injection X as X; exact X).
  assert (rs2 = rs) as -> by (pose proof (eq_trans (eq_sym Er2) Er) as X; injection X as X; exact X).
  assert (rs3 = rs) as -> by (pose proof (eq_trans (eq_sym Er3) Er) as X; injection X as X; exact X).
  assert (n1 = n) as -> by (pose proof (eq_trans (eq_sym En1) En) as X; injection X as X; exact X).
  assert (n3 = n) as -> by (pose proof (eq_trans (eq_sym En3) En) as X; injection X as X; exact X).
  assert (n4 = n) as -> by (pose proof (eq_trans (eq_sym En4) En) as X; injection X as X; exact X).
  fold orders cf in Hg.
  assert (Hroots : forall k q, nth_error orders k = Some q -> c_roots cf q = Ok (nth k rs [])).
  { intros k q Eq. destruct (mapM_inv _ _ _ Er) as [_ HI]. pose proof (HI k q) as X. destruct (X Eq) as (r & E1 & E2). rewrite (nth_error_nth _ _ _ E1). exact E2. }
  assert (HW : forall ph, (ph < o_nph o)%nat -> (forall k, (k < length orders)%nat -> 0 < width mp p ph k) /\ Rsum (length orders) (width mp p ph) = 1).
  { intros ph Hph. exact (ExactR.part_widths mp p Hmp Hp ph Hph). }
  assert (Hint : forall k q (ys : nat -> R), nth_error orders k = Some q -> exists c, seg_interp orders k (nth k rs []) ys c).
  { intros k q ys Eq. apply interp_exists. apply (good_nodup (cf_tau0 cf) (cf_tau1 cf) q). apply (Hg k q _ Eq). apply nth_error_nth'. rewrite Hrs. exact (MeshR.nth_error_lt _ _ _ Eq). }
  exists n. split; [exact En|]. split; [|split].
  - apply Hb. intros ph Hph. destruct (HW ph Hph) as [W1 W2]. exact (smooth_bounds mp rs _ ph (Ps ph) _ Ht Hlo (mo_pos _ Hmp) Hrs Hg W1 W2 (Hs ph Hph) (Hsol ph Hph)).
  - intros eps He Hx Hu. apply (within_blocks eps mp npath nterm n HLn).
    + intros ph b Hph Hb6. destruct (HW ph Hph) as [W1 W2]. destruct (HBk ph Hph) as (S0 & S1 & S2 & S3 & S4 & S5 & ap & d & Eap & Ed & EF & EM).
      destruct (phase_values mp npath nterm z p Hin ph ap d _ _ Hph Eap Ed EF EM) as (rs' & Er' & (g & EG & Lg & Hgv) & HM).
      assert (rs' = rs) as -> by (pose proof (eq_trans (eq_sym Er') Er) as X; injection X as X; exact X). fold o orders in Lg, Hgv, HM.
      destruct (Hn ph) as [N1 N2].
      destruct b as [|[|[|[|[|[|b]]]]]]; [| | | | | |lia].
      * rewrite EG. unfold con_const. intros i Hi. cbn [c_g c_lo c_hi] in Hi |- *. nred. rewrite !nth_repeat_in by exact Hi. cbn [above below].
        assert (Hpos : (0 < total_nodes orders)%nat) by (unfold total_nodes; lia).
        assert (Hi' : (i < o_nx o * total_nodes orders)%nat) by (nred; lia).
        assert (Es : exists s i', (s < o_nx o)%nat /\ (i' < total_nodes orders)%nat /\ i = (s * total_nodes orders + i')%nat).
        { exists (i / total_nodes orders)%nat, (i mod total_nodes orders)%nat. split; [apply Nat.div_lt_upper_bound; [lia|nia]|]. split; [apply Nat.mod_upper_bound; lia|]. rewrite (Nat.div_mod i (total_nodes orders)) at 1 by lia. lia. }
        destruct Es as (s & i' & Hs' & Hi2 & ->). destruct (owned_exists orders i' Hne Hi2) as (k & j & Hkj). pose proof Hkj as (q & Eq & Hj & _ & Ei).
        destruct (Hint k q (fun i => y_x (user_traj mp z ph) i s) Eq) as (c & Hc). rewrite (Hgv s i' k j c Hs' Hkj Hc). rewrite Ei.
        pose proof (dyn_error mp rs (width mp p ph) ph (Ps ph) (user_traj mp z ph) Ht Hlo (mo_pos _ Hmp) Hrs Hg W1 W2 (Hs ph Hph) (Hsol ph Hph) C HC Hroots k q j s c M Eq Hj Hs' (proj1 (Hsm ph Hph q (nth_error_In _ _ Eq)) s Hs') Hc) as B.
        fold o cf orders in B. pose proof (Hx ph k q s Hph Eq Hs') as Hxe. pose proof (sp_x _ Hsc _ (nth_In (o_scale_x o) 0 (eq_ind_r (fun l => (s < l)%nat) Hs' (sh_sx _ (ok_shapes _ _ _ Hok))))) as Hpx.
        pose proof (scaled_bound _ _ _ _ _ eps (Rlt_le _ _ Hpx) B Hxe) as B'. exact (near0 _ _ B').
      * apply sat_sat_within; [exact He|]. apply S1. exact (smooth_path mp rs _ ph (Ps ph) _ Ht Hlo (mo_pos _ Hmp) Hrs Hg W1 W2 (Hs ph Hph) (Hsol ph Hph)).
      * apply sat_sat_within; [exact He|]. apply S2. intros X. fold o in X. nred. congruence.
      * fold o in HM. destruct (nth ph (o_midu o) false) eqn:Emid; cbn [andb] in HM; [destruct (some_finite o ph) eqn:Esf|].
        -- destruct HM as (g' & EG' & Lg' & Hv). rewrite EG'. pose proof (ok_shapes _ _ _ Hok) as Hsh.
           apply (near_bound_block eps g' _ _ _ (o_nu o) (total_nodes orders - 1) Lg').
           ++ apply (proj2 (sh_lbu _ Hsh)), nth_In. rewrite (proj1 (sh_lbu _ Hsh)). exact Hph.
           ++ apply (proj2 (sh_ubu _ Hsh)), nth_In. rewrite (proj1 (sh_ubu _ Hsh)). exact Hph.
           ++ exact (sh_su _ Hsh).
           ++ intros c i Hc Hi. destruct (owned_exists orders (S i) Hne ltac:(lia)) as (k & j & q & Eq & Hj & Hkj & Ei).
              destruct j as [|j]; [destruct Hkj as [->|]; [destruct orders; cbn in Ei|]; lia|]. assert (Ei' : i = (offset orders k + j)%nat) by lia.
              destruct (Hint k q (fun i => y_u (user_traj mp z ph) i c) Eq) as (e & He').
              rewrite Ei', (Hv c k q j e Hc Eq Hj He'). 
              destruct (mid_error mp rs (width mp p ph) ph (Ps ph) (user_traj mp z ph) Ht Hlo (mo_pos _ Hmp) Hrs Hg W1 W2 (Hs ph Hph) (Hsol ph Hph) C HC Hroots k q j c e M Eq Hj Hc (proj2 (Hsm ph Hph q (nth_error_In _ _ Eq)) Emid c Hc) He') as [B Bw].
              pose proof (Hu ph k q c Hph Eq Hc Emid) as Hue. pose proof (sp_u _ Hsc _ (nth_In (o_scale_u o) 0 (eq_ind_r (fun l => (c < l)%nat) Hc (sh_su _ Hsh)))) as Hpu.
              eexists. split; [|apply within_scale; [exact Hpu|exact Bw]]. rewrite <- Rmult_minus_distr_l.
              exact (scaled_bound _ _ _ _ _ eps (Rlt_le _ _ Hpu) B Hue).
        -- rewrite HM. intros i Hi. cbn in Hi. lia.
        -- rewrite HM. intros i Hi. cbn in Hi. lia.
      * apply sat_sat_within; [exact He|]. apply S4. intros X. fold o in X. nred. congruence.
      * apply sat_sat_within; [exact He|]. apply S5. exact (smooth_term mp rs _ ph (Ps ph) _ Ht Hlo (mo_pos _ Hmp) Hrs Hg W1 W2 (Hs ph Hph) (Hsol ph Hph)).
    + apply sat_sat_within; [exact He|]. apply HLk. intros _ k i j Ek. destruct (ok_links _ _ _ Hok i j (nth_error_In _ _ Ek)) as [Hi Hj]. destruct (Hlink k i j Ek) as (A & B & D).
      destruct (HW i Hi) as [W1 W2]. destruct (HW j Hj) as [W3 W4].
      destruct (at_last mp rs _ (Ps i) _ Ht Hlo (mo_pos _ Hmp) Hrs Hg W2 (Hs i Hi)) as [Lx Lu].
      destruct (at_first mp rs _ (Ps j) _ Ht Hlo (mo_pos _ Hmp) Hrs Hg W3 W4 (Hs j Hj)) as [Fx Fu].
      destruct (Hs i Hi) as (_ & Ei & _). destruct (Hs j Hj) as (Ej & _). unfold link_ok. split; [|split].
      * intros s Hs'. rewrite (Lx s Hs'), (Fx s Hs'). exact (A s Hs').
      * intros c Hc. rewrite (Lu c Hc), (Fu c Hc). exact (B c Hc).
      * rewrite Ei, Ej. exact D.
  - intros Ls m ML HL Hcase HLs. assert (Hm : forall k q, nth_error orders k = Some q -> exists m', m k = S (S m') /\ (cf_scheme cf = "LGR"%string /\ (2 <= q)%nat /\ m' = (2 * q - 2)%nat \/ m' = q)).
    { intros k q Eq. destruct Hcase as [[Es Hq]|[_ Hq]].
      - destruct (Hq k q Eq) as [H2 E]. exists (2 * q - 2)%nat. split; [lia|]. left. auto.
      - specialize (Hq k q Eq). exists q. split; [lia|]. right. reflexivity. }
    assert (En' : n_f n = Rsum (o_nph o) (fun ph => phase_cost mp (width mp p ph) ph (user_traj mp z ph) (C0 ph))).
    { destruct Hcase as [[Es Hq]|[H1 _]]; [apply HLGR|apply Hone]; auto. intros q Hin'. fold orders in Hin'.
      assert (X : In q orders) by (destruct orders; [destruct Hin'|right; exact Hin']). destruct (In_nth_error _ _ X) as [k Ek]. apply (Hq k q Ek). }
    rewrite En', <- Rsum_minus, <- Rsum_scal. eapply Rle_trans; [apply Rsum_abs|]. apply Rsum_le. intros ph Hph. destruct (HW ph Hph) as [W1 W2].
    unfold phase_cost, fcost. fold o cf orders. pose proof (smooth_mayer mp rs _ ph (Ps ph) _ Ht Hlo (mo_pos _ Hmp) Hrs Hg W1 W2 (Hs ph Hph)) as Emy. fold o orders in Emy. rewrite Emy.
    set (Tm := fun k => seg_time cf (width mp p ph) (user_traj mp z ph) k (cf_tau0 cf)).
    assert (Tn : forall k, seg_time cf (width mp p ph) (user_traj mp z ph) k (cf_tau1 cf) = Tm (S k)).
    { intros k. pose proof (T_next mp (width mp p ph) (user_traj mp z ph) Ht k) as Et. cbv beta in Et. exact Et. }
    assert (T0 : Tm 0%nat = f_t0 (Ps ph)) by (pose proof (T_first mp rs _ (Ps ph) _ (Hs ph Hph)) as Ef; cbv beta in Ef; exact Ef).
    assert (TK : Tm (length orders) = f_tf (Ps ph)).
    { pose proof (T_last mp rs _ (Ps ph) _ Ht Hlo Hrs W2 (Hs ph Hph)) as El. cbv beta in El. fold orders cf in El. rewrite Tn in El. replace (S (length orders - 1)) with (length orders) in El by lia. exact El. }
    assert (Tr : forall k, (k <= length orders)%nat -> f_t0 (Ps ph) <= Tm k <= f_tf (Ps ph)).
    { intros k Hk. destruct (Nat.eq_dec k (length orders)) as [->|Hk']; [rewrite TK; pose proof (fs_time _ _ _ (Hsol ph Hph)); lra|].
      pose proof (T_range mp rs (width mp p ph) ph (Ps ph) (user_traj mp z ph) Ht Hlo Hrs W1 W2 (Hs ph Hph) (Hsol ph Hph) k (cf_tau0 cf) ltac:(fold orders; lia) ltac:(fold cf; lra)) as X. exact X. }
    assert (HRI : RInt (Ls ph) (f_t0 (Ps ph)) (f_tf (Ps ph)) = Rsum (length orders) (fun k => RInt (Ls ph) (Tm k) (Tm (S k)))).
    { rewrite <- T0, <- TK. apply (RInt_parts (Ls ph) Tm (length orders) (f_t0 (Ps ph)) (f_tf (Ps ph)) Tr). intros t Hx.
      destruct (nth_error orders 0) as [q|] eqn:Eq; [|apply nth_error_None in Eq; lia]. destruct (Hm 0%nat q Eq) as (m' & Em & _).
      apply (proj1 (HLs ph 0%nat Hph Hlo t Hx) 1%nat). lia. }
    rewrite HRI. match goal with |- Rabs (?a + ?b - (?a + ?c)) <= _ => replace (a + b - (a + c)) with (b - c) by ring end.
    rewrite <- Rsum_minus, <- Rsum_scal. eapply Rle_trans; [apply Rsum_abs|]. apply Rsum_le. intros k Hk.
    destruct (nth_error orders k) as [q|] eqn:Eq; [|apply nth_error_None in Eq; lia]. destruct (Hm k q Eq) as (m' & Em & Hm'). rewrite Em, <- Tn. unfold Tm.
    refine (cost_error mp rs (width mp p ph) ph (Ps ph) (user_traj mp z ph) Ht Hlo (mo_pos _ Hmp) Hrs Hg W1 W2 (Hs ph Hph) (Hsol ph Hph) C HC Hroots (Ls ph) (C0 ph) k q m' ML (HL ph Hph) (HC0 ph Hph) Eq Hm' _).
    pose proof (HLs ph k Hph Hk) as X. rewrite Em in X. replace (S m') with (S (S m') - 1)%nat by lia. exact X.
Qed.
End Program.

Theorem smooth_thm cf Q : cfg_ok cf -> exists C, 0 <= C /\ forall mp npath nterm p Ps M,
  mp_cf mp = cf -> mpo_ok mp -> (forall q, In q (mp_orders mp) -> (q <= Q)%nat) -> ocp_ok (mp_ocp mp) npath nterm -> scales_pos (mp_ocp mp) ->
  widths_ok (mp_nseg mp) (o_nph (mp_ocp mp)) p -> no_slopes (mp_ocp mp) ->
  (forall ph, (ph < o_nph (mp_ocp mp))%nat -> fsolves (mp_ocp mp) ph (Ps ph) /\ smooth_traj mp ph (Ps ph) M) -> flinked (mp_ocp mp) Ps ->
  let o := mp_ocp mp in let orders := mp_orders mp in
  exists rs, mapM (c_roots cf) orders = Ok rs /\
  (exists z, length z = (o_nph o * nvars mp)%nat /\ forall ph, (ph < o_nph o)%nat -> fsamples mp rs (width mp p ph) (Ps ph) (user_traj mp z ph)) /\
  forall z, length z = (o_nph o * nvars mp)%nat -> (forall ph, (ph < o_nph o)%nat -> fsamples mp rs (width mp p ph) (Ps ph) (user_traj mp z ph)) ->
    exists n, nlp_at mp z p = Ok n /\ sat (n_x n) /\
      (forall eps, 0 <= eps ->
        (forall ph k q s, (ph < o_nph o)%nat -> nth_error orders k = Some q -> (s < o_nx o)%nat ->
           C * nth s (o_scale_x o) 0 * M * duration (width mp p ph) (Ps ph) k ^ S q <= eps) ->
        (forall ph k q c, (ph < o_nph o)%nat -> nth_error orders k = Some q -> (c < o_nu o)%nat -> nth ph (o_midu o) false = true ->
           C * nth c (o_scale_u o) 0 * M * duration (width mp p ph) (Ps ph) k ^ S q <= eps) ->
        sat_within eps (n_g n)) /\
      (forall Ls m ML, (forall ph, (ph < o_nph o)%nat -> run_fun o ph (Ps ph) (Ls ph)) ->
        cf_scheme cf = "LGR"%string /\ (forall k q, nth_error orders k = Some q -> (2 <= q)%nat /\ m k = (2 * q)%nat) \/
        length orders = 1%nat /\ (forall k q, nth_error orders k = Some q -> m k = (q + 2)%nat) ->
        (forall ph k, (ph < o_nph o)%nat -> (k < length orders)%nat -> smooth (Ls ph) (f_t0 (Ps ph)) (f_tf (Ps ph)) (m k - 1) ML) ->
        Rabs (n_f n - Rsum (o_nph o) (fun ph => fcost o ph (Ps ph) (Ls ph))) <=
          C * ML * Rsum (o_nph o) (fun ph => Rsum (length orders) (fun k => duration (width mp p ph) (Ps ph) k ^ m k))).
Proof.
  intros Hcf. destruct (consts_exist cf Q Hcf) as (C & H0 & HC). exists C. split; [exact H0|].
  intros mp npath nterm p Ps M <- Hmp HQ Hok Hsc Hp Hn Hs Hl. cbv zeta.
  apply (smooth_program mp npath nterm p Ps M C Hmp Hok Hsc Hp Hn (fun ph Hph => proj1 (Hs ph Hph)) Hl (fun ph Hph => proj2 (Hs ph Hph))).
  intros q Hq. apply HC. split; [exact (mo_pos _ Hmp q Hq)|exact (HQ q Hq)].
Qed.

(** ** convergence *)
Lemma pow_le_one x n : 0 <= x <= 1 -> (1 <= n)%nat -> x ^ n <= x.
Proof. intros Hx Hn. destruct n as [|n]; [lia|]. cbn [pow]. assert (x ^ n <= 1) by (rewrite <- (pow1 n); apply pow_incr; lra). assert (0 <= x ^ n) by (apply pow_le; lra). nra. Qed.
Lemma In_le_sum (l : list R) x : (forall y, In y l -> 0 < y) -> In x l -> x <= fold_right Rplus 0 l.
Proof.
  induction l as [|a l IH]; intros Hp Hi; [destruct Hi|]; destruct Hi as [<-|Hi]; cbn [fold_right].
  - assert (0 <= fold_right Rplus 0 l); [|lra]. clear IH. assert (Hp' : forall y, In y l -> 0 < y) by (intros; apply Hp; right; assumption). clear Hp. induction l as [|b l IH]; cbn [fold_right]; [lra|].
    pose proof (Hp' b (or_introl eq_refl)). pose proof (IH (fun y Hy => Hp' y (or_intror Hy))). lra.
  - pose proof (Hp a (or_introl eq_refl)). pose proof (IH (fun y Hy => Hp y (or_intror Hy)) Hi). lra.
Qed.
Lemma sum_pos (l : list R) : (forall y, In y l -> 0 < y) -> 0 <= fold_right Rplus 0 l.
Proof. induction l as [|a l IH]; intros Hp; cbn [fold_right]; [lra|]. pose proof (Hp a (or_introl eq_refl)). pose proof (IH (fun y Hy => Hp y (or_intror Hy))). lra. Qed.
Theorem converge_thm cf Q o npath nterm Ps Ls M ML : cfg_ok cf -> cf_scheme cf = "LGR"%string -> ocp_ok o npath nterm -> scales_pos o -> no_slopes o ->
  (forall ph, (ph < o_nph o)%nat -> fsolves o ph (Ps ph) /\ run_fun o ph (Ps ph) (Ls ph)) -> flinked o Ps ->
  forall eps, 0 < eps -> exists delta, 0 < delta /\ forall mp p,
    mp_ocp mp = o -> mp_cf mp = cf -> mpo_ok mp -> widths_ok (mp_nseg mp) (o_nph o) p ->
    (forall q, In q (mp_orders mp) -> (2 <= q <= Q)%nat) ->
    (forall ph, (ph < o_nph o)%nat -> smooth_traj mp ph (Ps ph) M) ->
    (forall ph q, (ph < o_nph o)%nat -> In q (mp_orders mp) -> smooth (Ls ph) (f_t0 (Ps ph)) (f_tf (Ps ph)) (2 * q - 1) ML) ->
    (forall ph k, (ph < o_nph o)%nat -> (k < mp_nseg mp)%nat -> duration (width mp p ph) (Ps ph) k <= delta) ->
    exists rs z n, mapM (c_roots cf) (mp_orders mp) = Ok rs /\ length z = (o_nph o * nvars mp)%nat /\
      (forall ph, (ph < o_nph o)%nat -> fsamples mp rs (width mp p ph) (Ps ph) (user_traj mp z ph)) /\
      nlp_at mp z p = Ok n /\ sat (n_x n) /\ sat_within eps (n_g n) /\
      Rabs (n_f n - Rsum (o_nph o) (fun ph => fcost o ph (Ps ph) (Ls ph))) <= eps.
Proof.
  intros Hcf Hl Hok Hsc Hn Hs Hlk eps He. destruct (smooth_thm cf Q Hcf) as (C & H0 & H).
  set (SX := fold_right Rplus 0 (o_scale_x o)). set (SU := fold_right Rplus 0 (o_scale_u o)).
  set (TT := Rsum (o_nph o) (fun ph => f_tf (Ps ph) - f_t0 (Ps ph))).
  assert (HSX : 0 <= SX) by (apply sum_pos; exact (sp_x _ Hsc)). assert (HSU : 0 <= SU) by (apply sum_pos; exact (sp_u _ Hsc)).
  assert (HTT : 0 <= TT) by (apply Rsum_nonneg; intros ph Hph; pose proof (fs_time _ _ _ (proj1 (Hs ph Hph))); lra).
  pose proof (Rabs_pos M) as HM. pose proof (Rabs_pos ML) as HML.
  set (A := C * SX * Rabs M). set (B := C * SU * Rabs M). set (D := C * Rabs ML * TT).
  assert (HA : 0 <= A) by (unfold A; apply Rmult_le_pos; [apply Rmult_le_pos|]; lra). assert (HB : 0 <= B) by (unfold B; apply Rmult_le_pos; [apply Rmult_le_pos|]; lra).
  assert (HD : 0 <= D) by (unfold D; apply Rmult_le_pos; [apply Rmult_le_pos|]; lra).
  set (den := 1 + eps + A + B + D). assert (Hden : 0 < den) by (unfold den; lra). set (delta := eps / den).
  assert (Hd : 0 < delta) by (apply Rdiv_lt_0_compat; lra). assert (Hdd : delta * den = eps) by (unfold delta; field; lra).
  assert (Hd1 : delta <= 1) by (unfold den in Hdd; nra). exists delta. split; [exact Hd|].
  intros mp p <- <- Hmp Hp HQ Hsm HLs Hdur.
  assert (Hlo : length (mp_orders mp) = mp_nseg mp) by exact (mo_len _ Hmp).
  destruct (H mp npath nterm p Ps M eq_refl Hmp (fun q Hq => proj2 (HQ q Hq)) Hok Hsc Hp Hn (fun ph Hph => conj (proj1 (Hs ph Hph)) (Hsm ph Hph)) Hlk) as (rs & Er & (z & Lz & Hz) & HH).
  destruct (HH z Lz Hz) as (n & En & Hx & Hg & Hf). exists rs, z, n. repeat (split; [assumption|]).
  assert (Hdp : forall ph k, (ph < o_nph (mp_ocp mp))%nat -> (k < mp_nseg mp)%nat -> 0 <= duration (width mp p ph) (Ps ph) k).
  { intros ph k Hph Hk. unfold duration. pose proof (fs_time _ _ _ (proj1 (Hs ph Hph))). destruct (ExactR.part_widths mp p Hmp Hp ph Hph) as [W _]. pose proof (W k ltac:(lia)). apply Rmult_le_pos; lra. }
  assert (Hpw : forall ph k j, (ph < o_nph (mp_ocp mp))%nat -> (k < mp_nseg mp)%nat -> (1 <= j)%nat -> 0 <= duration (width mp p ph) (Ps ph) k ^ j <= delta).
  { intros ph k j Hph Hk Hj. pose proof (Hdp ph k Hph Hk). pose proof (Hdur ph k Hph Hk). split; [apply pow_le; lra|]. eapply Rle_trans; [apply pow_le_one; [lra|exact Hj]|]. lra. }
  assert (Hsc' : forall sc S, 0 <= sc <= S -> C * sc * M <= C * S * Rabs M).
  { intros sc S Hsc'. apply Rle_trans with (C * sc * Rabs M); [apply Rmult_le_compat_l; [apply Rmult_le_pos; lra|apply Rle_abs]|]. apply Rmult_le_compat_r; [exact HM|]. apply Rmult_le_compat_l; lra. }
  split.
  - apply Hg; [lra| |].
    + intros ph k q s Hph Eq Hss. pose proof (MeshR.nth_error_lt _ _ _ Eq) as Hk. destruct (Hpw ph k (S q) Hph ltac:(lia) ltac:(lia)) as [P1 P2].
      pose proof (nth_In (o_scale_x (mp_ocp mp)) 0 (eq_ind_r (fun l => (s < l)%nat) Hss (sh_sx _ (ok_shapes _ _ _ Hok)))) as Hi.
      pose proof (sp_x _ Hsc _ Hi) as Hi0. pose proof (In_le_sum _ _ (sp_x _ Hsc) Hi) as Hi1.
      assert (X : C * nth s (o_scale_x (mp_ocp mp)) 0 * M <= A) by (apply Hsc'; split; [lra|exact Hi1]). unfold den in Hdd.
      apply Rle_trans with (A * delta); [|nra]. eapply Rle_trans; [apply Rmult_le_compat_r; [exact P1|exact X]|]. apply Rmult_le_compat_l; lra.
    + intros ph k q c Hph Eq Hcc _. pose proof (MeshR.nth_error_lt _ _ _ Eq) as Hk. destruct (Hpw ph k (S q) Hph ltac:(lia) ltac:(lia)) as [P1 P2].
      pose proof (nth_In (o_scale_u (mp_ocp mp)) 0 (eq_ind_r (fun l => (c < l)%nat) Hcc (sh_su _ (ok_shapes _ _ _ Hok)))) as Hi.
      pose proof (sp_u _ Hsc _ Hi) as Hi0. pose proof (In_le_sum _ _ (sp_u _ Hsc) Hi) as Hi1.
      assert (X : C * nth c (o_scale_u (mp_ocp mp)) 0 * M <= B) by (apply Hsc'; split; [lra|exact Hi1]). unfold den in Hdd.
      apply Rle_trans with (B * delta); [|nra]. eapply Rle_trans; [apply Rmult_le_compat_r; [exact P1|exact X]|]. apply Rmult_le_compat_l; lra.
  - set (m := fun k => (2 * nth k (mp_orders mp) 0)%nat).
    assert (Hm : forall k q, nth_error (mp_orders mp) k = Some q -> (2 <= q)%nat /\ m k = (2 * q)%nat).
    { intros k q Eq. split; [apply (HQ q (nth_error_In _ _ Eq))|]. unfold m. rewrite (nth_error_nth _ _ _ Eq). reflexivity. }
    eapply Rle_trans; [apply (Hf Ls m ML (fun ph Hph => proj2 (Hs ph Hph)) (or_introl (conj Hl Hm)))|].
    + intros ph k Hph Hk. destruct (nth_error (mp_orders mp) k) as [q|] eqn:Eq; [|apply nth_error_None in Eq; lia]. rewrite (proj2 (Hm k q Eq)). apply (HLs ph q Hph (nth_error_In _ _ Eq)).
    + set (SS := Rsum (o_nph (mp_ocp mp)) (fun ph => Rsum (length (mp_orders mp)) (fun k => duration (width mp p ph) (Ps ph) k ^ m k))).
      assert (X : 0 <= SS <= delta * TT).
      { unfold SS. split; [apply Rsum_nonneg; intros ph Hph; apply Rsum_nonneg; intros k Hk; apply pow_le, Hdp; lia|]. unfold TT. rewrite <- Rsum_scal. apply Rsum_le. intros ph Hph.
        destruct (ExactR.part_widths mp p Hmp Hp ph Hph) as [_ W]. apply Rle_trans with (Rsum (length (mp_orders mp)) (fun k => delta * ((f_tf (Ps ph) - f_t0 (Ps ph)) * width mp p ph k))).
        - apply Rsum_le. intros k Hk. destruct (nth_error (mp_orders mp) k) as [q|] eqn:Eq; [|apply nth_error_None in Eq; lia]. destruct (Hm k q Eq) as [H2 ->].
          replace (2 * q)%nat with (S (2 * q - 1)) by lia. cbn [pow]. rewrite Rmult_comm. fold (duration (width mp p ph) (Ps ph) k). apply Rmult_le_compat_r; [apply Hdp; lia|]. apply (Hpw ph k (2 * q - 1)%nat Hph); lia.
        - rewrite Rsum_scal, Rsum_scal, W. lra. }
      unfold den in Hdd. apply Rle_trans with (C * Rabs ML * (delta * TT)); [|fold D; unfold D in *; nra].
      apply Rle_trans with (C * Rabs ML * SS); [apply Rmult_le_compat_r; [lra|]; apply Rmult_le_compat_l; [exact H0|apply Rle_abs]|]. apply Rmult_le_compat_l; [apply Rmult_le_pos; lra|lra].
Qed.
