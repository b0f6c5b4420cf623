(** Trajectories of the differential equation near the polynomials of a solution (proofs of C69). *)
From Coq Require Import Reals Lia Lra Bool Arith String.
From Coquelicot Require Import Coquelicot.
From Coq Require Import List.
From Verif Require Import Num PyList Mat Poly Roots Colloc Ocp Transcribe Hadapt Resid Spec SpecOcp SpecHadapt SpecResid SpecExact SpecSmooth SpecTrack
  NumR ListR PolyR CollocR CompR CollocThm MeshR BlockR DiscR NlpR NlpThm NlpMain BalanceR ConvexR DualR TaylorR SmoothR ResidThm TransR ExactR.
Import ListNotations.
Open Scope R_scope.

(** ** growth of the distance on one interval *)
Lemma grow (n : nat) (e de : nat -> R -> R) (a b k c h : R) : a <= b -> 
  (forall s x, (s < n)%nat -> a < x < b -> is_derive (e s) x (de s x)) ->
  (forall s x, (s < n)%nat -> a <= x <= b -> continuous (e s) x) ->
  (forall x, a < x < b -> Rsum n (fun s => 2 * e s x * de s x) <= h * k * (Rsum n (fun s => e s x ^ 2) + c)) ->
  Rsum n (fun s => e s b ^ 2) + c <= (Rsum n (fun s => e s a ^ 2) + c) * exp (k * h * (b - a)).
Proof.
  intros Hab Hd Hc Hg. destruct (Rle_lt_or_eq_dec a b Hab) as [Hlt| <-].
  2:{ replace (k * h * (a - a)) with 0 by ring. rewrite exp_0. lra. }
  set (E := fun x => Rsum n (fun s => e s x ^ 2)). set (H := fun x => (E x + c) * exp (- (k * h * (x - a)))).
  set (dE := fun x => Rsum n (fun s => 2 * e s x * de s x)).
  assert (DE : forall x, a < x < b -> is_derive E x (dE x)).
  { intros x Hx. unfold E, dE. apply (is_derive_Rsum n (fun s x => e s x ^ 2) (fun s => 2 * e s x * de s x)). intros s Hs.
    evar_last; [apply is_derive_pow; apply (Hd s x Hs Hx)|]. cbn. ring. }
  assert (CE : forall x, a <= x <= b -> continuous E x).
  { intros x Hx. unfold E. clear - Hc Hx. induction n as [|n IH]; cbn [Rsum]; [apply continuous_const|].
    apply (continuous_plus (V := R_NormedModule) (fun x => Rsum n (fun s => e s x ^ 2)) (fun x => e n x ^ 2)); [apply IH; intros; apply Hc; [lia|assumption]|].
    apply continuous_ext with (f := fun x => e n x * e n x); [intros t; cbn; ring|].
    apply (continuous_mult (K := R_AbsRing) (e n) (e n)); apply Hc; lia || assumption. }
  set (dH := fun x => Rmin 0 ((dE x - h * k * (E x + c)) * exp (- (k * h * (x - a))))).
  assert (Hneg : forall x, a < x < b -> dH x = (dE x - h * k * (E x + c)) * exp (- (k * h * (x - a)))).
  { intros x Hx. unfold dH. rewrite Rmin_right; [reflexivity|]. specialize (Hg x Hx). fold (dE x) (E x) in Hg. pose proof (exp_pos (- (k * h * (x - a)))). nra. }
  destruct (MVT_gen H a b dH) as (x & Hx & Em).
  - intros x. rewrite Rmin_left, Rmax_right by lra. intros Hx. rewrite (Hneg x Hx). unfold H.
    evar_last.
    + apply (is_derive_mult (fun x => E x + c) (fun x => exp (- (k * h * (x - a)))) x (dE x) (- (k * h) * exp (- (k * h * (x - a))))).
      * evar_last; [apply (is_derive_plus E (fun _ => c) x (dE x) 0); [apply DE; exact Hx|apply (is_derive_const (V := R_NormedModule))]|unfold plus; cbn; ring].
      * auto_derive; [exact I|]. unfold Rminus. ring.
      * intros u v. unfold mult; cbn. ring.
    + unfold plus, mult; cbn. ring.
  - intros x. rewrite Rmin_left, Rmax_right by lra. intros Hx. apply continuity_pt_filterlim. unfold H.
    apply (continuous_mult (K := R_AbsRing) (fun x => E x + c) (fun x => exp (- (k * h * (x - a))))).
    + apply (continuous_plus (V := R_NormedModule) E (fun _ => c)); [apply CE; exact Hx|apply continuous_const].
    + apply (ex_derive_continuous (V := R_NormedModule)). auto_derive. exact I.
  - assert (HH : H b <= H a). { assert (dH x <= 0) by apply Rmin_l. assert (H b - H a <= 0) by (rewrite Em; nra). lra. }
    unfold H in HH. replace (- (k * h * (a - a))) with 0 in HH by ring. rewrite exp_0, Rmult_1_r, exp_Ropp in HH.
    fold (E b) (E a). pose proof (exp_pos (k * h * (b - a))) as P. apply Rmult_le_reg_r with (/ exp (k * h * (b - a))); [apply Rinv_0_lt_compat; exact P|].
    rewrite (Rmult_assoc (E a + c)), Rinv_r, Rmult_1_r by (apply Rgt_not_eq; exact P). exact HH.
Qed.

(** ** a polynomial small at distinct points is small between them *)
Lemma peval_bounded (c : list R) (a b : R) : exists C, 0 <= C /\ forall x, a <= x <= b -> Rabs (peval c x) <= C.
Proof.
  induction c as [|c0 c (C & HC & H)]; [exists 0; split; [lra|]; intros x _; cbn [peval]; rewrite Rabs_R0; lra|].
  exists (Rabs c0 + (Rabs a + Rabs b) * C). pose proof (Rabs_pos a). pose proof (Rabs_pos b). pose proof (Rabs_pos c0). split; [nra|]. intros x Hx. cbn [peval].
  eapply Rle_trans; [apply Rabs_triang|]. rewrite Rabs_mult. assert (Rabs x <= Rabs a + Rabs b).
  { unfold Rabs. repeat destruct (Rcase_abs _); lra. }
  pose proof (H x Hx). pose proof (Rabs_pos x). pose proof (Rabs_pos (peval c x)). nra.
Qed.
Lemma small_between (r : list R) (a b : R) : NoDup r -> exists C, 0 <= C /\ forall c B, (length c <= length r)%nat -> 0 <= B ->
  (forall j, (j < length r)%nat -> Rabs (peval c (nth j r 0)) <= B) -> forall x, a <= x <= b -> Rabs (peval c x) <= C * B.
Proof.
  intros Hnd. assert (X : forall n, exists C, 0 <= C /\ forall x, a <= x <= b -> Rsum n (fun j => Rabs (peval (@lagrange_num Rnum r j) x)) <= C).
  { induction n as [|n (C & HC & H)]; [exists 0; split; [lra|]; intros; cbn [Rsum]; lra|].
    destruct (peval_bounded (@lagrange_num Rnum r n) a b) as (C' & HC' & H'). exists (C + C'). split; [lra|]. intros x Hx. cbn [Rsum]. pose proof (H x Hx). pose proof (H' x Hx). lra. }
  destruct (X (length r)) as (C & HC & H). exists C. split; [exact HC|]. intros c B Hc HB Hv x Hx. rewrite (lag_combination r c Hnd Hc x).
  eapply Rle_trans; [apply Rsum_abs|]. apply Rle_trans with (Rsum (length r) (fun j => B * Rabs (peval (@lagrange_num Rnum r j) x))).
  - apply Rsum_le. intros j Hj. rewrite Rabs_mult. apply Rmult_le_compat_r; [apply Rabs_pos|]. apply Hv. exact Hj.
  - rewrite (Rsum_ext _ _ (fun j => Rabs (peval (@lagrange_num Rnum r j) x) * B)) by (intros; ring). rewrite Rsum_scal_r. apply Rmult_le_compat_r; [exact HB|]. apply H. exact Hx.
Qed.
Lemma length_pder_from (c : list R) : forall k, length (@pder_from Rnum k c) = length c.
Proof. induction c as [|a c IH]; intros k; cbn [pder_from length]; [reflexivity|]. now rewrite IH. Qed.
Lemma length_pder (c : list R) q : (length c <= S q)%nat -> (length (@pder Rnum c) <= q)%nat.
Proof. destruct c as [|a c]; cbn [pder length]; [lia|]. intros H. pose proof (length_pder_from c 1) as E. nred. rewrite E. lia. Qed.

(** the derivative of the state polynomial follows the dynamics between the collocation points *)
Definition order_const (cf : ccfg Rnum) (q : nat) (C : R) : Prop := 0 <= C /\ forall r, c_roots cf q = Ok r ->
  forall (g : R -> R) a h M (c : list R), 0 < h -> smooth g a (a + h * (cf_tau1 cf - cf_tau0 cf)) q M -> (length c <= S q)%nat ->
    (forall j, (1 <= j <= q)%nat -> Derive (peval c) (nth j r 0) = h * g (a + h * (nth j r 0 - cf_tau0 cf))) ->
    forall x, cf_tau0 cf <= x <= cf_tau1 cf -> Rabs (Derive (peval c) x - h * g (a + h * (x - cf_tau0 cf))) <= h * (C * M * (h * (cf_tau1 cf - cf_tau0 cf)) ^ q).
Lemma order_exists cf q : cfg_ok cf -> (1 <= q)%nat -> exists C, order_const cf q C.
Proof.
  intros Hcf Hq. pose proof (co_taus _ Hcf) as Ht. destruct (c_roots_good cf q Hcf Hq) as (r & Er & Hg).
  set (t0 := cf_tau0 cf) in *. set (t1 := cf_tau1 cf) in *. pose proof (good_nodup _ _ _ _ Hg) as Hnd. assert (Lr : length r = S q) by apply Hg.
  assert (Hrange : forall j, (j <= q)%nat -> t0 <= nth j r 0 <= t1) by (intros j Hj; exact (good_range t0 t1 q r j Ht Hg Hj)).
  destruct r as [|r0 r]; [discriminate|]. cbn [length] in Lr. inversion Hnd as [|? ? _ Hnd']; subst.
  destruct (small_between r t0 t1 Hnd') as (C & HC & HB). exists (C + 1). split; [lra|]. intros r' Er'.
  assert (r' = r0 :: r) as -> by (pose proof (eq_trans (eq_sym Er') Er) as X; injection X as X; exact X). clear Er'.
  intros g a h M c Hh Hs Lc Hn x Hx. fold t0 t1 in Hs, Hn, Hx |- *. set (dur := h * (t1 - t0)) in *. assert (Hdur : 0 < dur) by (apply Rmult_lt_0_compat; lra).
  assert (HM : 0 <= M) by (pose proof (proj2 (Hs a ltac:(lra))); pose proof (Rabs_pos (Derive_n g q a)); lra).
  destruct q as [|n]; [lia|].
  set (tl := tay g n a). destruct (poly_affine tl (- (h * t0)) h) as (d & Ld & Ed).
  assert (Llt : length tl = S n) by apply length_tay.
  destruct (poly_minus (@pder Rnum c) (@pscale Rnum h d) (S n)) as (e & Le & Ee); [apply length_pder; exact Lc|rewrite length_pscale; lia|].
  assert (HT : forall x, t0 <= x <= t1 -> a <= a + h * (x - t0) <= a + dur) by (intros x' Hx'; unfold dur; split; nra).
  assert (Hval : forall x, t0 <= x <= t1 -> Rabs (g (a + h * (x - t0)) - peval d x) <= M * dur ^ S n).
  { intros x' Hx'. rewrite Ed. replace (- (h * t0) + h * x') with (a + h * (x' - t0) - a) by ring.
    eapply Rle_trans; [apply (taylor_value g a (a + dur) n M); [exact Hs|apply HT; exact Hx']|]. apply Rmult_le_compat_l; [exact HM|]. apply pow_incr. pose proof (HT x' Hx'). lra. }
  assert (HP : 0 <= M * dur ^ S n) by (apply Rmult_le_pos; [exact HM|apply pow_le; lra]).
  assert (Hsm : Rabs (peval e x) <= C * (h * (M * dur ^ S n))).
  { apply (HB e (h * (M * dur ^ S n))); [clear - Le Lr; nred; lia|nra| |exact Hx]. intros j Hj. specialize (Hn (S j) ltac:(clear - Lr Hj; nred; lia)). cbn [nth] in Hn. specialize (Hrange (S j) ltac:(clear - Lr Hj; nred; lia)). cbn [nth] in Hrange.
    rewrite Ee, peval_pscale. rewrite (is_derive_unique _ _ _ (is_derive_peval c (nth j r 0))) in Hn.
    apply (eq_ind (h * g (a + h * (nth j r 0 - t0))) (fun v => Rabs (v - h * peval d (nth j r 0)) <= h * (M * dur ^ S n))); [|exact (eq_sym Hn)].
    rewrite <- Rmult_minus_distr_l, Rabs_mult, (Rabs_pos_eq h) by lra. apply Rmult_le_compat_l; [lra|]. apply Hval. exact Hrange. }
  assert (E : Derive (peval c) x - h * g (a + h * (x - t0)) = peval e x - h * (g (a + h * (x - t0)) - peval d x)).
  { rewrite Ee, peval_pscale, (is_derive_unique _ _ _ (is_derive_peval c x)). ring. }
  rewrite E. replace (h * ((C + 1) * M * dur ^ S n)) with (C * (h * (M * dur ^ S n)) + h * (M * dur ^ S n)) by ring.
  unfold Rminus at 1. eapply Rle_trans; [apply Rabs_triang|]. rewrite Rabs_Ropp. apply Rplus_le_compat; [exact Hsm|].
  rewrite Rabs_mult, (Rabs_pos_eq h) by lra. apply Rmult_le_compat_l; [lra|]. apply Hval. exact Hx.
Qed.
Lemma order_le cf q C C' : C <= C' -> cf_tau0 cf < cf_tau1 cf -> order_const cf q C -> order_const cf q C'.
Proof.
  intros Hle Ht [H0 H]. split; [lra|]. intros r Er g a h M c Hh Hs Lc Hn x Hx. eapply Rle_trans; [apply (H r Er g a h M c Hh Hs Lc Hn x Hx)|].
  apply Rmult_le_compat_l; [lra|]. assert (HM : 0 <= M).
  { pose proof (proj2 (Hs a ltac:(nra))). pose proof (Rabs_pos (Derive_n g q a)). lra. }
  assert (0 <= (h * (cf_tau1 cf - cf_tau0 cf)) ^ q) by (apply pow_le; nra). assert (0 <= M * (h * (cf_tau1 cf - cf_tau0 cf)) ^ q) by (apply Rmult_le_pos; assumption). nra.
Qed.
Lemma orders_exist cf Q : cfg_ok cf -> exists C, 0 <= C /\ forall q, (1 <= q <= Q)%nat -> order_const cf q C.
Proof.
  intros Hcf. induction Q as [|Q (C & HC & H)]; [exists 0; split; [lra|intros; lia]|]. pose proof (co_taus _ Hcf) as Ht.
  destruct (order_exists cf (S Q) Hcf ltac:(lia)) as (C' & H'). assert (0 <= C') by apply H'. exists (C + C'). split; [lra|].
  intros q Hq. destruct (Nat.eq_dec q (S Q)) as [->|]; [apply (order_le cf _ C'); [lra|exact Ht|exact H']|]. apply (order_le cf _ C); [lra|exact Ht|]. apply H. lia.
Qed.

(** ** one phase *)
Section Phase.
Variables (mp : mpo Rnum) (rs : list (list R)) (w : nat -> R) (ph : nat) (y : utraj).
Let o := mp_ocp mp.
Let cf := mp_cf mp.
Let orders := mp_orders mp.
Let K := length orders.
Let t0 := cf_tau0 cf.
Let t1 := cf_tau1 cf.
Hypothesis Ht : t0 < t1.
Hypothesis Hpos : forall q, In q orders -> (1 <= q)%nat.
Hypothesis Hrs : length rs = K.
Hypothesis Hgood : forall k q r, nth_error orders k = Some q -> nth_error rs k = Some r -> good_nodes t0 t1 q r.
Hypothesis Hw : forall k, (k < K)%nat -> 0 < w k.
Hypothesis Hsum : Rsum K w = 1.
Hypothesis Hy : y_t0 y < y_tf y.
Let T k x := seg_time cf w y k x.
Let h k := seg_h cf w y k.

Lemma h_pos k : (k < K)%nat -> 0 < h k.
Proof. intros Hk. unfold h, seg_h. apply Rmult_lt_0_compat; [apply Rmult_lt_0_compat; [lra|apply Hw; exact Hk]|apply Rinv_0_lt_compat; fold t0 t1; lra]. Qed.
Lemma T_next k : T k t1 = T (S k) t0.
Proof. unfold T, seg_time, seg_start, seg_h. fold t0 t1. cbn [Rsum]. field. lra. Qed.
Lemma T_diff k x x' : T k x' - T k x = h k * (x' - x).
Proof. unfold T, seg_time, h. ring. Qed.
Lemma T_range k x : (k < K)%nat -> t0 <= x <= t1 -> y_t0 y <= T k x <= y_tf y.
Proof using Ht Hw Hsum Hy.
  clear Hrs Hgood.
  intros Hk Hx. unfold T, seg_time, seg_start.
  assert (A : 0 <= Rsum k w) by (apply Rsum_nonneg; intros i Hi; apply Rlt_le, Hw; lia).
  assert (B : Rsum k w + w k <= 1).
  { rewrite <- Hsum. change (Rsum k w + w k) with (Rsum (S k) w). apply Rsum_mono; [lia|]. intros i Hi. apply Rlt_le, Hw. exact Hi. }
  assert (C : seg_h cf w y k * (x - t0) = (y_tf y - y_t0 y) * (w k * ((x - t0) / (t1 - t0)))).
  { unfold seg_h. fold t0 t1. field. lra. }
  fold t0. rewrite C. assert (D : 0 <= (x - t0) / (t1 - t0) <= 1).
  { split; [apply Rmult_le_pos; [lra|apply Rlt_le, Rinv_0_lt_compat; lra]|]. apply Rmult_le_reg_r with (t1 - t0); [lra|]. unfold Rdiv. rewrite Rmult_assoc, Rinv_l by lra. lra. }
  pose proof (Hw k Hk) as E. assert (F : 0 <= w k * ((x - t0) / (t1 - t0)) <= w k) by (split; [apply Rmult_le_pos; lra|nra]).
  split; [|]; nra.
Qed.
Lemma nodes_of k q : nth_error orders k = Some q -> good_nodes t0 t1 q (nth k rs []).
Proof. intros E. apply (Hgood k q _ E). apply nth_error_nth'. rewrite Hrs. exact (MeshR.nth_error_lt _ _ _ E). Qed.
Lemma order_at k : (k < K)%nat -> exists q, nth_error orders k = Some q.
Proof. intros Hk. destruct (nth_error orders k) as [q|] eqn:E; [eauto|]. apply nth_error_None in E. unfold K in Hk. lia. Qed.
(** values of the polynomials at the ends of the segments *)
Lemma poly_node k q j ys c : nth_error orders k = Some q -> (j <= q)%nat -> seg_interp orders k (nth k rs []) ys c ->
  peval c (nth j (nth k rs []) 0) = ys (offset orders k + j)%nat.
Proof. intros E Hj [_ H]. apply H. destruct (nodes_of k q E) as (L & _). lia. Qed.
Lemma poly_start k ys c : (k < K)%nat -> seg_interp orders k (nth k rs []) ys c -> peval c t0 = ys (offset orders k).
Proof.
  intros Hk H. destruct (order_at k Hk) as (q & E). destruct (nodes_of k q E) as (_ & _ & N0 & _). pose proof (poly_node k q 0 ys c E ltac:(lia) H) as X.
  rewrite N0, Nat.add_0_r in X. exact X.
Qed.
Lemma poly_end k ys c : (S k <= K)%nat -> seg_interp orders k (nth k rs []) ys c -> peval c t1 = ys (offset orders (S k)).
Proof.
  intros Hk H. destruct (order_at k Hk) as (q & E). destruct (nodes_of k q E) as (_ & _ & _ & N1). pose proof (poly_node k q q ys c E ltac:(lia) H) as X.
  rewrite N1, <- (offset_S _ _ _ E) in X. exact X.
Qed.

Section Track.
Variables (cx cu : nat -> nat -> list R) (x : nat -> R -> R) (D : R -> (nat -> R) -> (nat -> R) -> Prop) (L eps : R).
Hypothesis Hpoly : forall k, (k < K)%nat -> SpecResid.seg_polys mp rs y k (cx k) (cu k).
Hypothesis Hx : follows mp w ph y cu x.
Hypothesis HL : 0 <= L.
Hypothesis Hlip : one_sided o ph (a_of o y) D L.
Hypothesis HD : stays mp w y cx cu x D.
Hypothesis Hdef : forall k tau s, (k < K)%nat -> t0 < tau < t1 -> (s < o_nx o)%nat -> Rabs (defect mp w ph y k (cx k) (cu k) s tau) <= h k * eps.
Let X k tau s := peval (cx k s) tau.
Let kap := 2 * L + 1.
Let cc := INR (o_nx o) * eps ^ 2 / kap.
Let E k tau := dist2 (o_nx o) (X k tau) (fun s => x s (T k tau)).

Lemma eps_nonneg : (0 < K)%nat -> (0 < o_nx o)%nat -> 0 <= eps.
Proof. intros HK Hn. pose proof (Hdef 0 ((t0 + t1) / 2) 0 HK ltac:(lra) Hn). pose proof (h_pos 0 HK). pose proof (Rabs_pos (defect mp w ph y 0 (cx 0%nat) (cu 0%nat) 0 ((t0 + t1) / 2))). nra. Qed.
Lemma sum_const n (v : R) : Rsum n (fun _ => v) = INR n * v.
Proof. induction n as [|n IH]; [cbn; ring|]. cbn [Rsum]. rewrite S_INR, IH. ring. Qed.
Lemma seg_grow k tau : (k < K)%nat -> t0 <= tau <= t1 -> E k tau + cc <= (E k t0 + cc) * exp (kap * (T k tau - T k t0)).
Proof.
  intros Hk Hta. rewrite T_diff. rewrite <- Rmult_assoc.
  set (f := fun s u => nth s (rhs o ph (a_of o y) (fun s => x s (T k u)) (fun c => peval (cu k c) u) (T k u)) 0).
  assert (HT : forall u, is_derive (T k) u (h k)) by (intros u; unfold T, seg_time; auto_derive; [exact I|unfold h; ring]).
  apply (grow (o_nx o) (fun s u => X k u s - x s (T k u)) (fun s u => Derive (peval (cx k s)) u - h k * f s u) t0 tau kap cc (h k)); [lra| | |].
  - intros s u Hs Hu. apply (is_derive_minus (fun u => X k u s) (fun u => x s (T k u))).
    + unfold X. apply Derive_correct, ex_derive_peval.
    + evar_last; [apply (is_derive_comp (x s) (T k)); [apply (fo_eq _ _ _ _ _ _ Hx k u s Hk (conj (proj1 Hu) (Rlt_le_trans _ _ _ (proj2 Hu) (proj2 Hta))) Hs)|apply HT]|].
      unfold scal; cbn; unfold mult; cbn. reflexivity.
  - intros s u Hs Hu. apply (continuous_minus (V := R_NormedModule) (fun u => X k u s) (fun u => x s (T k u))).
    + apply continuous_peval.
    + apply (continuous_comp (T k) (x s)); [apply (ex_derive_continuous (V := R_NormedModule)); eexists; apply HT|].
      apply (fo_cont _ _ _ _ _ _ Hx s _ Hs). apply T_range; [exact Hk|lra].
  - intros u Hu. assert (Hu' : t0 < u < t1) by lra.
    pose (g := fun s => nth s (rhs o ph (a_of o y) (X k u) (fun c => peval (cu k c) u) (T k u)) 0).
    assert (Hg : forall s, (s < o_nx o)%nat -> Derive (peval (cx k s)) u = defect mp w ph y k (cx k) (cu k) s u + h k * g s).
    { intros s Hs. unfold defect, rate. fold cf o (T k u) (h k). unfold dyn_along, g, rhs, X. ring. }
    destruct (HD k u Hk Hu') as [D1 D2]. pose proof (Hlip _ _ _ _ D1 D2) as Hl. fold cf (T k u) in Hl.
    pose proof (h_pos k Hk) as Hh.
    apply Rle_trans with (Rsum (o_nx o) (fun s => h k * ((X k u s - x s (T k u)) ^ 2 + eps ^ 2) + 2 * h k * ((X k u s - x s (T k u)) * (g s - f s u)))).
    + apply Rsum_le. intros s Hs. rewrite (Hg s Hs). pose proof (Hdef k u s Hk Hu' Hs) as Hd. set (d := defect mp w ph y k (cx k) (cu k) s u) in *. set (e := X k u s - x s (T k u)).
      assert (2 * e * d <= h k * (e ^ 2 + eps ^ 2)).
      { apply Rle_trans with (h k * (2 * Rabs e * eps)).
        - apply Rle_trans with (2 * (Rabs e * Rabs d)); [rewrite <- Rabs_mult; pose proof (Rle_abs (e * d)); lra|]. pose proof (Rabs_pos e). pose proof (Rmult_le_compat_l (Rabs e) _ _ H Hd). lra.
        - apply Rmult_le_compat_l; [lra|]. rewrite <- (pow2_abs e). pose proof (pow2_ge_0 (Rabs e - eps)). lra. }
      lra.
    + rewrite Rsum_plus. rewrite (Rsum_scal (o_nx o) (2 * h k)). rewrite (Rsum_scal (o_nx o) (h k)), Rsum_plus, sum_const.
      match goal with |- _ <= h k * kap * (?A + cc) => change A with (dist2 (o_nx o) (X k u) (fun s => x s (T k u))) end.
      match goal with |- h k * (?A + _) + _ <= _ => change A with (dist2 (o_nx o) (X k u) (fun s => x s (T k u))) end.
      match type of Hl with ?A <= _ => match goal with |- _ + 2 * h k * ?B <= _ => change A with B in Hl end end.
      assert (Hk0 : 0 < kap) by (unfold kap; lra). assert (Ec : kap * cc = INR (o_nx o) * eps ^ 2) by (unfold cc; field; lra).
      replace (h k * kap * (dist2 (o_nx o) (X k u) (fun s => x s (T k u)) + cc)) with (h k * (kap * dist2 (o_nx o) (X k u) (fun s => x s (T k u)) + kap * cc)) by ring.
      rewrite Ec. unfold kap. change (fun s => peval (cx k s) u) with (X k u) in Hl. nra.
Qed.
Lemma track k : (k < K)%nat -> forall tau, t0 <= tau <= t1 ->
  E k tau + cc <= (E 0%nat t0 + cc) * exp (kap * (T k tau - y_t0 y)).
Proof.
  induction k as [|k IH]; intros Hk tau Hta.
  - assert (E0 : T 0 t0 = y_t0 y) by (unfold T, seg_time, seg_start; cbn [Rsum]; fold t0; ring). rewrite <- E0. apply seg_grow; assumption.
  - eapply Rle_trans; [apply seg_grow; assumption|].
    assert (EE : E (S k) t0 = E k t1).
    { unfold E, dist2. apply Rsum_ext. intros s Hs. rewrite <- T_next. unfold X.
      rewrite (poly_start (S k) _ _ Hk (proj1 (Hpoly (S k) Hk) s Hs)), (poly_end k _ _ ltac:(lia) (proj1 (Hpoly k ltac:(lia)) s Hs)). reflexivity. }
    rewrite EE. pose proof (IH ltac:(lia) t1 ltac:(lra)) as H. pose proof (exp_pos (kap * (T (S k) tau - T (S k) t0))) as P.
    eapply Rle_trans; [apply Rmult_le_compat_r; [apply Rlt_le; exact P|exact H]|]. rewrite Rmult_assoc, <- exp_plus. apply Req_le. f_equal. f_equal. rewrite (T_next k). ring.
Qed.
End Track.
End Phase.

Lemma sum_one n (f : nat -> R) s : (s < n)%nat -> (forall i, (i < n)%nat -> 0 <= f i) -> f s <= Rsum n f.
Proof.
  intros Hs Hf. induction n as [|n IH]; [lia|]. cbn [Rsum]. destruct (Nat.eq_dec s n) as [->|].
  - pose proof (Rsum_nonneg n f ltac:(intros; apply Hf; lia)). lra.
  - pose proof (IH ltac:(lia) ltac:(intros; apply Hf; lia)). pose proof (Hf n ltac:(lia)). lra.
Qed.
Definition gap (C M eta L : R) (n : nat) (d : R) : R := C * M * eta * sqrt (INR n * (exp ((2 * L + 1) * d) - 1) / (2 * L + 1)).

Section Program.
Variables (mp : mpo Rnum) (npath nterm : nat -> option nat) (z p : list R) (ph : nat).
Let o := mp_ocp mp.
Let cf := mp_cf mp.
Let orders := mp_orders mp.
Let y := user_traj mp z ph.
Let w := width mp p ph.
Hypothesis Hin : input_ok mp npath nterm z p.
Hypothesis Hwid : widths_ok (mp_nseg mp) (o_nph o) p.
Hypothesis Hph : (ph < o_nph o)%nat.
Hypothesis Hy : y_t0 y < y_tf y.
Variables (rs : list (list R)).
Hypothesis Hrs : mapM (c_roots cf) orders = Ok rs.

Lemma rs_len : length rs = length orders.
Proof. exact (proj1 (mapM_inv _ _ _ Hrs)). Qed.
Lemma rs_root k q : nth_error orders k = Some q -> c_roots cf q = Ok (nth k rs []).
Proof. intros E. destruct (mapM_inv _ _ _ Hrs) as [_ H]. destruct (H k q E) as (r & E1 & E2). rewrite (nth_error_nth _ _ _ E1). exact E2. Qed.
Lemma rs_good k q r : nth_error orders k = Some q -> nth_error rs k = Some r -> good_nodes (cf_tau0 cf) (cf_tau1 cf) q r.
Proof.
  intros Eq Er. pose proof (in_mpo _ _ _ _ _ Hin) as Hmp. destruct (c_roots_good cf q (mo_cfg _ Hmp) (mo_pos _ Hmp q (nth_error_In _ _ Eq))) as (r' & Er' & Hg).
  pose proof (rs_root k q Eq) as E. rewrite (nth_error_nth _ _ _ Er) in E.
  assert (r' = r) as -> by (pose proof (eq_trans (eq_sym Er') E) as X; injection X as X; exact X). exact Hg.
Qed.
Lemma choose_polys : exists cx cu, forall k, (k < length orders)%nat -> SpecResid.seg_polys mp rs y k (cx k) (cu k).
Proof.
  destruct (CostR.finite_choice (fun k (c : (nat -> list R) * (nat -> list R)) => SpecResid.seg_polys mp rs y k (fst c) (snd c)) (fun _ => [], fun _ => []) (length orders)) as (c & Hc).
  - intros k Hk. destruct (ResidR.polys_exist mp z ph rs rs_len rs_good k Hk) as (cx & cu & H). exists (cx, cu). exact H.
  - exists (fun k => fst (c k)), (fun k => snd (c k)). exact Hc.
Qed.
Let Ht : cf_tau0 cf < cf_tau1 cf := co_taus _ (mo_cfg _ (in_mpo _ _ _ _ _ Hin)).
Let Hw := proj1 (part_widths mp p (in_mpo _ _ _ _ _ Hin) Hwid ph Hph).
Let Hsum := proj2 (part_widths mp p (in_mpo _ _ _ _ _ Hin) Hwid ph Hph).
Let K0 : (0 < length orders)%nat.
Proof. pose proof (in_mpo _ _ _ _ _ Hin) as Hmp. unfold orders. rewrite (mo_len _ Hmp). exact (mo_nseg _ Hmp). Qed.

Section Near.
Variables (cx cu : nat -> nat -> list R) (x : nat -> R -> R) (D : R -> (nat -> R) -> (nat -> R) -> Prop) (L : R).
Hypothesis Hpoly : forall k, (k < length orders)%nat -> SpecResid.seg_polys mp rs y k (cx k) (cu k).
Hypothesis Hx : follows mp w ph y cu x.
Hypothesis HL : 0 <= L.
Hypothesis Hlip : one_sided o ph (a_of o y) D L.
Hypothesis HD : stays mp w y cx cu x D.
Lemma start_dist : dist2 (o_nx o) (fun s => peval (cx 0%nat s) (cf_tau0 cf)) (fun s => x s (seg_time cf w y 0 (cf_tau0 cf))) = dist2 (o_nx o) (y_x y 0) (fun s => x s (y_t0 y)).
Proof.
  unfold dist2. apply Rsum_ext. intros s Hs.
  pose proof (poly_start mp rs rs_len rs_good 0 _ _ K0 (proj1 (Hpoly 0 K0) s Hs)) as X. fold cf in X. rewrite offset_0 in X. nred. rewrite X.
  assert (E : seg_time cf w y 0 (cf_tau0 cf) = y_t0 y) by (unfold seg_time, seg_start; cbn [Rsum]; ring). rewrite E. reflexivity.
Qed.
Lemma near_thm eps : (forall k tau s, (k < length orders)%nat -> cf_tau0 cf < tau < cf_tau1 cf -> (s < o_nx o)%nat -> Rabs (defect mp w ph y k (cx k) (cu k) s tau) <= seg_h cf w y k * eps) ->
  forall k tau, (k < length orders)%nat -> cf_tau0 cf <= tau <= cf_tau1 cf -> let t := seg_time cf w y k tau in let c := INR (o_nx o) * eps ^ 2 / (2 * L + 1) in
    dist2 (o_nx o) (fun s => peval (cx k s) tau) (fun s => x s t) + c <= (dist2 (o_nx o) (y_x y 0) (fun s => x s (y_t0 y)) + c) * exp ((2 * L + 1) * (t - y_t0 y)).
Proof.
  intros Hd k tau Hk Hta t c. rewrite <- start_dist.
  exact (track mp rs w ph y Ht rs_len rs_good Hw Hsum Hy cx cu x D L eps Hpoly Hx HL Hlip HD Hd k Hk tau Hta).
Qed.
(** the defects of a point that satisfies the dynamics constraints *)
Lemma local_time k tau : (k < length orders)%nat -> local cf w y k (seg_time cf w y k tau) = tau.
Proof. intros Hk. unfold local, seg_time. pose proof (h_pos mp w y Ht Hw Hy k Hk) as H. field. fold cf in H. lra. Qed.
Lemma feas_defect C Q M : 0 <= C -> (forall q, (1 <= q <= Q)%nat -> order_const cf q C) -> (forall q, In q orders -> (q <= Q)%nat) -> dynamics_ok mp rs w ph y ->
  (forall k q s, nth_error orders k = Some q -> (s < o_nx o)%nat -> smooth (dyn_time mp w ph y cx cu k s) (seg_start w y k) (seg_start w y (S k)) q M) ->
  forall k q tau s, nth_error orders k = Some q -> cf_tau0 cf <= tau <= cf_tau1 cf -> (s < o_nx o)%nat ->
    Rabs (defect mp w ph y k (cx k) (cu k) s tau) <= seg_h cf w y k * (C * M * lasts w y k ^ q).
Proof.
  intros HC Ho HQ Hdyn Hsm k q tau s Eq Hta Hs. assert (Hk : (k < length orders)%nat) by exact (MeshR.nth_error_lt _ _ _ Eq).
  pose proof (mo_pos _ (in_mpo _ _ _ _ _ Hin) q (nth_error_In _ _ Eq)) as Hq.
  destruct (Ho q (conj Hq (HQ q (nth_error_In _ _ Eq)))) as [_ H].
  pose proof (h_pos mp w y Ht Hw Hy k Hk) as Hh. fold cf in Hh.
  assert (Es : seg_start w y (S k) = seg_start w y k + seg_h cf w y k * (cf_tau1 cf - cf_tau0 cf)).
  { pose proof (T_next mp w y Ht k) as X. fold cf in X. unfold seg_time in X. replace (cf_tau0 cf - cf_tau0 cf) with 0 in X by ring. lra. }
  assert (El : lasts w y k = seg_h cf w y k * (cf_tau1 cf - cf_tau0 cf)) by (unfold lasts, seg_h; field; lra). rewrite El.
  pose proof (Hsm k q s Eq Hs) as Hs1. rewrite Es in Hs1.
  pose proof (rs_good k q _ Eq (nth_error_nth' rs [] (Nat.lt_le_trans _ _ _ Hk (Nat.eq_le_incl _ _ (eq_sym rs_len))))) as Hg.
  destruct (proj1 (Hpoly k Hk) s Hs) as [Lc Ec].
  specialize (H (nth k rs []) (rs_root k q Eq) (dyn_time mp w ph y cx cu k s) (seg_start w y k) (seg_h cf w y k) M (cx k s) Hh Hs1).
  assert (Hat : forall u, dyn_time mp w ph y cx cu k s (seg_start w y k + seg_h cf w y k * (u - cf_tau0 cf)) = nth s (dyn_along o ph y (cx k) (cu k) u (seg_time cf w y k u)) 0).
  { intros u. unfold dyn_time. change (seg_start w y k + seg_h cf w y k * (u - cf_tau0 cf)) with (seg_time cf w y k u). fold cf o. rewrite (local_time k u Hk). reflexivity. }
  assert (Lg : length (nth k rs []) = S q) by apply Hg.
  specialize (H ltac:(clear - Lc Lg; nred; lia)). rewrite <- (Hat tau) || idtac. unfold defect, rate. fold cf o. rewrite <- Hat. apply H; [|exact Hta].
  intros j Hj. rewrite Hat. 
  assert (Hown : owned orders (offset orders k + j) k j) by (exists q; repeat split; auto; lia).
  pose proof (Hdyn _ k j s (cx k s) Hown Hs (conj Lc Ec)) as Hd. etransitivity; [exact (is_derive_unique _ _ _ Hd)|]. fold cf o.
  rewrite (along_node mp z rs rs_len rs_good ph Hph k (cx k) (cu k) j q _ (Hpoly k Hk) Eq ltac:(lia)). reflexivity.
Qed.
Lemma feas_near C Q M eta : 0 <= C -> (forall q, (1 <= q <= Q)%nat -> order_const cf q C) -> (forall q, In q orders -> (q <= Q)%nat) -> dynamics_ok mp rs w ph y ->
  (forall k q s, nth_error orders k = Some q -> (s < o_nx o)%nat -> smooth (dyn_time mp w ph y cx cu k s) (seg_start w y k) (seg_start w y (S k)) q M) ->
  (forall k q, nth_error orders k = Some q -> lasts w y k ^ q <= eta) -> (forall s, (s < o_nx o)%nat -> x s (y_t0 y) = y_x y 0 s) ->
  forall k tau s, (k < length orders)%nat -> cf_tau0 cf <= tau <= cf_tau1 cf -> (s < o_nx o)%nat ->
    Rabs (peval (cx k s) tau - x s (seg_time cf w y k tau)) <= gap C M eta L (o_nx o) (y_tf y - y_t0 y).
Proof.
  intros HC Ho HQ Hdyn Hsm Heta Hx0 k tau s Hk Hta Hs.
  assert (HM : 0 <= M).
  { destruct (nth_error orders k) as [q|] eqn:Eq; [|apply nth_error_None in Eq; lia]. pose proof (Hsm k q s Eq Hs (seg_start w y k)) as X.
    assert (Y : seg_start w y k <= seg_start w y k <= seg_start w y (S k)).
    { split; [lra|]. unfold seg_start. cbn [Rsum]. pose proof (Hw k Hk) as P. fold w in P. nra. }
    specialize (X Y). pose proof (Rabs_pos (Derive_n (dyn_time mp w ph y cx cu k s) q (seg_start w y k))). lra. }
  set (eps := C * M * eta).
  assert (He0 : 0 <= eps).
  { unfold eps. apply Rmult_le_pos; [apply Rmult_le_pos; assumption|]. destruct (nth_error orders k) as [q|] eqn:Eq; [|apply nth_error_None in Eq; lia].
    eapply Rle_trans; [|apply (Heta k q Eq)]. apply pow_le. unfold lasts. pose proof (Hw k Hk) as P. fold w in P. nra. }
  assert (Hd : forall k tau s, (k < length orders)%nat -> cf_tau0 cf < tau < cf_tau1 cf -> (s < o_nx o)%nat -> Rabs (defect mp w ph y k (cx k) (cu k) s tau) <= seg_h cf w y k * eps).
  { intros k' tau' s' Hk' Hta' Hs'. destruct (nth_error orders k') as [q|] eqn:Eq; [|apply nth_error_None in Eq; lia].
    eapply Rle_trans; [apply (feas_defect C Q M HC Ho HQ Hdyn Hsm k' q tau' s' Eq ltac:(lra) Hs')|].
    pose proof (h_pos mp w y Ht Hw Hy k' Hk') as Hh. fold cf in Hh. apply Rmult_le_compat_l; [lra|]. unfold eps. apply Rmult_le_compat_l; [apply Rmult_le_pos; assumption|]. apply (Heta k' q Eq). }
  pose proof (near_thm eps Hd k tau Hk Hta) as X. cbv zeta in X.
  assert (E0 : dist2 (o_nx o) (y_x y 0) (fun s => x s (y_t0 y)) = 0).
  { unfold dist2. apply Rsum_0. intros i Hi. rewrite Hx0 by exact Hi. ring. }
  rewrite E0 in X. set (kap := 2 * L + 1) in *. assert (Hkap : 0 < kap) by (unfold kap; lra).
  set (c := INR (o_nx o) * eps ^ 2 / kap) in *. assert (Hc : 0 <= c).
  { unfold c. apply Rmult_le_pos; [apply Rmult_le_pos; [apply pos_INR|apply pow2_ge_0]|apply Rlt_le, Rinv_0_lt_compat; exact Hkap]. }
  set (t := seg_time cf w y k tau) in *.
  assert (Htt : t <= y_tf y) by (exact (proj2 (T_range mp w y Ht Hw Hsum Hy k tau Hk Hta))).
  assert (Hexp : exp (kap * (t - y_t0 y)) <= exp (kap * (y_tf y - y_t0 y))).
  { destruct (Rle_lt_or_eq_dec _ _ Htt) as [H|H]; [apply Rlt_le, exp_increasing; nra|rewrite H; lra]. }
  assert (Hsq : (peval (cx k s) tau - x s t) ^ 2 <= eps ^ 2 * (INR (o_nx o) * (exp (kap * (y_tf y - y_t0 y)) - 1) / kap)).
  { apply Rle_trans with (dist2 (o_nx o) (fun s => peval (cx k s) tau) (fun s => x s t)).
    - unfold dist2. apply (sum_one (o_nx o) (fun s => (peval (cx k s) tau - x s t) ^ 2) s Hs). intros i _. apply pow2_ge_0.
    - replace (eps ^ 2 * (INR (o_nx o) * (exp (kap * (y_tf y - y_t0 y)) - 1) / kap)) with (c * exp (kap * (y_tf y - y_t0 y)) - c) by (unfold c; field; lra).
      pose proof (Rmult_le_compat_l c _ _ Hc Hexp). lra. }
  unfold gap. fold eps kap. rewrite <- (sqrt_Rsqr_abs (peval (cx k s) tau - x s t)). rewrite <- (sqrt_Rsqr eps He0) at 1. rewrite <- sqrt_mult_alt by apply Rle_0_sqr.
  apply sqrt_le_1_alt. rewrite <- !Rsqr_pow2 in Hsq. exact Hsq.
Qed.
End Near.

(** between the nodes *)
Lemma near_node k (f : R -> R) M a b : (k < length orders)%nat -> rate_within mp w y k f M -> cf_tau0 cf <= a <= cf_tau1 cf -> cf_tau0 cf <= b <= cf_tau1 cf ->
  Rabs (f a - f b) <= M * Rabs (seg_time cf w y k a - seg_time cf w y k b).
Proof.
  intros Hk Hf Ha Hb. pose proof (h_pos mp w y Ht Hw Hy k Hk) as Hh. fold cf in Hh.
  replace (seg_time cf w y k a - seg_time cf w y k b) with (seg_h cf w y k * (a - b)) by (unfold seg_time; ring).
  rewrite Rabs_mult, (Rabs_pos_eq (seg_h cf w y k)) by lra.
  destruct (MVT_gen f b a (Derive f)) as (c & Hc & E).
  - intros u Hu. apply Derive_correct. apply Hf. revert Hu. unfold Rmin, Rmax. fold cf. destruct (Rle_dec b a); lra.
  - intros u Hu. apply continuity_pt_filterlim. apply (ex_derive_continuous (V := R_NormedModule)). apply Hf. revert Hu. unfold Rmin, Rmax. fold cf. destruct (Rle_dec b a); lra.
  - assert (Hc' : cf_tau0 cf <= c <= cf_tau1 cf) by (revert Hc; unfold Rmin, Rmax; destruct (Rle_dec b a); lra).
    rewrite E, Rabs_mult. replace (M * (seg_h cf w y k * Rabs (a - b))) with (seg_h cf w y k * M * Rabs (a - b)) by ring. apply Rmult_le_compat_r; [apply Rabs_pos|]. apply (Hf c Hc').
Qed.
Lemma owner k q j : nth_error orders k = Some q -> (j <= q)%nat -> exists k' j', owned orders (offset orders k + j) k' j' /\
  seg_time cf w y k' (nth j' (nth k' rs []) 0) = seg_time cf w y k (nth j (nth k rs []) 0).
Proof.
  intros Eq Hj. destruct (le_lt_dec 1 j) as [H1|H1]; [exists k, j; split; [exists q; auto|reflexivity]|].
  assert (j = 0)%nat as -> by lia. destruct k as [|k]; [exists 0%nat, 0%nat; split; [exists q; auto|reflexivity]|].
  destruct (nth_error orders k) as [q'|] eqn:Eq'; [|apply nth_error_None in Eq'; pose proof (MeshR.nth_error_lt _ _ _ Eq); lia].
  exists k, q'. pose proof (mo_pos _ (in_mpo _ _ _ _ _ Hin) q' (nth_error_In _ _ Eq')) as Hq'. split.
  - exists q'. split; [exact Eq'|]. split; [lia|]. split; [right; exact Hq'|]. rewrite Nat.add_0_r. exact (offset_S _ _ _ Eq').
  - destruct (nodes_of mp rs rs_len rs_good (S k) q Eq) as (_ & _ & N0 & _). destruct (nodes_of mp rs rs_len rs_good k q' Eq') as (_ & _ & _ & N1).
    etransitivity; [apply (f_equal (seg_time cf w y k)); exact N1|]. etransitivity; [exact (T_next mp w y Ht k)|]. apply (f_equal (seg_time cf w y (S k))). symmetry. exact N0.
Qed.
Lemma node_in k q j : nth_error orders k = Some q -> (j <= q)%nat -> cf_tau0 cf <= nth j (nth k rs []) 0 <= cf_tau1 cf.
Proof. intros Eq Hj. exact (good_range _ _ q _ j Ht (nodes_of mp rs rs_len rs_good k q Eq) Hj). Qed.
Lemma index_in k q j : nth_error orders k = Some q -> (j <= q)%nat -> (offset orders k + j < total_nodes orders)%nat.
Proof. intros Eq Hj. destruct (owner k q j Eq Hj) as (k' & j' & Ho & _). exact (owned_lt _ _ _ _ Ho). Qed.
Lemma widen lo hi v v' e : within lo hi v -> Rabs (v' - v) <= e -> above lo (v' + e) /\ below hi (v' - e).
Proof.
  intros [A B] H. apply Rabs_le_between in H. split; [destruct lo|destruct hi]; cbn in *; lra.
Qed.
Lemma path_node k q j m cx cu : SpecResid.seg_polys mp rs y k cx cu -> nth_error orders k = Some q -> (j <= q)%nat -> path_ok mp rs w ph y ->
  nth m (path_along o ph y cx cu (nth j (nth k rs []) 0) (seg_time cf w y k (nth j (nth k rs []) 0))) 0 <= 0.
Proof.
  intros [Hx Hu] Eq Hj Hp. destruct (owner k q j Eq Hj) as (k' & j' & Ho & Et).
  assert (E : path_along o ph y cx cu (nth j (nth k rs []) 0) (seg_time cf w y k (nth j (nth k rs []) 0)) = path_val o ph y (offset orders k + j) (seg_time cf w y k' (nth j' (nth k' rs []) 0))).
  { unfold path_along, path_val. rewrite Et. destruct (nth_error (o_path o) ph) as [f|]; [|reflexivity].
    replace (vec (o_nx o) (fun s => peval (cx s) (nth j (nth k rs []) 0))) with (vec (o_nx o) (y_x y (offset orders k + j))).
    - replace (vec (o_nu o) (fun s => peval (cu s) (nth j (nth k rs []) 0))) with (vec (o_nu o) (y_u y (offset orders k + j))); [reflexivity|].
      apply vec_ext. intros s Hs. symmetry. exact (poly_node mp rs rs_len rs_good k q j _ _ Eq Hj (Hu s Hs)).
    - apply vec_ext. intros s Hs. symmetry. exact (poly_node mp rs rs_len rs_good k q j _ _ Eq Hj (Hx s Hs)). }
  rewrite E. destruct (nth_in_or_default m (path_val o ph y (offset orders k + j) (seg_time cf w y k' (nth j' (nth k' rs []) 0))) 0) as [H|H]; [|rewrite H; lra].
  exact (Hp _ _ _ _ Ho H).
Qed.
Lemma between k q j tau cx cu : SpecResid.seg_polys mp rs y k cx cu -> bounds_ok mp ph y -> path_ok mp rs w ph y ->
  nth_error orders k = Some q -> (j <= q)%nat -> cf_tau0 cf <= tau <= cf_tau1 cf ->
  let d := Rabs (seg_time cf w y k tau - seg_time cf w y k (nth j (nth k rs []) 0)) in
  (forall m M, rate_within mp w y k (fun u => nth m (path_along o ph y cx cu u (seg_time cf w y k u)) 0) M ->
     nth m (path_along o ph y cx cu tau (seg_time cf w y k tau)) 0 <= M * d) /\
  (forall s M, (s < o_nx o)%nat -> (ph, k, j) <> (0, 0, 0)%nat -> rate_within mp w y k (peval (cx s)) M ->
     above (bnd ph (o_lbx o) s) (peval (cx s) tau + M * d) /\ below (bnd ph (o_ubx o) s) (peval (cx s) tau - M * d)) /\
  (forall c M, (c < o_nu o)%nat -> rate_within mp w y k (peval (cu c)) M ->
     above (bnd ph (o_lbu o) c) (peval (cu c) tau + M * d) /\ below (bnd ph (o_ubu o) c) (peval (cu c) tau - M * d)).
Proof.
  intros Hpl Hb Hp Eq Hj Hta d. assert (Hk : (k < length orders)%nat) by exact (MeshR.nth_error_lt _ _ _ Eq).
  pose proof (node_in k q j Eq Hj) as Hn. pose proof (index_in k q j Eq Hj) as Hi. destruct Hb as (Hbx & Hbu & _). split; [|split].
  - intros m M Hr. pose proof (near_node k _ M tau _ Hk Hr Hta Hn) as X. fold d in X. pose proof (path_node k q j m cx cu Hpl Eq Hj Hp) as Y.
    apply Rabs_le_between in X. cbv beta in X. lra.
  - intros s M Hs Hne Hr. pose proof (near_node k _ M tau _ Hk Hr Hta Hn) as X. fold d in X.
    rewrite (poly_node mp rs rs_len rs_good k q j _ _ Eq Hj (proj1 Hpl s Hs)) in X. apply (widen _ _ _ _ _) with (2 := X).
    specialize (Hbx (offset orders k + j)%nat s Hi Hs). destruct (Nat.eqb ph 0 && Nat.eqb (offset orders k + j) 0)%bool eqn:Eb; [|exact Hbx].
    exfalso. apply andb_prop in Eb. destruct Eb as [E1 E2]. apply Nat.eqb_eq in E1, E2. assert (j = 0)%nat as Ej by lia. assert (offset orders k = 0)%nat as Ek by lia.
    destruct k as [|k]; [apply Hne; congruence|]. destruct (nth_error orders k) as [q'|] eqn:Eq'; [|apply nth_error_None in Eq'; lia].
    pose proof (mo_pos _ (in_mpo _ _ _ _ _ Hin) q' (nth_error_In _ _ Eq')). pose proof (offset_S _ _ _ Eq'). lia.
  - intros c M Hs Hr. pose proof (near_node k _ M tau _ Hk Hr Hta Hn) as X. fold d in X.
    rewrite (poly_node mp rs rs_len rs_good k q j _ _ Eq Hj (proj2 Hpl c Hs)) in X. apply (widen _ _ _ _ _) with (2 := X). exact (Hbu _ _ Hi Hs).
Qed.
End Program.

Theorem distance_thm mp npath nterm z p ph : input_ok mp npath nterm z p -> widths_ok (mp_nseg mp) (o_nph (mp_ocp mp)) p -> (ph < o_nph (mp_ocp mp))%nat ->
  let o := mp_ocp mp in let cf := mp_cf mp in let w := width mp p ph in let y := user_traj mp z ph in y_t0 y < y_tf y ->
  exists rs, mapM (c_roots cf) (mp_orders mp) = Ok rs /\
  (exists cx cu, forall k, (k < length (mp_orders mp))%nat -> SpecResid.seg_polys mp rs y k (cx k) (cu k)) /\
  forall cx cu x D L eps, (forall k, (k < length (mp_orders mp))%nat -> SpecResid.seg_polys mp rs y k (cx k) (cu k)) ->
    follows mp w ph y cu x -> 0 <= L -> one_sided o ph (a_of o y) D L -> stays mp w y cx cu x D ->
    (forall k tau s, (k < length (mp_orders mp))%nat -> cf_tau0 cf < tau < cf_tau1 cf -> (s < o_nx o)%nat ->
       Rabs (defect mp w ph y k (cx k) (cu k) s tau) <= seg_h cf w y k * eps) ->
    forall k tau, (k < length (mp_orders mp))%nat -> cf_tau0 cf <= tau <= cf_tau1 cf ->
      let t := seg_time cf w y k tau in let c := INR (o_nx o) * eps ^ 2 / (2 * L + 1) in
      dist2 (o_nx o) (fun s => peval (cx k s) tau) (fun s => x s t) + c <=
        (dist2 (o_nx o) (y_x y 0) (fun s => x s (y_t0 y)) + c) * exp ((2 * L + 1) * (t - y_t0 y)).
Proof.
  intros Hin Hw Hph o cf w y Hy. destruct (nlp_like _ _ _ _ _ (user_traj mp z) Hin (fun ph _ => same_refl _ _)) as (rs & n & R1 & _).
  exists rs. split; [exact R1|]. split; [exact (choose_polys mp npath nterm z p ph Hin rs R1)|].
  intros cx cu x D L eps Hpoly Hx HL Hlip HD Hd. exact (near_thm mp npath nterm z p ph Hin Hw Hph Hy rs R1 cx cu x D L Hpoly Hx HL Hlip HD eps Hd).
Qed.

Theorem order_thm cf Q : cfg_ok cf -> exists C, 0 <= C /\ forall mp npath nterm z p n ph,
  mp_cf mp = cf -> (forall q, In q (mp_orders mp) -> (q <= Q)%nat) -> input_ok mp npath nterm z p -> widths_ok (mp_nseg mp) (o_nph (mp_ocp mp)) p ->
  nlp_at mp z p = Ok n -> feasible n -> (ph < o_nph (mp_ocp mp))%nat ->
  let o := mp_ocp mp in let w := width mp p ph in let y := user_traj mp z ph in y_t0 y < y_tf y ->
  exists rs, mapM (c_roots cf) (mp_orders mp) = Ok rs /\
  (exists cx cu, forall k, (k < length (mp_orders mp))%nat -> SpecResid.seg_polys mp rs y k (cx k) (cu k)) /\
  forall cx cu M, (forall k, (k < length (mp_orders mp))%nat -> SpecResid.seg_polys mp rs y k (cx k) (cu k)) ->
    (forall k q s, nth_error (mp_orders mp) k = Some q -> (s < o_nx o)%nat ->
       smooth (dyn_time mp w ph y cx cu k s) (seg_start w y k) (seg_start w y (S k)) q M) ->
    (forall k q tau s, nth_error (mp_orders mp) k = Some q -> cf_tau0 cf <= tau <= cf_tau1 cf -> (s < o_nx o)%nat ->
       Rabs (defect mp w ph y k (cx k) (cu k) s tau) <= seg_h cf w y k * (C * M * lasts w y k ^ q)) /\
    forall x D L eta, follows mp w ph y cu x -> (forall s, (s < o_nx o)%nat -> x s (y_t0 y) = y_x y 0 s) ->
      0 <= L -> one_sided o ph (a_of o y) D L -> stays mp w y cx cu x D ->
      (forall k q, nth_error (mp_orders mp) k = Some q -> lasts w y k ^ q <= eta) ->
      forall k tau s, (k < length (mp_orders mp))%nat -> cf_tau0 cf <= tau <= cf_tau1 cf -> (s < o_nx o)%nat ->
        Rabs (peval (cx k s) tau - x s (seg_time cf w y k tau)) <=
          C * M * eta * sqrt (INR (o_nx o) * (exp ((2 * L + 1) * (y_tf y - y_t0 y)) - 1) / (2 * L + 1)).
Proof.
  intros Hcf. destruct (orders_exist cf Q Hcf) as (C & HC & Ho). exists C. split; [exact HC|].
  intros mp npath nterm z p n ph Ecf HQ Hin Hw En Hf Hph o w y Hy. subst cf.
  destruct (nlp_like _ _ _ _ _ (user_traj mp z) Hin (fun ph _ => same_refl _ _)) as (rs & n' & R1 & R2 & _ & R3 & _).
  assert (n' = n) as -> by (pose proof (eq_trans (eq_sym R2) En) as X; injection X as X; exact X). apply R3 in Hf. destruct Hf as (_ & Hp & _).
  destruct (Hp ph Hph) as (Hdyn & _). exists rs. split; [exact R1|]. split; [exact (choose_polys mp npath nterm z p ph Hin rs R1)|].
  intros cx cu M Hpoly Hsm. split.
  - exact (feas_defect mp npath nterm z p ph Hin Hw Hph Hy rs R1 cx cu Hpoly C Q M HC Ho HQ Hdyn Hsm).
  - intros x D L eta Hx Hx0 HL Hlip HD Heta. exact (feas_near mp npath nterm z p ph Hin Hw Hph Hy rs R1 cx cu x D L Hpoly Hx HL Hlip HD C Q M eta HC Ho HQ Hdyn Hsm Heta Hx0).
Qed.

Theorem between_thm mp npath nterm z p n ph : input_ok mp npath nterm z p -> widths_ok (mp_nseg mp) (o_nph (mp_ocp mp)) p ->
  nlp_at mp z p = Ok n -> feasible n -> (ph < o_nph (mp_ocp mp))%nat ->
  let o := mp_ocp mp in let cf := mp_cf mp in let w := width mp p ph in let y := user_traj mp z ph in y_t0 y < y_tf y ->
  exists rs, mapM (c_roots cf) (mp_orders mp) = Ok rs /\
  forall cx cu k q j tau, SpecResid.seg_polys mp rs y k cx cu -> nth_error (mp_orders mp) k = Some q -> (j <= q)%nat -> cf_tau0 cf <= tau <= cf_tau1 cf ->
    let d := Rabs (seg_time cf w y k tau - seg_time cf w y k (nth j (nth k rs []) 0)) in
    (forall m M, rate_within mp w y k (fun u => nth m (path_along o ph y cx cu u (seg_time cf w y k u)) 0) M ->
       nth m (path_along o ph y cx cu tau (seg_time cf w y k tau)) 0 <= M * d) /\
    (forall s M, (s < o_nx o)%nat -> (ph, k, j) <> (0, 0, 0)%nat -> rate_within mp w y k (peval (cx s)) M ->
       above (bnd ph (o_lbx o) s) (peval (cx s) tau + M * d) /\ below (bnd ph (o_ubx o) s) (peval (cx s) tau - M * d)) /\
    (forall c M, (c < o_nu o)%nat -> rate_within mp w y k (peval (cu c)) M ->
       above (bnd ph (o_lbu o) c) (peval (cu c) tau + M * d) /\ below (bnd ph (o_ubu o) c) (peval (cu c) tau - M * d)).
Proof.
  intros Hin Hw En Hf Hph o cf w y Hy.
  destruct (nlp_like _ _ _ _ _ (user_traj mp z) Hin (fun ph _ => same_refl _ _)) as (rs & n' & R1 & R2 & _ & R3 & _).
  assert (n' = n) as -> by (pose proof (eq_trans (eq_sym R2) En) as X; injection X as X; exact X). apply R3 in Hf. destruct Hf as (Hb & Hp & _).
  destruct (Hp ph Hph) as (_ & Hpath & _). exists rs. split; [exact R1|]. intros cx cu k q j tau Hpl Eq Hj Hta.
  exact (between mp npath nterm z p ph Hin Hw Hph Hy rs R1 k q j tau cx cu Hpl (Hb ph Hph) Hpath Eq Hj Hta).
Qed.
