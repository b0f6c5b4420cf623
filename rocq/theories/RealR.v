(** The objective and the cost of the trajectory that the controls really lead to (proofs of C78). *)
From Coq Require Import Reals Lia Lra Psatz Bool Arith String.
From Coquelicot Require Import Coquelicot.
From Coq Require Import List.
From Verif Require Import Num PyList Mat Poly Roots Colloc Ocp Transcribe Assign Spec SpecOcp SpecHadapt SpecBalance SpecExact SpecConvex SpecTrans SpecResid SpecSmooth SpecTrack SpecReal NumR ListR PolyR CollocR CompR CollocThm MeshR BlockR DiscR NlpR OcpR ScaleR NlpThm CostR BalanceR WeightR ChebR ExactR ConvexR TransR TaylorR SmoothR TrackR.
Import ListNotations.
Open Scope R_scope.

Lemma RInt_near (f g : R -> R) a b c : a <= b -> ex_RInt f a b -> ex_RInt g a b -> (forall t, a < t < b -> Rabs (f t - g t) <= c) -> Rabs (RInt f a b - RInt g a b) <= c * (b - a).
Proof.
  intros Hab Hf Hg H. assert (Hc : ex_RInt (fun _ : R => c) a b) by apply (ex_RInt_const (V := R_NormedModule)).
  assert (Ec : RInt (fun _ : R => c) a b = c * (b - a)) by (rewrite (RInt_const (V := R_CompleteNormedModule)); unfold scal; cbn; unfold mult; cbn; ring).
  assert (A : forall u v : R -> R, ex_RInt u a b -> ex_RInt v a b -> (forall t, a < t < b -> Rabs (u t - v t) <= c) -> RInt u a b - RInt v a b <= c * (b - a)).
  { intros u v Hu Hv Huv. assert (Hs : ex_RInt (fun t => v t + c) a b) by (apply (ex_RInt_plus (V := R_NormedModule)); assumption).
    assert (Es : RInt (fun t => v t + c) a b = RInt v a b + c * (b - a)) by (rewrite <- Ec; apply (RInt_plus (V := R_CompleteNormedModule)); assumption).
    assert (RInt u a b <= RInt (fun t => v t + c) a b).
    { apply RInt_le; [exact Hab|exact Hu|exact Hs|]. intros t Ht. pose proof (Huv t Ht) as X. apply Rabs_le_between in X. lra. }
    lra. }
  apply Rabs_le. split.
  - assert (X : RInt g a b - RInt f a b <= c * (b - a)) by (apply A; [exact Hg|exact Hf|]; intros t Ht; rewrite Rabs_minus_sym; exact (H t Ht)). lra.
  - apply A; assumption.
Qed.

Section Phase.
Variables (mp : mpo Rnum) (rs : list (list R)) (w : nat -> R) (ph : nat) (y : utraj) (cx cu : nat -> nat -> list R) (x : nat -> R -> R)
  (D : R -> (nat -> R) -> (nat -> R) -> Prop) (E : (nat -> R) -> Prop) (Lr Lm : R) (m : nat -> nat) (ML C e : R).
Let o := mp_ocp mp.
Let cf := mp_cf mp.
Let orders := mp_orders mp.
Let K := length orders.
Let t0 := cf_tau0 cf.
Let t1 := cf_tau1 cf.
Hypothesis Ht : t0 < t1.
Hypothesis HK : (1 <= K)%nat.
Hypothesis Hrs : length rs = K.
Hypothesis Hgood : forall k q r, nth_error orders k = Some q -> nth_error rs k = Some r -> good_nodes t0 t1 q r.
Hypothesis Hroots : forall k q, nth_error orders k = Some q -> c_roots cf q = Ok (nth k rs []).
Hypothesis Hw : forall k, (k < K)%nat -> 0 < w k.
Hypothesis Hsum : Rsum K w = 1.
Hypothesis Hy : y_t0 y < y_tf y.
Hypothesis Hpoly : forall k, (k < K)%nat -> SpecResid.seg_polys mp rs y k (cx k) (cu k).
Hypothesis Hcm : comparable mp w ph y cx cu x D E Lr Lm m ML.
Hypothesis HC : forall q, In q orders -> seg_const cf q C.
Hypothesis Hm : forall k q, nth_error orders k = Some q -> exists m', m k = S (S m') /\ (cf_scheme cf = "LGR"%string /\ (2 <= q)%nat /\ m' = (2 * q - 2)%nat \/ m' = q).
Hypothesis Hnear : forall k tau s, (k < K)%nat -> t0 <= tau <= t1 -> (s < o_nx o)%nat -> Rabs (peval (cx k s) tau - x s (seg_time cf w y k tau)) <= e.

Lemma seg_hpos k : (k < K)%nat -> 0 < seg_h cf w y k.
Proof. intros Hk. unfold seg_h. apply Rmult_lt_0_compat; [apply Rmult_lt_0_compat; [lra|apply Hw; exact Hk]|apply Rinv_0_lt_compat; fold t0 t1; lra]. Qed.
Lemma seg_dur k : seg_h cf w y k * (t1 - t0) = lasts w y k.
Proof. unfold seg_h, lasts. fold t0 t1. field. lra. Qed.
Lemma start_next k : seg_start w y (S k) = seg_start w y k + seg_h cf w y k * (t1 - t0).
Proof. rewrite seg_dur. unfold seg_start, lasts. cbn [Rsum]. ring. Qed.
Lemma local_of k tau : (k < K)%nat -> local cf w y k (seg_time cf w y k tau) = tau.
Proof. intros Hk. pose proof (seg_hpos k Hk). unfold local, seg_time. fold t0. field. lra. Qed.
Lemma time_of k t : (k < K)%nat -> seg_time cf w y k (local cf w y k t) = t.
Proof. intros Hk. pose proof (seg_hpos k Hk). unfold local, seg_time. fold t0. field. lra. Qed.
Lemma local_in k t : (k < K)%nat -> seg_start w y k < t < seg_start w y (S k) -> t0 < local cf w y k t < t1.
Proof.
  intros Hk Hx. pose proof (seg_hpos k Hk) as Hh. rewrite start_next in Hx. pose proof (time_of k t Hk) as X. unfold seg_time in X. fold t0 in X. set (v := local cf w y k t) in *.
  split; (apply Rmult_lt_reg_l with (seg_h cf w y k); [exact Hh|]); rewrite <- X in Hx; nra.
Qed.
Lemma run_node k q j : nth_error orders k = Some q -> (j <= q)%nat -> run_at mp rs w ph y k j = run_time mp w ph y cx cu k (seg_start w y k + seg_h cf w y k * (nth j (nth k rs []) 0 - t0)).
Proof.
  intros Eq Hj. pose proof (MeshR.nth_error_lt _ _ _ Eq) as Hk. fold K in Hk. unfold run_at, run_time, run_val, run_on. fold o cf orders.
  change (seg_start w y k + seg_h cf w y k * (nth j (nth k rs []) 0 - t0)) with (seg_time cf w y k (nth j (nth k rs []) 0)). rewrite (local_of k _ Hk).
  assert (Lr0 : length (nth k rs []) = S q) by (apply (Hgood k q _ Eq); apply nth_error_nth'; rewrite Hrs; exact Hk).
  destruct (Hpoly k Hk) as [Px Pu].
  rewrite (vec_eq (o_nx o) (y_x y (offset orders k + j)) (fun s => peval (cx k s) (nth j (nth k rs []) 0))) by (intros s Hs; symmetry; apply (proj2 (Px s Hs)); lia).
  rewrite (vec_eq (o_nu o) (y_u y (offset orders k + j)) (fun c => peval (cu k c) (nth j (nth k rs []) 0))) by (intros s Hs; symmetry; apply (proj2 (Pu s Hs)); lia).
  reflexivity.
Qed.
Lemma smooth_int k : (k < K)%nat -> ex_RInt (run_time mp w ph y cx cu k) (seg_start w y k) (seg_start w y (S k)).
Proof.
  intros Hk. destruct (nth_error orders k) as [q|] eqn:Eq; [|apply nth_error_None in Eq; fold K in Eq; lia]. destruct (Hm k q Eq) as (m' & Em & _).
  pose proof (seg_hpos k Hk) as Hh. pose proof (start_next k) as En.
  apply (ex_RInt_continuous (V := R_CompleteNormedModule)). intros t Hx. apply (ex_derive_continuous (V := R_NormedModule)).
  rewrite Rmin_left, Rmax_right in Hx by nra. destruct (cm_smooth _ _ _ _ _ _ _ _ _ _ _ _ _ Hcm k Hk t Hx) as [X _]. apply (X 1%nat). rewrite Em. lia.
Qed.
Lemma seg_near Ck k q : cost_interp mp rs w ph y Ck -> nth_error orders k = Some q ->
  Rabs (seg_h cf w y k * RInt (peval (Ck k)) t0 t1 - RInt (run_real mp w ph y cu x k) (seg_start w y k) (seg_start w y (S k))) <= C * ML * lasts w y k ^ m k + Lr * e * lasts w y k.
Proof.
  intros Hi Eq. pose proof (MeshR.nth_error_lt _ _ _ Eq) as Hk. fold K in Hk. pose proof (seg_hpos k Hk) as Hh. destruct (Hm k q Eq) as (m' & Em & Hm').
  assert (A : Rabs (seg_h cf w y k * RInt (peval (Ck k)) t0 t1 - RInt (run_time mp w ph y cx cu k) (seg_start w y k) (seg_start w y (S k))) <= C * ML * lasts w y k ^ m k).
  { destruct (HC q (nth_error_In _ _ Eq)) as [_ H]. specialize (H _ (Hroots k q Eq) (run_time mp w ph y cx cu k) (seg_start w y k) (seg_h cf w y k) (Ck k) Hh). fold t0 t1 in H. destruct H as [_ H].
    - destruct (Hi k Hk) as [Lc Ec]. split; [exact Lc|]. intros j Hj. etransitivity; [exact (Ec j Hj)|]. apply (run_node k q j Eq).
      assert (Lr0 : length (nth k rs []) = S q) by (apply (Hgood k q _ Eq); apply nth_error_nth'; rewrite Hrs; exact Hk). clear - Hj Lr0. nred. lia.
    - specialize (H ML m' Hm'). rewrite <- start_next in H. rewrite seg_dur in H. rewrite Em. apply H. pose proof (cm_smooth _ _ _ _ _ _ _ _ _ _ _ _ _ Hcm k Hk) as X. rewrite Em in X. exact X. }
  assert (B : Rabs (RInt (run_time mp w ph y cx cu k) (seg_start w y k) (seg_start w y (S k)) - RInt (run_real mp w ph y cu x k) (seg_start w y k) (seg_start w y (S k))) <= Lr * e * lasts w y k).
  { pose proof (start_next k) as En. replace (lasts w y k) with (seg_start w y (S k) - seg_start w y k) by (rewrite En, seg_dur; ring).
    apply RInt_near; [nra|apply smooth_int; exact Hk|exact (cm_int _ _ _ _ _ _ _ _ _ _ _ _ _ Hcm k Hk)|]. intros t Hx. pose proof (local_in k t Hk Hx) as Hl. pose proof (time_of k t Hk) as Et.
    destruct (cm_D _ _ _ _ _ _ _ _ _ _ _ _ _ Hcm k (local cf w y k t) Hk Hl) as [D1 D2]. cbv zeta in D1, D2. fold cf in D1, D2. rewrite Et in D1, D2.
    apply (cm_run _ _ _ _ _ _ _ _ _ _ _ _ _ Hcm t _ _ _ e D1 D2). intros s Hs. pose proof (Hnear k (local cf w y k t) s Hk ltac:(lra) Hs) as X. rewrite Et in X. exact X. }
  match type of A with Rabs (?a - ?b) <= _ => match type of B with Rabs (_ - ?c) <= _ => replace (a - c) with ((a - b) + (b - c)) by ring end end.
  eapply Rle_trans; [apply Rabs_triang|]. lra.
Qed.
Lemma mayer_near : Rabs (mayer_val o ph y (total_nodes orders - 1) - mayer_on o ph (a_of o y) (fun s => x s (y_tf y)) (y_tf y) (fun s => x s (y_t0 y)) (y_t0 y)) <= Lm * e.
Proof.
  assert (E0 : mayer_on o ph (a_of o y) (fun s => x s (y_tf y)) (y_tf y) (fun s => x s (y_t0 y)) (y_t0 y) = mayer_on o ph (a_of o y) (fun s => x s (y_tf y)) (y_tf y) (y_x y 0) (y_t0 y)).
  { unfold mayer_on. rewrite (vec_eq (o_nx o) (fun s => x s (y_t0 y)) (y_x y 0)) by exact (cm_start _ _ _ _ _ _ _ _ _ _ _ _ _ Hcm). reflexivity. }
  rewrite E0. change (mayer_val o ph y (total_nodes orders - 1)) with (mayer_on o ph (a_of o y) (y_x y (total_nodes orders - 1)) (y_tf y) (y_x y 0) (y_t0 y)).
  destruct (cm_E _ _ _ _ _ _ _ _ _ _ _ _ _ Hcm) as [E1 E2]. apply (cm_mayer _ _ _ _ _ _ _ _ _ _ _ _ _ Hcm _ _ e E1 E2). intros s Hs.
  assert (Hl : (K - 1 < K)%nat) by lia. pose proof (Hnear (K - 1)%nat t1 s Hl ltac:(lra) Hs) as X.
  assert (Et : seg_time cf w y (K - 1) t1 = y_tf y).
  { unfold seg_time. fold t0. pose proof (start_next (K - 1)) as Y. replace (S (K - 1)) with K in Y by lia. rewrite <- Y. unfold seg_start. rewrite Hsum. ring. }
  assert (Ey : peval (cx (K - 1)%nat s) t1 = y_x y (total_nodes orders - 1) s).
  { pose proof (poly_end mp rs Hrs Hgood (K - 1)%nat (fun i => y_x y i s) (cx (K - 1)%nat s)) as Z. fold orders K cf t1 in Z. etransitivity; [apply Z; [lia|exact (proj1 (Hpoly (K - 1)%nat Hl) s Hs)]|]. cbv beta. f_equal. replace (S (K - 1)) with K by lia. unfold total_nodes. fold K. lia. }
  rewrite Et, Ey in X. exact X.
Qed.
Lemma phase_near Ck : cost_interp mp rs w ph y Ck ->
  Rabs (phase_cost mp w ph y Ck - real_cost mp w ph y cu x) <= (Lm + Lr * (y_tf y - y_t0 y)) * e + C * ML * Rsum K (fun k => lasts w y k ^ m k).
Proof.
  intros Hi. unfold phase_cost, real_cost. fold o cf orders. pose proof mayer_near as A.
  match type of A with Rabs (?a - ?b) <= _ => match goal with |- Rabs (a + ?c - (b + ?d)) <= _ => replace (a + c - (b + d)) with ((a - b) + (c - d)) by ring end end.
  eapply Rle_trans; [apply Rabs_triang|].
  assert (B : Rabs (Rsum K (fun k => seg_h cf w y k * RInt (peval (Ck k)) t0 t1) - Rsum K (fun k => RInt (run_real mp w ph y cu x k) (seg_start w y k) (seg_start w y (S k)))) <=
    Rsum K (fun k => C * ML * lasts w y k ^ m k + Lr * e * lasts w y k)).
  { rewrite <- Rsum_minus. eapply Rle_trans; [apply Rsum_abs|]. apply Rsum_le. intros k Hk. destruct (nth_error orders k) as [q|] eqn:Eq; [|apply nth_error_None in Eq; fold K in Eq; lia]. exact (seg_near Ck k q Hi Eq). }
  assert (F : Rsum K (fun k => C * ML * lasts w y k ^ m k + Lr * e * lasts w y k) = C * ML * Rsum K (fun k => lasts w y k ^ m k) + Lr * e * (y_tf y - y_t0 y)).
  { rewrite Rsum_plus, !Rsum_scal. f_equal. f_equal. unfold lasts. rewrite Rsum_scal, Hsum. ring. }
  rewrite F in B. fold K t0 t1. lra.
Qed.
End Phase.

(** any point, and any trajectories within [e ph] of its polynomials *)
Theorem real_thm cf Q : cfg_ok cf -> exists C, 0 <= C /\ forall mp npath nterm z p,
  mp_cf mp = cf -> (forall q, In q (mp_orders mp) -> (q <= Q)%nat) -> input_ok mp npath nterm z p -> widths_ok (mp_nseg mp) (o_nph (mp_ocp mp)) p ->
  let o := mp_ocp mp in let orders := mp_orders mp in let w := width mp p in let y := user_traj mp z in
  (forall ph, (ph < o_nph o)%nat -> y_t0 (y ph) < y_tf (y ph)) ->
  exists rs n, mapM (c_roots cf) orders = Ok rs /\ nlp_at mp z p = Ok n /\
  forall cx cu x D E Lr Lm m ML e,
    (forall ph k, (ph < o_nph o)%nat -> (k < length orders)%nat -> SpecResid.seg_polys mp rs (y ph) k (cx ph k) (cu ph k)) ->
    cf_scheme cf = "LGR"%string /\ (forall k q, nth_error orders k = Some q -> (2 <= q)%nat /\ m k = (2 * q)%nat) \/
      length orders = 1%nat /\ (forall k q, nth_error orders k = Some q -> m k = (q + 2)%nat) ->
    (forall ph, (ph < o_nph o)%nat -> comparable mp (w ph) ph (y ph) (cx ph) (cu ph) (x ph) (D ph) (E ph) Lr Lm m ML) ->
    (forall ph k tau s, (ph < o_nph o)%nat -> (k < length orders)%nat -> cf_tau0 cf <= tau <= cf_tau1 cf -> (s < o_nx o)%nat ->
       Rabs (peval (cx ph k s) tau - x ph s (seg_time cf (w ph) (y ph) k tau)) <= e ph) ->
    Rabs (n_f n - Rsum (o_nph o) (fun ph => real_cost mp (w ph) ph (y ph) (cu ph) (x ph))) <=
      Rsum (o_nph o) (fun ph => (Lm + Lr * (y_tf (y ph) - y_t0 (y ph))) * e ph + C * ML * Rsum (length orders) (fun k => lasts (w ph) (y ph) k ^ m k)).
Proof.
  intros Hcf. destruct (consts_exist cf Q Hcf) as (C & H0 & HC). exists C. split; [exact H0|].
  intros mp npath nterm z p Ecf HQ Hin Hwid o orders w y Hy. subst cf. set (cf := mp_cf mp) in *.
  pose proof Hin as [Hmp Hok Hsc Hz Hlp]. pose proof (co_taus _ Hcf) as Ht.
  destruct (objective mp npath nterm z p Hin) as (rs & n & Er & En & (C0 & B0 & HC0 & HB0) & _ & HLGR & Hone).
  exists rs, n. split; [exact Er|]. split; [exact En|]. intros cx cu x D E Lr Lm m ML e Hpoly Hcase Hcm Hnear.
  assert (Hm : forall k q, nth_error orders k = Some q -> exists m', m k = S (S m') /\ (cf_scheme cf = "LGR"%string /\ (2 <= q)%nat /\ m' = (2 * q - 2)%nat \/ m' = q)).
  { intros k q Eq. destruct Hcase as [[Es Hq]|[_ Hq]].
    - destruct (Hq k q Eq) as [H2 Em]. exists (2 * q - 2)%nat. split; [lia|]. left. auto.
    - specialize (Hq k q Eq). exists q. split; [lia|]. right. reflexivity. }
  assert (En' : n_f n = Rsum (o_nph o) (fun ph => phase_cost mp (width mp p ph) ph (user_traj mp z ph) (C0 ph))).
  { destruct Hcase as [[Es Hq]|[H1 _]]; [apply HLGR|apply Hone]; auto. intros q Hin'. fold orders in Hin'.
    assert (X : In q orders) by (destruct orders; [destruct Hin'|right; exact Hin']). destruct (In_nth_error _ _ X) as [k Ek]. apply (Hq k q Ek). }
  assert (Hlo : (1 <= length orders)%nat) by (unfold orders; rewrite (mo_len _ Hmp); exact (mo_nseg _ Hmp)).
  rewrite En', <- Rsum_minus. eapply Rle_trans; [apply Rsum_abs|]. apply Rsum_le. intros ph Hph.
  destruct (part_widths mp p Hmp Hwid ph Hph) as [W1 W2].
  apply (phase_near mp rs (w ph) ph (y ph) (cx ph) (cu ph) (x ph) (D ph) (E ph) Lr Lm m ML C (e ph) Ht Hlo (rs_len mp rs Er) (rs_good mp npath nterm z p Hin rs Er) (rs_root mp rs Er) W1 W2 (Hy ph Hph) (fun k Hk => Hpoly ph k Hph Hk) (Hcm ph Hph)).
  - intros q Hq. apply HC. split; [exact (mo_pos _ Hmp q Hq)|exact (HQ q Hq)].
  - exact Hm.
  - intros k tau s Hk Hta Hs. exact (Hnear ph k tau s Hph Hk Hta Hs).
  - exact (HC0 ph Hph).
Qed.
(** feasible points: of the order of the segments *)
Theorem real_order cf Q : cfg_ok cf -> exists C1 C2, 0 <= C1 /\ 0 <= C2 /\ forall mp npath nterm z p n,
  mp_cf mp = cf -> (forall q, In q (mp_orders mp) -> (q <= Q)%nat) -> input_ok mp npath nterm z p -> widths_ok (mp_nseg mp) (o_nph (mp_ocp mp)) p ->
  nlp_at mp z p = Ok n -> feasible n ->
  let o := mp_ocp mp in let orders := mp_orders mp in let w := width mp p in let y := user_traj mp z in
  (forall ph, (ph < o_nph o)%nat -> y_t0 (y ph) < y_tf (y ph)) ->
  exists rs, mapM (c_roots cf) orders = Ok rs /\
  forall cx cu x D E L Lr Lm M m ML eta,
    (forall ph k, (ph < o_nph o)%nat -> (k < length orders)%nat -> SpecResid.seg_polys mp rs (y ph) k (cx ph k) (cu ph k)) ->
    cf_scheme cf = "LGR"%string /\ (forall k q, nth_error orders k = Some q -> (2 <= q)%nat /\ m k = (2 * q)%nat) \/
      length orders = 1%nat /\ (forall k q, nth_error orders k = Some q -> m k = (q + 2)%nat) ->
    0 <= L ->
    (forall ph, (ph < o_nph o)%nat -> follows mp (w ph) ph (y ph) (cu ph) (x ph) /\ one_sided o ph (a_of o (y ph)) (D ph) L /\
       comparable mp (w ph) ph (y ph) (cx ph) (cu ph) (x ph) (D ph) (E ph) Lr Lm m ML /\
       forall k q s, nth_error orders k = Some q -> (s < o_nx o)%nat ->
         smooth (dyn_time mp (w ph) ph (y ph) (cx ph) (cu ph) k s) (seg_start (w ph) (y ph) k) (seg_start (w ph) (y ph) (S k)) q M) ->
    (forall ph k q, (ph < o_nph o)%nat -> nth_error orders k = Some q -> lasts (w ph) (y ph) k ^ q <= eta) ->
    Rabs (n_f n - Rsum (o_nph o) (fun ph => real_cost mp (w ph) ph (y ph) (cu ph) (x ph))) <=
      Rsum (o_nph o) (fun ph => let T := y_tf (y ph) - y_t0 (y ph) in
        (Lm + Lr * T) * (C2 * M * eta * sqrt (INR (o_nx o) * (exp ((2 * L + 1) * T) - 1) / (2 * L + 1))) +
        C1 * ML * Rsum (length orders) (fun k => lasts (w ph) (y ph) k ^ m k)).
Proof.
  intros Hcf. destruct (real_thm cf Q Hcf) as (C1 & P1 & H1). destruct (order_thm cf Q Hcf) as (C2 & P2 & H2). exists C1, C2. split; [exact P1|]. split; [exact P2|].
  intros mp npath nterm z p n Ecf HQ Hin Hwid En Hf o orders w y Hy.
  destruct (H1 mp npath nterm z p Ecf HQ Hin Hwid Hy) as (rs & n' & Er & En' & H).
  assert (n' = n) as -> by (pose proof (eq_trans (eq_sym En') En) as X; injection X as X; exact X).
  exists rs. split; [exact Er|]. intros cx cu x D E L Lr Lm M m ML eta Hpoly Hcase HL Hph Heta.
  apply (H cx cu x D E Lr Lm m ML (fun ph => C2 * M * eta * sqrt (INR (o_nx o) * (exp ((2 * L + 1) * (y_tf (y ph) - y_t0 (y ph))) - 1) / (2 * L + 1))) Hpoly Hcase).
  - intros ph Hp. apply (Hph ph Hp).
  - intros ph k tau s Hp Hk Ht Hs. destruct (Hph ph Hp) as (F1 & F2 & F3 & F4).
    destruct (H2 mp npath nterm z p n ph Ecf HQ Hin Hwid En Hf Hp (Hy ph Hp)) as (rs' & Er' & _ & G).
    assert (rs' = rs) as -> by (pose proof (eq_trans (eq_sym Er') Er) as X; injection X as X; exact X).
    destruct (G (cx ph) (cu ph) M (fun k Hk => Hpoly ph k Hp Hk) F4) as [_ G2].
    apply (G2 (x ph) (D ph) L eta F1 (cm_start _ _ _ _ _ _ _ _ _ _ _ _ _ F3) HL F2 (cm_D _ _ _ _ _ _ _ _ _ _ _ _ _ F3) (fun k q => Heta ph k q Hp) k tau s Hk Ht Hs).
Qed.
