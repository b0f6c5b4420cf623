(** Trajectories under the controls of a point: existence, dependence on the start, distance to the point (proofs of C79). *)
From Coq Require Import Reals Lia Lra Psatz Bool Arith String.
From Coquelicot Require Import Coquelicot.
From Coq Require Import List.
From Verif Require Import Num PyList Mat Poly Roots Colloc Ocp Transcribe Assign Spec SpecOcp SpecHadapt SpecBalance SpecExact SpecConvex SpecTrans SpecResid SpecSmooth SpecTrack SpecReal SpecFlow NumR ListR PolyR CollocR CompR CollocThm MeshR BlockR DiscR NlpR OcpR ScaleR NlpThm CostR BalanceR WeightR ChebR ExactR ConvexR TransR TaylorR SmoothR TrackR RealR PicardR.
Import ListNotations.
Open Scope R_scope.

Lemma glue_cont (f h : R -> R) c t : continuous f t -> continuous h t -> f c = h c -> continuous (fun v => if Rle_dec v c then f v else h v) t.
Proof.
  intros Hf Hh E. apply cont_eps. intros eps. destruct (proj1 (cont_eps _ _) Hf eps) as [d1 H1]. destruct (proj1 (cont_eps _ _) Hh eps) as [d2 H2].
  destruct (Rtotal_order t c) as [Hlt|[->|Hgt]].
  - assert (Hd : 0 < Rmin d1 (c - t)) by (apply Rmin_glb_lt; [apply cond_pos|lra]). exists (mkposreal _ Hd). intros v Hv. cbn in Hv.
    pose proof (Rmin_l d1 (c - t)). pose proof (Rmin_r d1 (c - t)). destruct (Rle_dec t c); [|lra]. destruct (Rle_dec v c) as [|Hn]; [apply H1; lra|]. apply Rabs_def2 in Hv. lra.
  - assert (Hd : 0 < Rmin d1 d2) by (apply Rmin_glb_lt; apply cond_pos). exists (mkposreal _ Hd). intros v Hv. cbn in Hv.
    pose proof (Rmin_l d1 d2). pose proof (Rmin_r d1 d2). destruct (Rle_dec c c) as [|Hn]; [|lra]. destruct (Rle_dec v c); [apply H1; lra|rewrite E; apply H2; lra].
  - assert (Hd : 0 < Rmin d2 (t - c)) by (apply Rmin_glb_lt; [apply cond_pos|lra]). exists (mkposreal _ Hd). intros v Hv. cbn in Hv.
    pose proof (Rmin_l d2 (t - c)). pose proof (Rmin_r d2 (t - c)). destruct (Rle_dec t c); [lra|]. destruct (Rle_dec v c) as [|Hn]; [apply Rabs_def2 in Hv; lra|]. apply H2. lra.
Qed.

Section Phase.
Variables (mp : mpo Rnum) (w : nat -> R) (ph : nat) (y : utraj) (cu : nat -> nat -> list R).
Let o := mp_ocp mp.
Let cf := mp_cf mp.
Let orders := mp_orders mp.
Let K := length orders.
Let t0 := cf_tau0 cf.
Let t1 := cf_tau1 cf.
Hypothesis Ht : t0 < t1.
Hypothesis Hw : forall k, (k < K)%nat -> 0 < w k.
Hypothesis Hsum : Rsum K w = 1.
Hypothesis Hy : y_t0 y < y_tf y.
Let st k := seg_start w y k.
Let f k s t x := nth s (rhs o ph (a_of o y) x (fun c => peval (cu k c) (local cf w y k t)) t) 0.

Lemma st_next k : (k < K)%nat -> st k < st (S k).
Proof. intros Hk. pose proof (start_next mp w y Ht k) as X. pose proof (seg_hpos mp w y Ht Hw Hy k Hk). unfold st. rewrite X. fold cf t0 t1. fold cf in H. nra. Qed.
Lemma st_le j k : (j <= k)%nat -> (k <= K)%nat -> st j <= st k.
Proof. intros Hj. induction Hj as [|k Hj IH]; intros Hk; [lra|]. pose proof (st_next k ltac:(lia)). pose proof (IH ltac:(lia)). lra. Qed.
Lemma st_0 : st 0 = y_t0 y.
Proof. unfold st, seg_start. cbn [Rsum]. ring. Qed.
Lemma st_K : st K = y_tf y.
Proof. unfold st, seg_start. rewrite Hsum. ring. Qed.
Lemma time_in k tau : (k < K)%nat -> t0 < tau < t1 -> st k < seg_time cf w y k tau < st (S k).
Proof. intros Hk Hx. pose proof (start_next mp w y Ht k) as X. pose proof (seg_hpos mp w y Ht Hw Hy k Hk) as P. unfold st. rewrite X. unfold seg_time. fold cf in P |- *. fold t0 t1. nra. Qed.

Section Exists.
Variables (L : R) (x0 : nat -> R).
Hypothesis Hlip : lipschitz o ph (a_of o y) (y_t0 y) (y_tf y) L.
Hypothesis Hst : steady mp w ph y cu.
Lemma flow_upto k : (k <= K)%nat -> exists x : nat -> R -> R, (forall s t, (s < o_nx o)%nat -> continuous (x s) t) /\ (forall s, (s < o_nx o)%nat -> x s (y_t0 y) = x0 s) /\
  forall j s t, (j < k)%nat -> (s < o_nx o)%nat -> st j < t < st (S j) -> is_derive (x s) t (f j s t (fun i => x i t)).
Proof.
  induction k as [|k IH]; intros Hk.
  { exists (fun s _ => x0 s). split; [intros; apply continuous_const|]. split; [reflexivity|intros; lia]. }
  destruct (IH ltac:(lia)) as (x & Xc & Xs & Xd). pose proof (st_next k Hk) as Hn. pose proof (st_le 0 k ltac:(lia) ltac:(lia)) as L1. rewrite st_0 in L1. pose proof (st_le (S k) K Hk (le_n _)) as L2. rewrite st_K in L2.
  destruct (picard (o_nx o) (fun s t x => f k s (pin (st k) (st (S k)) t) x) (st k) (st (S k)) (Rabs L + 1) (fun s => x s (st k))) as (X & Yc & Ys & Yd).
  - lra.
  - pose proof (Rabs_pos L). lra.
  - intros s t a b e Hs He. unfold f. pose proof (pin_range (st k) (st (S k)) (Rlt_le _ _ Hn) t) as Hp. eapply Rle_trans; [apply (Hlip (pin (st k) (st (S k)) t)); [lra|exact Hs|exact He]|].
    assert (0 <= e) by (eapply Rle_trans; [apply Rabs_pos|apply (He s Hs)]). pose proof (Rle_abs L). nra.
  - intros s a t Hs. apply (continuous_comp (pin (st k) (st (S k))) (fun t => f k s t a)); [apply pin_cont; lra|]. apply (Hst k s a _ Hk Hs). apply (pin_range (st k) (st (S k)) (Rlt_le _ _ Hn)).
  - exists (fun s v => if Rle_dec v (st k) then x s v else X s v). split; [|split].
    + intros s t Hs. apply glue_cont; [apply Xc; exact Hs|apply Yc; exact Hs|symmetry; apply Ys; exact Hs].
    + intros s Hs. destruct (Rle_dec (y_t0 y) (st k)); [apply Xs; exact Hs|lra].
    + intros j s t Hj Hs Hx. destruct (Nat.eq_dec j k) as [->|Hne].
      * assert (Hd : 0 < t - st k) by lra. apply (is_derive_ext_loc (X s)).
        { exists (mkposreal _ Hd). intros v Hv. unfold ball in Hv; cbn in Hv. unfold AbsRing_ball, abs, minus, plus, opp in Hv; cbn in Hv. apply Rabs_def2 in Hv. destruct (Rle_dec v (st k)); [lra|reflexivity]. }
        evar_last; [apply (Yd s t Hs Hx)|]. cbv beta. rewrite (pin_in (st k) (st (S k))) by lra. unfold f. unfold rhs.
        rewrite (vec_eq (o_nx o) (fun i => if Rle_dec t (st k) then x i t else X i t) (fun i => X i t)); [reflexivity|]. intros i _. destruct (Rle_dec t (st k)); [lra|reflexivity].
      * pose proof (st_le (S j) k ltac:(lia) ltac:(lia)) as Hjk. assert (Hd : 0 < st k - t) by lra. apply (is_derive_ext_loc (x s)).
        { exists (mkposreal _ Hd). intros v Hv. unfold ball in Hv; cbn in Hv. unfold AbsRing_ball, abs, minus, plus, opp in Hv; cbn in Hv. apply Rabs_def2 in Hv. destruct (Rle_dec v (st k)); [reflexivity|lra]. }
        evar_last; [apply (Xd j s t ltac:(lia) Hs Hx)|]. unfold f, rhs.
        rewrite (vec_eq (o_nx o) (fun i => if Rle_dec t (st k) then x i t else X i t) (fun i => x i t)); [reflexivity|]. intros i _. destruct (Rle_dec t (st k)); [reflexivity|lra].
Qed.
Theorem flow_exists : exists x, follows mp w ph y cu x /\ forall s, (s < o_nx o)%nat -> x s (y_t0 y) = x0 s.
Proof.
  destruct (flow_upto K (le_n _)) as (x & Xc & Xs & Xd). exists x. split; [|exact Xs]. constructor.
  - intros s t Hs _. apply Xc. exact Hs.
  - intros k tau s Hk Hx Hs. cbv zeta. pose proof (time_in k tau Hk Hx) as Hin. evar_last; [apply (Xd k s _ Hk Hs Hin)|]. unfold f. fold cf. pose proof (local_of mp w y Ht Hw Hy k tau Hk) as X. fold cf in X. rewrite X. reflexivity.
Qed.
End Exists.

(** two trajectories under the same controls *)
Section Two.
Variables (x x' : nat -> R -> R) (D : R -> (nat -> R) -> (nat -> R) -> Prop) (L : R).
Hypothesis Hx : follows mp w ph y cu x.
Hypothesis Hx' : follows mp w ph y cu x'.
Hypothesis Hone : one_sided o ph (a_of o y) D L.
Hypothesis HD : forall k tau, (k < K)%nat -> t0 < tau < t1 -> let t := seg_time cf w y k tau in D t (fun c => peval (cu k c) tau) (fun s => x s t) /\ D t (fun c => peval (cu k c) tau) (fun s => x' s t).
Let d t := dist2 (o_nx o) (fun s => x s t) (fun s => x' s t).
Lemma local_mid k t : (k < K)%nat -> st k < t < st (S k) -> t0 < local cf w y k t < t1.
Proof. intros Hk Hx0. exact (local_in mp w y Ht Hw Hy k t Hk Hx0). Qed.
Lemma apart_seg k t : (k < K)%nat -> st k <= t <= st (S k) -> d t <= d (st k) * exp (2 * L * (t - st k)).
Proof.
  intros Hk Hin. pose proof (st_next k Hk) as Hn. pose proof (st_le 0 k ltac:(lia) ltac:(lia)) as L1. rewrite st_0 in L1. pose proof (st_le (S k) K Hk (le_n _)) as L2. rewrite st_K in L2.
  assert (X : d t + 0 <= (d (st k) + 0) * exp (2 * L * 1 * (t - st k))); [|rewrite !Rplus_0_r, Rmult_1_r in X; exact X].
  apply (grow (o_nx o) (fun s t => x s t - x' s t) (fun s t => f k s t (fun i => x i t) - f k s t (fun i => x' i t)) (st k) t (2 * L) 0 1); [lra| | |].
  - intros s v Hs Hv. pose proof (local_mid k v Hk ltac:(lra)) as Hl. pose proof (time_of mp w y Ht Hw Hy k v Hk) as Ev. fold cf in Ev.
    apply (is_derive_minus (V := R_NormedModule)).
    + pose proof (fo_eq _ _ _ _ _ _ Hx k _ s Hk Hl Hs) as A. cbv zeta in A. fold cf in A. rewrite Ev in A. exact A.
    + pose proof (fo_eq _ _ _ _ _ _ Hx' k _ s Hk Hl Hs) as A. cbv zeta in A. fold cf in A. rewrite Ev in A. exact A.
  - intros s v Hs Hv. apply (continuous_minus (V := R_NormedModule)); [apply (fo_cont _ _ _ _ _ _ Hx)|apply (fo_cont _ _ _ _ _ _ Hx')]; try exact Hs; lra.
  - intros v Hv. pose proof (local_mid k v Hk ltac:(lra)) as Hl. pose proof (time_of mp w y Ht Hw Hy k v Hk) as Ev. fold cf in Ev.
    destruct (HD k _ Hk Hl) as [D1 D2]. cbv zeta in D1, D2. rewrite Ev in D1, D2. pose proof (Hone _ _ _ _ D1 D2) as X.
    rewrite (Rsum_ext _ _ (fun s => 2 * ((x s v - x' s v) * (f k s v (fun i => x i v) - f k s v (fun i => x' i v))))) by (intros s Hs; ring). rewrite Rsum_scal.
    unfold dist2 in X. rewrite Rplus_0_r, Rmult_1_l, Rmult_assoc. apply Rmult_le_compat_l; [lra|]. exact X.
Qed.
Theorem apart k t : (k < K)%nat -> st k <= t <= st (S k) -> d t <= d (y_t0 y) * exp (2 * L * (t - y_t0 y)).
Proof.
  revert t. induction k as [|k IH]; intros t Hk Hin.
  - pose proof (apart_seg 0 t Hk Hin) as X. rewrite st_0 in X. exact X.
  - eapply Rle_trans; [apply (apart_seg (S k) t Hk Hin)|]. pose proof (st_next k ltac:(lia)) as Hn. pose proof (IH (st (S k)) ltac:(lia) ltac:(lra)) as X.
    eapply Rle_trans; [apply Rmult_le_compat_r; [apply Rlt_le, exp_pos|exact X]|]. rewrite Rmult_assoc, <- exp_plus. right. f_equal. f_equal. ring.
Qed.
End Two.
Lemma find_seg t : (1 <= K)%nat -> y_t0 y <= t <= y_tf y -> exists k, (k < K)%nat /\ st k <= t <= st (S k).
Proof.
  intros HK Hin. assert (H : forall k, (k <= K)%nat -> y_t0 y <= t <= st k -> (1 <= k)%nat -> exists j, (j < K)%nat /\ st j <= t <= st (S j)).
  { induction k as [|k IH]; intros Hk Hx Hk1; [lia|]. destruct (Rle_dec (st k) t) as [Hle|Hgt]; [exists k; split; [lia|lra]|].
    destruct k as [|k]; [rewrite st_0 in Hgt; lra|]. apply IH; [lia|lra|lia]. }
  apply (H K); [lia|rewrite st_K; exact Hin|exact HK].
Qed.
Lemma during_mid k tau : (k < K)%nat -> t0 < tau < t1 -> y_t0 y <= seg_time cf w y k tau <= y_tf y.
Proof.
  intros Hk Hx. pose proof (time_in k tau Hk Hx). pose proof (st_le 0 k ltac:(lia) ltac:(lia)) as L1. rewrite st_0 in L1. pose proof (st_le (S k) K Hk (le_n _)) as L2. rewrite st_K in L2. lra.
Qed.
End Phase.

(** the Lipschitz condition gives the one-sided one *)
Lemma lip_one o ph a (y : utraj) L : 0 <= L -> lipschitz o ph a (y_t0 y) (y_tf y) L -> one_sided o ph a (during y) (INR (o_nx o) * L).
Proof.
  intros HL H t u x x' Hd _. unfold during in Hd. set (q := dist2 (o_nx o) x x'). assert (Hq : 0 <= q).
  { unfold q, dist2. clear. induction (o_nx o) as [|n IH]; cbn [Rsum]; [lra|]. pose proof (pow2_ge_0 (x n - x' n)). lra. }
  assert (He : forall i, (i < o_nx o)%nat -> Rabs (x i - x' i) <= sqrt q).
  { intros i Hi. rewrite <- sqrt_Rsqr_abs. apply sqrt_le_1_alt. unfold Rsqr. replace ((x i - x' i) * (x i - x' i)) with ((x i - x' i) ^ 2) by ring.
    apply (sum_one (o_nx o) (fun s => (x s - x' s) ^ 2) i Hi). intros j _. apply pow2_ge_0. }
  eapply Rle_trans; [apply (Rsum_le _ _ (fun _ => L * q))|].
  - intros s Hs. pose proof (H t u x x' (sqrt q) s Hd Hs He) as X. pose proof (He s Hs) as Y. eapply Rle_trans; [apply Rle_abs|]. rewrite Rabs_mult.
    apply Rle_trans with (sqrt q * (L * sqrt q)); [apply Rmult_le_compat; try apply Rabs_pos; assumption|]. right. replace (sqrt q * (L * sqrt q)) with (L * (sqrt q * sqrt q)) by ring. rewrite sqrt_sqrt by exact Hq. reflexivity.
  - rewrite (sum_const (o_nx o)). right. ring.
Qed.
Lemma same_point n a b : dist2 n a b <= 0 -> forall s, (s < n)%nat -> a s = b s.
Proof.
  intros H s Hs. pose proof (sum_one n (fun s => (a s - b s) ^ 2) s Hs (fun j _ => pow2_ge_0 _)) as X. cbv beta in X. unfold dist2 in H. pose proof (pow2_ge_0 (a s - b s)).
  assert ((a s - b s) * (a s - b s) = 0) as E by (cbn in *; lra). apply Rmult_integral in E. lra.
Qed.

(** any point *)
Theorem exists_thm mp npath nterm z p ph : input_ok mp npath nterm z p -> widths_ok (mp_nseg mp) (o_nph (mp_ocp mp)) p -> (ph < o_nph (mp_ocp mp))%nat ->
  let o := mp_ocp mp in let w := width mp p ph in let y := user_traj mp z ph in y_t0 y < y_tf y ->
  forall cu L, lipschitz o ph (a_of o y) (y_t0 y) (y_tf y) L -> steady mp w ph y cu ->
  forall x0, exists x, (follows mp w ph y cu x /\ forall s, (s < o_nx o)%nat -> x s (y_t0 y) = x0 s) /\
    forall x', follows mp w ph y cu x' -> (forall s, (s < o_nx o)%nat -> x' s (y_t0 y) = x0 s) -> forall t s, y_t0 y <= t <= y_tf y -> (s < o_nx o)%nat -> x' s t = x s t.
Proof.
  intros Hin Hwid Hph o w y Hy cu L Hlip Hst x0. pose proof (in_mpo _ _ _ _ _ Hin) as Hmp. destruct (part_widths mp p Hmp Hwid ph Hph) as [W1 W2]. fold w in W1, W2.
  pose proof (co_taus _ (mo_cfg _ Hmp)) as Ht. assert (HK : (1 <= length (mp_orders mp))%nat) by (rewrite (mo_len _ Hmp); exact (mo_nseg _ Hmp)).
  destruct (flow_exists mp w ph y cu Ht W1 W2 Hy L x0 Hlip Hst) as (x & F & S0). exists x. split; [split; [exact F|exact S0]|].
  intros x' F' S0' t s Hx Hs. destruct (find_seg mp w y W2 t HK Hx) as (k & Hk & Hin').
  assert (Hlip' : lipschitz o ph (a_of o y) (y_t0 y) (y_tf y) (Rabs L)).
  { intros t' u a b e s' A1 A2 A3. eapply Rle_trans; [apply (Hlip t' u a b e s' A1 A2 A3)|]. apply Rmult_le_compat_r; [|apply Rle_abs]. eapply Rle_trans; [apply Rabs_pos|apply (A3 s' A2)]. }
  pose proof (apart mp w ph y cu Ht W1 W2 Hy x' x (during y) (INR (o_nx o) * Rabs L) F' F (lip_one o ph _ y (Rabs L) (Rabs_pos L) Hlip') (fun k tau Hk Hx => conj (during_mid mp w y Ht W1 W2 Hy k tau Hk Hx) (during_mid mp w y Ht W1 W2 Hy k tau Hk Hx)) k t Hk Hin') as A.
  cbv zeta in A. apply (same_point (o_nx o) (fun s => x' s t) (fun s => x s t)); [|exact Hs]. eapply Rle_trans; [exact A|]. right.
  assert (E : dist2 (o_nx (mp_ocp mp)) (fun s => x' s (y_t0 y)) (fun s => x s (y_t0 y)) = 0).
  { unfold dist2. rewrite (Rsum_ext _ _ (fun _ => 0)); [rewrite sum_const; ring|]. intros i Hi. rewrite (S0' i Hi), (S0 i Hi). ring. }
  rewrite E. ring.
Qed.
(** two trajectories, from whatever starts *)
Theorem apart_thm mp npath nterm z p ph : input_ok mp npath nterm z p -> widths_ok (mp_nseg mp) (o_nph (mp_ocp mp)) p -> (ph < o_nph (mp_ocp mp))%nat ->
  let o := mp_ocp mp in let w := width mp p ph in let y := user_traj mp z ph in y_t0 y < y_tf y ->
  forall cu x x' D L, follows mp w ph y cu x -> follows mp w ph y cu x' -> one_sided o ph (a_of o y) D L ->
  (forall k tau, (k < length (mp_orders mp))%nat -> cf_tau0 (mp_cf mp) < tau < cf_tau1 (mp_cf mp) -> let t := seg_time (mp_cf mp) w y k tau in
     D t (fun c => peval (cu k c) tau) (fun s => x s t) /\ D t (fun c => peval (cu k c) tau) (fun s => x' s t)) ->
  forall t, y_t0 y <= t <= y_tf y ->
    dist2 (o_nx o) (fun s => x s t) (fun s => x' s t) <= dist2 (o_nx o) (fun s => x s (y_t0 y)) (fun s => x' s (y_t0 y)) * exp (2 * L * (t - y_t0 y)).
Proof.
  intros Hin Hwid Hph o w y Hy cu x x' D L F F' H1 HD t Hx. pose proof (in_mpo _ _ _ _ _ Hin) as Hmp. destruct (part_widths mp p Hmp Hwid ph Hph) as [W1 W2]. fold w in W1, W2.
  pose proof (co_taus _ (mo_cfg _ Hmp)) as Ht. assert (HK : (1 <= length (mp_orders mp))%nat) by (rewrite (mo_len _ Hmp); exact (mo_nseg _ Hmp)).
  destruct (find_seg mp w y W2 t HK Hx) as (k & Hk & Hin').
  exact (apart mp w ph y cu Ht W1 W2 Hy x x' D L F F' H1 HD k t Hk Hin').
Qed.

(** feasible points *)
Theorem near_thm cf Q : cfg_ok cf -> exists C, 0 <= C /\ forall mp npath nterm z p n ph,
  mp_cf mp = cf -> (forall q, In q (mp_orders mp) -> (q <= Q)%nat) -> input_ok mp npath nterm z p -> widths_ok (mp_nseg mp) (o_nph (mp_ocp mp)) p ->
  nlp_at mp z p = Ok n -> feasible n -> (ph < o_nph (mp_ocp mp))%nat ->
  let o := mp_ocp mp in let w := width mp p ph in let y := user_traj mp z ph in y_t0 y < y_tf y ->
  exists rs, mapM (c_roots cf) (mp_orders mp) = Ok rs /\
  (exists cx cu, forall k, (k < length (mp_orders mp))%nat -> SpecResid.seg_polys mp rs y k (cx k) (cu k)) /\
  forall cx cu M L eta, (forall k, (k < length (mp_orders mp))%nat -> SpecResid.seg_polys mp rs y k (cx k) (cu k)) ->
    (forall k q s, nth_error (mp_orders mp) k = Some q -> (s < o_nx o)%nat ->
       smooth (dyn_time mp w ph y cx cu k s) (seg_start w y k) (seg_start w y (S k)) q M) ->
    0 <= L -> lipschitz o ph (a_of o y) (y_t0 y) (y_tf y) L -> steady mp w ph y cu ->
    (forall k q, nth_error (mp_orders mp) k = Some q -> lasts w y k ^ q <= eta) ->
    exists x, follows mp w ph y cu x /\ begins mp y x /\
      forall k tau s, (k < length (mp_orders mp))%nat -> cf_tau0 cf <= tau <= cf_tau1 cf -> (s < o_nx o)%nat ->
        let L' := INR (o_nx o) * L in
        Rabs (peval (cx k s) tau - x s (seg_time cf w y k tau)) <=
          C * M * eta * sqrt (INR (o_nx o) * (exp ((2 * L' + 1) * (y_tf y - y_t0 y)) - 1) / (2 * L' + 1)).
Proof.
  intros Hcf. destruct (order_thm cf Q Hcf) as (C & HC & H). exists C. split; [exact HC|].
  intros mp npath nterm z p n ph Ecf HQ Hin Hwid En Hf Hph o w y Hy. destruct (H mp npath nterm z p n ph Ecf HQ Hin Hwid En Hf Hph Hy) as (rs & Er & Hex & G). exists rs. split; [exact Er|]. split; [exact Hex|].
  intros cx cu M L eta Hp Hsm HL Hlip Hst Heta. destruct (G cx cu M Hp Hsm) as [_ G2]. clear G H.
  destruct (exists_thm mp npath nterm z p ph Hin Hwid Hph Hy cu L Hlip Hst (y_x y 0)) as (x & (F & S0) & _). exists x. split; [exact F|]. split; [exact S0|].
  pose proof (in_mpo _ _ _ _ _ Hin) as Hmp. destruct (part_widths mp p Hmp Hwid ph Hph) as [W1 W2]. pose proof (co_taus _ (mo_cfg _ Hmp)) as Ht.
  intros k tau s Hk Hta Hs L'. apply (G2 x (during y) L' eta F S0); try assumption.
  - unfold L'. apply Rmult_le_pos; [apply pos_INR|exact HL].
  - apply lip_one; assumption.
  - intros j u Hj Hu. cbv zeta. pose proof (during_mid mp (width mp p ph) y Ht W1 W2 Hy j u Hj Hu). split; assumption.
Qed.

Section Cost.
Variables (mp : mpo Rnum) (w : nat -> R) (ph : nat) (y : utraj) (cu : nat -> nat -> list R) (x : nat -> R -> R) (Lr : R).
Hypothesis Ht : cf_tau0 (mp_cf mp) < cf_tau1 (mp_cf mp).
Hypothesis Hw : forall k, (k < length (mp_orders mp))%nat -> 0 < w k.
Hypothesis Hsum : Rsum (length (mp_orders mp)) w = 1.
Hypothesis Hy : y_t0 y < y_tf y.
Hypothesis Hx : follows mp w ph y cu x.
Hypothesis Hr : run_lip (mp_ocp mp) ph (a_of (mp_ocp mp) y) (during y) Lr.
Hypothesis Hst : run_steady mp w ph y cu.
Lemma run_int k : (k < length (mp_orders mp))%nat -> ex_RInt (run_real mp w ph y cu x k) (seg_start w y k) (seg_start w y (S k)).
Proof.
  intros Hk. pose proof (st_next mp w y Ht Hw Hy k Hk) as Hn. pose proof (st_le mp w y Ht Hw Hy 0 k ltac:(lia) ltac:(lia)) as L1. rewrite st_0 in L1.
  assert (L2 : seg_start w y (S k) <= y_tf y) by (rewrite <- (st_K mp w y Hsum); apply (st_le mp w y Ht Hw Hy); lia).
  set (a := seg_start w y k) in *. set (b := seg_start w y (S k)) in *. set (n := o_nx (mp_ocp mp)).
  set (g := fun (_ : nat) t (x : nat -> R) => run_on (mp_ocp mp) ph (a_of (mp_ocp mp) y) x (fun c => peval (cu k c) (local (mp_cf mp) w y k (pin a b t))) (pin a b t)).
  apply (ex_RInt_ext (fun v => g 0%nat v (fun i => x i v))).
  { intros v Hv. rewrite Rmin_left, Rmax_right in Hv by lra. unfold g, run_real. rewrite (pin_in a b) by lra. reflexivity. }
  assert (Hlip : forall s t x x' e, (forall i, (i < n)%nat -> Rabs (x i - x' i) <= e) -> 0 <= e -> Rabs (g s t x - g s t x') <= (Rabs Lr + 1) * e).
  { intros s t u v e He He0. pose proof (pin_range a b (Rlt_le _ _ Hn) t) as Hp. eapply Rle_trans; [apply (Hr (pin a b t) _ u v e); unfold during; [lra|lra|exact He]|]. pose proof (Rle_abs Lr). nra. }
  assert (Hcont : forall s x t, continuous (fun t => g s t x) t).
  { intros s u t. apply (continuous_comp (pin a b) (fun t => run_on (mp_ocp mp) ph (a_of (mp_ocp mp) y) u (fun c => peval (cu k c) (local (mp_cf mp) w y k t)) t)); [apply pin_cont; lra|]. apply (Hst k u _ Hk). apply (pin_range a b (Rlt_le _ _ Hn)). }
  apply (ex_RInt_continuous (V := R_CompleteNormedModule)). intros v Hv. rewrite Rmin_left, Rmax_right in Hv by lra.
  assert (HX : forall i, (i < n)%nat -> continuous (x i) v) by (intros i Hi; apply (fo_cont _ _ _ _ _ _ Hx); [exact Hi|split; [apply Rle_trans with a|apply Rle_trans with b]; tauto]).
  clear - Hlip Hcont HX. apply cont_eps. intros eps. assert (HK : 0 < Rabs Lr + 1) by (pose proof (Rabs_pos Lr); lra). set (K := Rabs Lr + 1) in *.
  assert (He : 0 < eps / (2 * K)) by (apply Rdiv_lt_0_compat; [apply cond_pos|lra]).
  destruct (finite_pos n (fun i d => forall u, Rabs (u - v) < d -> Rabs (x i u - x i v) < eps / (2 * K))) as (d & Hd & H1).
  - intros i d d' H [_ Hdd] u Hu. apply H. lra.
  - intros i Hi. destruct (proj1 (cont_eps _ _) (HX i Hi) (mkposreal _ He)) as [d' H']. exists d'. split; [apply cond_pos|exact H'].
  - destruct (proj1 (cont_eps _ _) (Hcont 0%nat (fun i => x i v) v) (mkposreal _ (is_pos_div_2 eps))) as [d2 H2]. cbn in H2.
    assert (Hm : 0 < Rmin d d2) by (apply Rmin_glb_lt; [exact Hd|apply cond_pos]). exists (mkposreal _ Hm). intros u Hu. cbn in Hu. pose proof (Rmin_l d d2). pose proof (Rmin_r d d2).
    replace (g 0%nat u (fun i => x i u) - g 0%nat v (fun i => x i v)) with ((g 0%nat u (fun i => x i u) - g 0%nat u (fun i => x i v)) + (g 0%nat u (fun i => x i v) - g 0%nat v (fun i => x i v))) by ring.
    eapply Rle_lt_trans; [apply Rabs_triang|].
    assert (A : Rabs (g 0%nat u (fun i => x i u) - g 0%nat u (fun i => x i v)) <= K * (eps / (2 * K))) by (apply Hlip; [intros i Hi; apply Rlt_le, (H1 i Hi); lra|lra]).
    assert (B : Rabs (g 0%nat u (fun i => x i v) - g 0%nat v (fun i => x i v)) < eps / 2) by (apply H2; lra).
    replace (K * (eps / (2 * K))) with (eps / 2) in A by (field; lra). lra.
Qed.
End Cost.

Theorem cost_thm cf Q : cfg_ok cf -> exists C1 C2, 0 <= C1 /\ 0 <= C2 /\ forall mp npath nterm z p n,
  mp_cf mp = cf -> (forall q, In q (mp_orders mp) -> (q <= Q)%nat) -> input_ok mp npath nterm z p -> widths_ok (mp_nseg mp) (o_nph (mp_ocp mp)) p ->
  nlp_at mp z p = Ok n -> feasible n ->
  let o := mp_ocp mp in let orders := mp_orders mp in let w := width mp p in let y := user_traj mp z in
  (forall ph, (ph < o_nph o)%nat -> y_t0 (y ph) < y_tf (y ph)) ->
  exists rs, mapM (c_roots cf) orders = Ok rs /\
  forall cx cu L Lr Lm M m ML eta,
    (forall ph k, (ph < o_nph o)%nat -> (k < length orders)%nat -> SpecResid.seg_polys mp rs (y ph) k (cx ph k) (cu ph k)) ->
    cf_scheme cf = "LGR"%string /\ (forall k q, nth_error orders k = Some q -> (2 <= q)%nat /\ m k = (2 * q)%nat) \/
      length orders = 1%nat /\ (forall k q, nth_error orders k = Some q -> m k = (q + 2)%nat) ->
    0 <= L ->
    (forall ph, (ph < o_nph o)%nat ->
       lipschitz o ph (a_of o (y ph)) (y_t0 (y ph)) (y_tf (y ph)) L /\ steady mp (w ph) ph (y ph) (cu ph) /\
       run_lip o ph (a_of o (y ph)) (during (y ph)) Lr /\ run_steady mp (w ph) ph (y ph) (cu ph) /\
       mayer_lip o ph (a_of o (y ph)) (fun _ => True) (y_tf (y ph)) (y_x (y ph) 0) (y_t0 (y ph)) Lm /\
       forall k q, nth_error orders k = Some q ->
         smooth (run_time mp (w ph) ph (y ph) (cx ph) (cu ph) k) (seg_start (w ph) (y ph) k) (seg_start (w ph) (y ph) (S k)) (m k - 1) ML /\
         forall s, (s < o_nx o)%nat -> smooth (dyn_time mp (w ph) ph (y ph) (cx ph) (cu ph) k s) (seg_start (w ph) (y ph) k) (seg_start (w ph) (y ph) (S k)) q M) ->
    (forall ph k q, (ph < o_nph o)%nat -> nth_error orders k = Some q -> lasts (w ph) (y ph) k ^ q <= eta) ->
    exists x, (forall ph, (ph < o_nph o)%nat -> follows mp (w ph) ph (y ph) (cu ph) (x ph) /\ begins mp (y ph) (x ph)) /\
    Rabs (n_f n - Rsum (o_nph o) (fun ph => real_cost mp (w ph) ph (y ph) (cu ph) (x ph))) <=
      Rsum (o_nph o) (fun ph => let T := y_tf (y ph) - y_t0 (y ph) in let L' := INR (o_nx o) * L in
        (Lm + Lr * T) * (C2 * M * eta * sqrt (INR (o_nx o) * (exp ((2 * L' + 1) * T) - 1) / (2 * L' + 1))) +
        C1 * ML * Rsum (length orders) (fun k => lasts (w ph) (y ph) k ^ m k)).
Proof.
  intros Hcf. destruct (real_order cf Q Hcf) as (C1 & C2 & H1 & H2 & H). exists C1, C2. split; [exact H1|]. split; [exact H2|].
  intros mp npath nterm z p n Ecf HQ Hin Hwid En Hf o orders w y Hy. destruct (H mp npath nterm z p n Ecf HQ Hin Hwid En Hf Hy) as (rs & Er & G). exists rs. split; [exact Er|]. clear H.
  intros cx cu L Lr Lm M m ML eta Hp Hm HL Hph Heta.
  destruct (finite_choice (fun ph x => follows mp (w ph) ph (y ph) (cu ph) x /\ begins mp (y ph) x) (fun _ _ => 0) (o_nph o)) as (x & Hx).
  { intros ph Hk. destruct (Hph ph Hk) as (A & B & _). destruct (exists_thm mp npath nterm z p ph Hin Hwid Hk (Hy ph Hk) (cu ph) L A B (y_x (y ph) 0)) as (x & E & _). exists x. exact E. }
  exists x. split; [exact Hx|]. pose proof (in_mpo _ _ _ _ _ Hin) as Hmp. pose proof (co_taus _ (mo_cfg _ Hmp)) as Ht.
  apply (G cx cu x (fun ph => during (y ph)) (fun _ _ => True) (INR (o_nx o) * L) Lr Lm M m ML eta Hp Hm); [apply Rmult_le_pos; [apply pos_INR|exact HL]| |exact Heta].
  intros ph Hk. destruct (Hph ph Hk) as (A & B & A1 & B1 & A2 & S1). destruct (Hx ph Hk) as [F S0]. destruct (part_widths mp p Hmp Hwid ph Hk) as [W1 W2].
  split; [exact F|]. split; [apply lip_one; assumption|]. split; [|intros k q s Hq Hs; apply (S1 k q Hq); exact Hs]. constructor.
  - exact S0.
  - intros k Hkk. exact (run_int mp (w ph) ph (y ph) (cu ph) (x ph) Lr Ht W1 W2 (Hy ph Hk) F A1 B1 k Hkk).
  - intros j u Hj Hu. cbv zeta. pose proof (during_mid mp (w ph) (y ph) Ht W1 W2 (Hy ph Hk) j u Hj Hu). split; assumption.
  - split; exact I.
  - exact A1.
  - exact A2.
  - intros k Hkk. destruct (nth_error (mp_orders mp) k) as [q|] eqn:Eq; [|apply nth_error_None in Eq; lia]. apply (S1 k q Eq).
Qed.
