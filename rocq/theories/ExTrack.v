(** A problem whose feasible points do not follow its differential equation, on any mesh (examples for C69). *)
From Coq Require Import Reals Lia Lra Psatz Bool Arith String.
From Coquelicot Require Import Coquelicot.
From Coq Require Import List.
From Verif Require Import Num PyList Mat Poly Roots Colloc Ocp Transcribe Spec SpecOcp SpecHadapt SpecResid SpecExact SpecSmooth SpecTrack NumR ListR PolyR MeshR BlockR DiscR NlpR NlpThm ScaleR ExactR TransR ExOcp TrackR.
Import ListNotations.
Open Scope R_scope.

(** x' = u^2 from x = 0, times 0 to 1, controls between -1 and 1 *)
Definition swing : ocp Rnum :=
  Ocp (N := Rnum) 1 1 0 1
    [fun _ u _ _ => Ok [nth 0 u 0 * nth 0 u 0]] [fun _ _ _ _ => Ok None] [fun _ _ _ _ _ => Ok (Some 0)]
    [fun _ u _ _ => Ok (Some (nth 0 u 0))] [fun _ _ _ _ _ => Ok None] []
    [1] [1] [] 1 [[0]] [[0]] [[0]] [[0]] [[0]] [[1]] [[]]
    [[Fin 0]] [[Fin 1]] [[Fin (-1)]] [[Fin 1]] [[]] [[]]
    [[Fin 0]] [[Fin 0]] [[Fin 1]] [[Fin 1]] [] [] [false] [Fin (-15)] [Fin 15] [false] [false].
Lemma swing_ok : ocp_ok swing (fun _ => None) (fun _ => None).
Proof.
  constructor.
  { constructor; cbn; auto; try (apply shaped1; reflexivity).
    - split; [reflexivity|]. intros H. lia.
    - split; [reflexivity|]. intros H. lia.
    - intros [|i] [|j] Hi Hj; try lia; cbn; lra.
    - intros [|i] [|j] Hi Hj; try lia; cbn; lra.
    - intros i j Hi Hj; lia.
    - intros [|i] [|j] Hi Hj; try lia; cbn; lra.
    - intros [|i] [|j] Hi Hj; try lia; cbn; lra.
    - intros i j Hi Hj; lia. }
  - cbn; lia.
  - intros ph f x u t a H _ _ _. one ph H; eexists; split; reflexivity.
  - intros ph f x u t a H _ _ _. one ph H; eexists; reflexivity.
  - intros ph f xf tf x0 t0 a H _ _ _. one ph H; eexists; reflexivity.
  - intros ph f x u t a H _ _ _. one ph H; reflexivity.
  - intros ph f xf tf x0 t0 a H _ _ _. one ph H; reflexivity.
  - reflexivity.
  - reflexivity.
  - reflexivity.
  - reflexivity.
  - reflexivity.
  - intros; cbn; lia.
  - intros i j [].
  - cbn; lia.
  - cbn; intros H; lia.
Qed.
Lemma swing_scales : scales_pos swing.
Proof. constructor; cbn; [intros s [<-|[]]; lra|intros s [<-|[]]; lra|intros s []|lra]. Qed.
Definition swing_mp (K : nat) : mpo Rnum := Mpo swing K (repeat 1%nat K) (demo_cf "LGR").
Definition swing_p (K : nat) : list R := repeat (1 / INR K) K.
Lemma swing_mpo K : (1 <= K)%nat -> mpo_ok (swing_mp K).
Proof.
  intros HK. constructor; cbn [swing_mp mp_cf mp_nseg mp_orders]; [apply demo_cf_ok; cbn; auto|apply repeat_length|exact HK|].
  intros p Hp. apply repeat_spec in Hp. lia.
Qed.
Lemma swing_roots K : mapM (c_roots (mp_cf (swing_mp K))) (mp_orders (swing_mp K)) = Ok (repeat [-1; 1] K).
Proof. cbn [swing_mp mp_cf mp_orders]. induction K as [|n IH]; [reflexivity|]. cbn [repeat mapM]. nred. rewrite IH. reflexivity. Qed.

(** the feasible point: the state grows with time, the controls at the nodes alternate *)
Definition swinging (K : nat) : utraj := Utraj (fun i _ => INR i / INR K) (fun i _ => (-1) ^ i) 0 1 (fun _ => 0).
Definition swing_z (K : nat) : list R := pack (swing_mp K) (fun _ => swinging K).
Lemma alt_sq i : (-1) ^ i * (-1) ^ i = 1.
Proof. induction i as [|i IH]; cbn; [ring|]. nra. Qed.
Lemma swing_input K : (1 <= K)%nat -> input_ok (swing_mp K) (fun _ => None) (fun _ => None) (swing_z K) (swing_p K).
Proof. intros HK. constructor; [exact (swing_mpo K HK)|exact swing_ok|exact swing_scales|apply length_pack|cbn; unfold swing_p; rewrite repeat_length; lia]. Qed.
Lemma swing_traj K ph : (ph < 1)%nat -> same_traj (swing_mp K) (user_traj (swing_mp K) (swing_z K) ph) (swinging K).
Proof. intros H. exact (pack_traj (swing_mp K) (fun _ => swinging K) ph (ok_shapes _ _ _ swing_ok) swing_scales H). Qed.
Lemma swing_widths K : (1 <= K)%nat -> widths_ok K 1 (swing_p K).
Proof.
  intros HK. split; [unfold swing_p; rewrite repeat_length; lia|]. intros ph Hph. assert (ph = 0)%nat as -> by lia. unfold phase_part, swing_p. rewrite Nat.mul_0_r. cbn [skipn]. rewrite firstn_all2 by (rewrite repeat_length; lia).
  split; [apply repeat_length|]. split.
  - intros x Hx. apply repeat_spec in Hx. subst x. apply Rdiv_lt_0_compat; [lra|apply lt_0_INR; lia].
  - assert (E : forall n x, total (repeat x n) = INR n * x). { induction n as [|n IH]; intros x; [cbn; ring|]. cbn [repeat]. rewrite S_INR. unfold total in *. cbn [fold_right]. rewrite IH. ring. }
    rewrite E. field. apply not_0_INR. lia.
Qed.
Lemma swing_width K k : (k < K)%nat -> width (swing_mp K) (swing_p K) 0 k = 1 / INR K.
Proof. intros Hk. unfold width, swing_p. cbn [swing_mp mp_nseg Nat.mul Nat.add]. apply nth_repeat_in. exact Hk. Qed.
Lemma swing_nodes K : total_nodes (mp_orders (swing_mp K)) = S K.
Proof. cbn [swing_mp mp_orders]. induction K as [|n IH]; [reflexivity|]. unfold total_nodes in *. cbn [repeat fold_right] in *. cbn. cbn in IH. lia. Qed.
Lemma swing_feasible K : (1 <= K)%nat -> exists n, nlp_at (swing_mp K) (swing_z K) (swing_p K) = Ok n /\ feasible n.
Proof.
  intros HK. assert (HKp : 0 < INR K) by (apply lt_0_INR; lia).
  destruct (nlp_like (swing_mp K) _ _ _ _ (fun _ => swinging K) (swing_input K HK) (swing_traj K)) as (rs & n & Er & En & Hlen & Hf & _). exists n. split; [exact En|]. apply Hf.
  assert (rs = repeat [-1; 1] K) as -> by (pose proof (eq_trans (eq_sym Er) (swing_roots K)) as X; injection X as X; exact X).
  split; [|split].
  - intros ph Hph. cbn in Hph. assert (ph = 0)%nat as -> by lia. split; [|split; [|split; [|split]]].
    + intros i s Hi Hs. cbn in Hs. assert (s = 0)%nat as -> by lia. pose proof (swing_nodes K) as SN.
      assert (Hi' : INR i <= INR K) by (apply le_INR; clear - Hi SN; nred; lia). cbn. destruct (Nat.eqb_spec i 0) as [-> |Hn]; cbn; [nred; field; lra|].
      pose proof (pos_INR i). split; cbn; [apply Rdiv_le_0_compat; lra|]. apply Rmult_le_reg_r with (INR K); [lra|]. unfold Rdiv. rewrite Rmult_assoc, Rinv_l by lra. lra.
    + intros i c Hi Hs. cbn in Hs. assert (c = 0)%nat as -> by lia. pose proof (alt_sq i). cbn. split; cbn; nra.
    + split; cbn; lra.
    + split; cbn; lra.
    + intros i Hi. cbn in Hi. lia.
  - intros ph Hph. cbn in Hph. assert (ph = 0)%nat as -> by lia. split; [|split; [|split; [|split; [|split]]]].
    + intros i k j s c Ho Hs Hc. cbn in Hs. assert (s = 0)%nat as -> by lia.
      assert (Hk : (k < K)%nat) by (destruct Ho as (q & Eq & _); pose proof (nth_error_lt _ _ _ Eq) as X; cbn in X; rewrite repeat_length in X; exact X).
      pose proof (demo_line K k _ c Hk Hc) as L. cbn beta in L.
      assert (E : (y_x (swinging K) (S k) 0 - y_x (swinging K) k 0) / 2 = 1 / INR K / 2) by (unfold swinging; cbv beta iota delta [y_x]; rewrite S_INR; field; lra).
      replace (seg_h (mp_cf (swing_mp K)) (width (swing_mp K) (swing_p K) 0) (swinging K) k * _) with ((y_x (swinging K) (S k) 0 - y_x (swinging K) k 0) / 2).
      * eapply line_derive. exact L.
      * rewrite E. clear E. unfold seg_h. rewrite swing_width by exact Hk. pose proof (alt_sq i) as A.
        match goal with |- _ = _ * ?d => replace d with 1 by (symmetry; exact A) end. cbn; nred; field; lra.
    + intros i k j c _ [].
    + intros H; discriminate H.
    + intros H; discriminate H.
    + intros H; discriminate H.
    + intros c [].
  - intros H. cbn in H. lia.
Qed.

(** ** what the differential equation does under these controls *)
(** [v] between -1 and 1, otherwise the nearer of them *)
Definition clamp (v : R) : R := (Rabs (v + 1) - Rabs (v - 1)) / 2.
Lemma clamp_mid v : -1 <= v <= 1 -> clamp v = v.
Proof. intros H. unfold clamp. rewrite Rabs_pos_eq by lra. rewrite Rabs_left1 by lra. field. Qed.
Lemma clamp_high v : 1 <= v -> clamp v = 1.
Proof. intros H. unfold clamp. rewrite !Rabs_pos_eq by lra. field. Qed.
Lemma clamp_low v : v <= -1 -> clamp v = -1.
Proof. intros H. unfold clamp. rewrite !Rabs_left1 by lra. field. Qed.
Lemma clamp_continuous v : continuous clamp v.
Proof.
  assert (C : forall c, continuous (fun v => Rabs (v + c)) v).
  { intros c. apply (continuous_comp (fun v => v + c) Rabs); [|apply continuous_Rabs]. apply (continuous_plus (fun v : R => v) (fun _ => c)); [apply continuous_id|apply continuous_const]. }
  apply (continuous_mult (fun v => Rabs (v + 1) - Rabs (v - 1)) (fun _ => / 2)); [|apply continuous_const].
  apply (continuous_minus (fun v => Rabs (v + 1)) (fun v => Rabs (v - 1))); [exact (C 1)|exact (C (-1))].
Qed.
(** the trajectory: while segment k lasts, local coordinate tau, it grows at the rate tau^2 *)
Definition swung (K : nat) (t : R) : R := Rsum K (fun k => (clamp (2 * INR K * t - 2 * INR k - 1) ^ 3 + 1) / (6 * INR K)).
Lemma continuous_Rsum n (f : nat -> R -> R) t : (forall k, (k < n)%nat -> continuous (f k) t) -> continuous (fun t => Rsum n (fun k => f k t)) t.
Proof.
  induction n as [|n IH]; intros H; cbn [Rsum]; [apply continuous_const|].
  apply (continuous_plus (fun t => Rsum n (fun k => f k t)) (f n)); [apply IH; intros k Hk; apply H; lia|apply H; lia].
Qed.
Lemma swung_continuous K t : continuous (swung K) t.
Proof.
  apply continuous_Rsum. intros k _.
  assert (C : continuous (fun t => clamp (2 * INR K * t - 2 * INR k - 1)) t).
  { apply (continuous_comp (fun t => 2 * INR K * t - 2 * INR k - 1) clamp); [|apply clamp_continuous]. apply (ex_derive_continuous (K := R_AbsRing) (V := R_NormedModule)). auto_derive. exact I. }
  apply (continuous_comp (fun t => clamp (2 * INR K * t - 2 * INR k - 1)) (fun v => (v ^ 3 + 1) / (6 * INR K))); [exact C|]. apply (ex_derive_continuous (K := R_AbsRing) (V := R_NormedModule)). auto_derive. exact I.
Qed.
Lemma Rsum_one n k (v : R) : (k < n)%nat -> Rsum n (fun i => if Nat.eqb i k then v else 0) = v.
Proof.
  intros H. rewrite (Rsum_single n _ k H); [rewrite Nat.eqb_refl; reflexivity|]. intros i _ Hn. destruct (Nat.eqb_spec i k); [contradiction|reflexivity].
Qed.
Lemma swung_derive K k t tau : (k < K)%nat -> -1 < tau < 1 -> 2 * INR K * t - 2 * INR k - 1 = tau -> is_derive (swung K) t (tau ^ 2).
Proof.
  intros Hk Ht E. assert (HKp : 0 < INR K) by (apply lt_0_INR; lia).
  rewrite <- (Rsum_one K k (tau ^ 2) Hk). apply is_derive_Rsum. intros i Hi.
  assert (C : continuous (fun t => 2 * INR K * t - 2 * INR i - 1) t) by (apply (ex_derive_continuous (K := R_AbsRing) (V := R_NormedModule)); auto_derive; exact I).
  destruct (Nat.eqb_spec i k) as [-> |Hn].
  - apply (is_derive_ext_loc (fun t => ((2 * INR K * t - 2 * INR k - 1) ^ 3 + 1) / (6 * INR K))).
    + assert (L : locally t (fun t => -1 < 2 * INR K * t - 2 * INR k - 1 < 1)).
      { apply (C (fun v => -1 < v < 1)). rewrite E. apply (open_and (fun v => -1 < v) (fun v => v < 1)); [apply open_gt|apply open_lt|exact Ht]. }
      revert L. apply filter_imp. intros x Hx. rewrite clamp_mid by lra. reflexivity.
    + auto_derive; [exact I|]. replace (2 * INR K * t + - (2 * INR k) + -1) with tau by lra. rewrite <- E. field. lra.
  - destruct (lt_dec i k) as [H|H].
    + apply (is_derive_ext_loc (fun _ => (1 ^ 3 + 1) / (6 * INR K))); [|apply (is_derive_const (K := R_AbsRing) (V := R_NormedModule))].
      assert (L : locally t (fun t => 1 < 2 * INR K * t - 2 * INR i - 1)).
      { apply (C (fun v => 1 < v)). apply (open_gt 1). assert (INR i + 1 <= INR k) by (rewrite <- S_INR; apply le_INR; lia). lra. }
      revert L. apply filter_imp. intros x Hx. rewrite clamp_high by lra. reflexivity.
    + apply (is_derive_ext_loc (fun _ => ((-1) ^ 3 + 1) / (6 * INR K))); [|apply (is_derive_const (K := R_AbsRing) (V := R_NormedModule))].
      assert (L : locally t (fun t => 2 * INR K * t - 2 * INR i - 1 < -1)).
      { apply (C (fun v => v < -1)). apply (open_lt (-1)). assert (INR k + 1 <= INR i) by (rewrite <- S_INR; apply le_INR; lia). lra. }
      revert L. apply filter_imp. intros x Hx. rewrite clamp_low by lra. reflexivity.
Qed.
Lemma Rsum_same n (v : R) : Rsum n (fun _ => v) = INR n * v.
Proof. induction n as [|n IH]; cbn [Rsum]; [cbn; ring|]. rewrite IH, S_INR. ring. Qed.
Lemma swung_0 K : (1 <= K)%nat -> swung K 0 = 0.
Proof.
  intros HK. assert (HKp : 0 < INR K) by (apply lt_0_INR; lia). unfold swung. apply Rsum_0.
  intros i Hi. pose proof (pos_INR i). rewrite clamp_low by lra. field. lra.
Qed.
Lemma swung_1 K : (1 <= K)%nat -> swung K 1 = 1 / 3.
Proof.
  intros HK. assert (HKp : 0 < INR K) by (apply lt_0_INR; lia). unfold swung. rewrite (Rsum_ext K _ (fun _ => 2 / (6 * INR K))).
  - rewrite Rsum_same. field. lra.
  - intros i Hi. assert (INR i + 1 <= INR K) by (rewrite <- S_INR; apply le_INR; lia). rewrite clamp_high by lra. field. lra.
Qed.
Lemma swing_start K k y : (k <= K)%nat -> (1 <= K)%nat -> y_t0 y = 0 -> y_tf y = 1 -> seg_start (width (swing_mp K) (swing_p K) 0) y k = INR k / INR K.
Proof.
  intros Hk HK E0 E1. assert (HKp : 0 < INR K) by (apply lt_0_INR; lia). unfold seg_start. rewrite E0, E1. rewrite (Rsum_ext k _ (fun _ => 1 / INR K)).
  - rewrite Rsum_same. field. lra.
  - intros i Hi. apply swing_width. lia.
Qed.
(** the polynomials of the controls *)
Lemma swing_control K cu k tau : (k < K)%nat -> seg_interp (mp_orders (swing_mp K)) k (nth k (repeat [-1; 1] K) []) (fun i => y_u (user_traj (swing_mp K) (swing_z K) 0) i 0) cu ->
  peval cu tau * peval cu tau = tau ^ 2.
Proof.
  intros Hk Hc. pose proof (demo_line K k _ cu Hk Hc tau) as L. cbn beta in L. destruct (swing_traj K 0 ltac:(lia)) as (_ & T2 & _). pose proof (swing_nodes K) as SN.
  rewrite (T2 k 0%nat) in L by (first [rewrite SN; clear - Hk; lia|cbn; lia]). rewrite (T2 (S k) 0%nat) in L by (first [rewrite SN; clear - Hk; lia|cbn; lia]). cbn [swinging y_u pow] in L.
  pose proof (alt_sq k) as A. nred. rewrite L. transitivity (((-1) ^ k * (-1) ^ k) * tau ^ 2); [field|rewrite A; ring].
Qed.
Lemma swing_follows K cx cu : (1 <= K)%nat -> let mp := swing_mp K in let y := user_traj mp (swing_z K) 0 in
  (forall k, (k < length (mp_orders mp))%nat -> SpecResid.seg_polys mp (repeat [-1; 1] K) y k (cx k) (cu k)) ->
  follows mp (width mp (swing_p K) 0) 0 y cu (fun _ => swung K).
Proof.
  intros HK mp y Hc. assert (HKp : 0 < INR K) by (apply lt_0_INR; lia). destruct (swing_traj K 0 ltac:(lia)) as (_ & _ & T3 & T4 & _).
  constructor; [intros; apply swung_continuous|]. intros k tau s Hk Ht Hs t. cbn in Hs. assert (s = 0)%nat as -> by lia.
  destruct (Hc k Hk) as [_ Hu]. specialize (Hu 0%nat ltac:(cbn; lia)). unfold mp in Hk. cbn [swing_mp mp_orders] in Hk. rewrite repeat_length in Hk.
  pose proof (swing_control K (cu k 0%nat) k tau Hk Hu) as E.
  assert (E' : nth 0 (rhs (mp_ocp mp) 0 (a_of (mp_ocp mp) y) (fun _ => swung K t) (fun c => peval (cu k c) tau) t) 0 = tau ^ 2) by exact E.
  rewrite E'. apply (swung_derive K k); [exact Hk|exact Ht|]. unfold t, seg_time, mp, y. rewrite swing_start by (try lia; assumption). unfold seg_h. rewrite swing_width by exact Hk.
  unfold mp; rewrite T3, T4. cbn. nred. field. lra.
Qed.
(** on every mesh: a feasible point whose state ends at 1 while the differential equation takes it to 1/3 *)
Theorem swing_apart : exists o npath nterm, ocp_ok o npath nterm /\ scales_pos o /\ forall K, (1 <= K)%nat ->
  let mp := Mpo o K (repeat 1%nat K) (demo_cf "LGR") in let p := repeat (1 / INR K) K in
  exists z n rs cx cu x, let w := width mp p 0 in let y := user_traj mp z 0 in
    input_ok mp npath nterm z p /\ widths_ok (mp_nseg mp) (o_nph o) p /\ nlp_at mp z p = Ok n /\ feasible n /\ y_t0 y < y_tf y /\
    mapM (c_roots (mp_cf mp)) (mp_orders mp) = Ok rs /\
    (forall k, (k < length (mp_orders mp))%nat -> SpecResid.seg_polys mp rs y k (cx k) (cu k)) /\
    follows mp w 0 y cu x /\ x 0%nat (y_t0 y) = y_x y 0 0 /\ one_sided o 0 (a_of o y) (fun _ _ _ => True) 0 /\
    y_x y K 0 = 1 /\ x 0%nat (y_tf y) = 1 / 3.
Proof.
  exists swing, (fun _ => None), (fun _ => None). split; [exact swing_ok|]. split; [exact swing_scales|]. intros K HK. fold (swing_mp K) (swing_p K). intros mp p.
  assert (HKp : 0 < INR K) by (apply lt_0_INR; lia).
  destruct (swing_feasible K HK) as (n & En & Hf). destruct (swing_traj K 0 ltac:(lia)) as (T1 & T2 & T3 & T4 & _). pose proof (swing_nodes K) as SN.
  assert (Hty : y_t0 (user_traj mp (swing_z K) 0) < y_tf (user_traj mp (swing_z K) 0)) by (unfold mp; rewrite T3, T4; cbn; lra).
  destruct (distance_thm mp _ _ (swing_z K) p 0 (swing_input K HK) (swing_widths K HK) ltac:(cbn; lia) Hty) as (rs & Er & (cx & cu & Hc) & _).
  assert (rs = repeat [-1; 1] K) as -> by (pose proof (eq_trans (eq_sym Er) (swing_roots K)) as X; injection X as X; exact X).
  exists (swing_z K), n, (repeat [-1; 1] K), cx, cu, (fun _ => swung K). intros w y.
  split; [exact (swing_input K HK)|]. split; [exact (swing_widths K HK)|]. split; [exact En|]. split; [exact Hf|]. split; [exact Hty|]. split; [exact Er|]. split; [exact Hc|].
  split; [exact (swing_follows K cx cu HK Hc)|]. split; [|split; [|split]].
  - unfold y, mp. rewrite T3, (T1 0%nat 0%nat) by (first [rewrite SN; clear; lia|cbn; lia]). cbn [swinging y_t0 y_x]. rewrite swung_0 by exact HK. cbn. field. lra.
  - intros t u x x' _ _. cbn. nred. lra.
  - unfold y, mp. rewrite (T1 K 0%nat) by (first [rewrite SN; clear; lia|cbn; lia]). cbn. field. lra.
  - unfold y, mp. rewrite T4. cbn [swinging y_tf]. exact (swung_1 K HK).
Qed.
Lemma swing_smooth K cx cu k s : (1 <= K)%nat -> let mp := swing_mp K in let y := user_traj mp (swing_z K) 0 in let w := width mp (swing_p K) 0 in
  (forall k, (k < length (mp_orders mp))%nat -> SpecResid.seg_polys mp (repeat [-1; 1] K) y k (cx k) (cu k)) -> (k < K)%nat -> (s < 1)%nat ->
  smooth (dyn_time mp w 0 y cx cu k s) (seg_start w y k) (seg_start w y (S k)) 1 (4 * INR K).
Proof.
  intros HK mp y w Hc Hk Hs. assert (s = 0)%nat as -> by lia. assert (HKp : 0 < INR K) by (apply lt_0_INR; lia). destruct (swing_traj K 0 ltac:(lia)) as (_ & _ & T3 & T4 & _).
  assert (Hk' : (k < length (mp_orders mp))%nat) by (unfold mp; cbn [swing_mp mp_orders]; rewrite repeat_length; exact Hk).
  destruct (Hc k Hk') as [_ Hu]. specialize (Hu 0%nat ltac:(cbn; lia)).
  assert (Hl : forall t, local (mp_cf mp) w y k t = 2 * INR K * t - 2 * INR k - 1).
  { intros t. unfold local, w, mp. rewrite swing_start by (try lia; assumption). unfold seg_h, y, mp. rewrite swing_width by exact Hk. rewrite T3, T4. cbn. nred. field. lra. }
  assert (E : forall t, dyn_time mp w 0 y cx cu k 0 t = (2 * INR K * t - 2 * INR k - 1) ^ 2).
  { intros t. rewrite <- Hl. exact (swing_control K (cu k 0%nat) k (local (mp_cf mp) w y k t) Hk Hu). }
  assert (D : forall t, is_derive (dyn_time mp w 0 y cx cu k 0) t (4 * INR K * (2 * INR K * t - 2 * INR k - 1))).
  { intros t. apply (is_derive_ext (fun t => (2 * INR K * t - 2 * INR k - 1) ^ 2)); [intros; symmetry; apply E|]. auto_derive; [exact I|ring]. }
  unfold w, mp. rewrite !swing_start by (try lia; assumption). fold mp w. intros t Ht. split.
  - intros [|[|m]] Hm; [exact I| |lia]. cbn. eexists. apply D.
  - cbn [Derive_n]. erewrite (is_derive_unique (fun x => dyn_time mp w 0 y cx cu k 0 x)) by apply D.
    rewrite S_INR in Ht. assert (-1 <= 2 * INR K * t - 2 * INR k - 1 <= 1).
    { destruct Ht as [A B]. apply (Rmult_le_compat_l (INR K)) in A; [|lra]. apply (Rmult_le_compat_l (INR K)) in B; [|lra].
      replace (INR K * (INR k / INR K)) with (INR k) in A by (field; lra). replace (INR K * ((INR k + 1) / INR K)) with (INR k + 1) in B by (field; lra). lra. }
    apply Rabs_le. nra.
Qed.
Lemma swing_rates K cx cu k : (1 <= K)%nat -> let mp := swing_mp K in let y := user_traj mp (swing_z K) 0 in let w := width mp (swing_p K) 0 in
  SpecResid.seg_polys mp (repeat [-1; 1] K) y k cx cu -> (k < K)%nat ->
  rate_within mp w y k (peval (cx 0%nat)) 1 /\ rate_within mp w y k (peval (cu 0%nat)) (2 * INR K).
Proof.
  intros HK mp y w [Hx Hu] Hk. assert (HKp : 0 < INR K) by (apply lt_0_INR; lia). destruct (swing_traj K 0 ltac:(lia)) as (T1 & T2 & T3 & T4 & _). pose proof (swing_nodes K) as SN.
  assert (Hh : seg_h (mp_cf mp) w y k = 1 / (2 * INR K)) by (unfold seg_h, w, y, mp; rewrite swing_width by exact Hk; rewrite T3, T4; cbn; nred; field; lra).
  pose proof (demo_line K k _ _ Hk (Hx 0%nat ltac:(cbn; lia))) as Lx. pose proof (demo_line K k _ _ Hk (Hu 0%nat ltac:(cbn; lia))) as Lu. cbn beta in Lx, Lu.
  assert (Ex : (y_x y (S k) 0 - y_x y k 0) / 2 = 1 / (2 * INR K)).
  { unfold y, mp. rewrite !T1 by (first [rewrite SN; clear - Hk; lia|cbn; lia]). unfold swinging. cbv beta iota delta [y_x]. rewrite S_INR. field. lra. }
  assert (Eu : (y_u y (S k) 0 - y_u y k 0) / 2 = - (-1) ^ k).
  { unfold y, mp. rewrite !T2 by (first [rewrite SN; clear - Hk; lia|cbn; lia]). unfold swinging. cbv beta iota delta [y_u]. cbn [pow]. field. }
  split; intros tau _; (split; [eexists; eapply line_derive; eassumption|]).
  - erewrite line_Derive by exact Lx. rewrite Ex, Hh, Rabs_pos_eq; [lra|]. apply Rlt_le, Rdiv_lt_0_compat; lra.
  - erewrite line_Derive by exact Lu. rewrite Eu, Hh. replace (1 / (2 * INR K) * (2 * INR K)) with 1 by (field; lra). pose proof (alt_sq k). apply Rabs_le. nra.
Qed.
Lemma swing_defect K cx cu k tau s : (1 <= K)%nat -> let mp := swing_mp K in let y := user_traj mp (swing_z K) 0 in let w := width mp (swing_p K) 0 in
  SpecResid.seg_polys mp (repeat [-1; 1] K) y k cx cu -> (k < K)%nat -> (s < 1)%nat -> -1 < tau < 1 ->
  Rabs (defect mp w 0 y k cx cu s tau) <= seg_h (mp_cf mp) w y k * 1.
Proof.
  intros HK mp y w Hc Hk Hs Ht. assert (s = 0)%nat as -> by lia. assert (HKp : 0 < INR K) by (apply lt_0_INR; lia). destruct (swing_traj K 0 ltac:(lia)) as (T1 & T2 & T3 & T4 & _). pose proof (swing_nodes K) as SN.
  assert (Hh : seg_h (mp_cf mp) w y k = 1 / (2 * INR K)) by (unfold seg_h, w, y, mp; rewrite swing_width by exact Hk; rewrite T3, T4; cbn; nred; field; lra).
  destruct Hc as [Hx Hu]. pose proof (demo_line K k _ _ Hk (Hx 0%nat ltac:(cbn; lia))) as Lx. cbn beta in Lx.
  assert (Ex : (y_x y (S k) 0 - y_x y k 0) / 2 = 1 / (2 * INR K)).
  { unfold y, mp. rewrite !T1 by (first [rewrite SN; clear - Hk; lia|cbn; lia]). unfold swinging. cbv beta iota delta [y_x]. rewrite S_INR. field. lra. }
  unfold defect, rate. erewrite line_Derive by exact Lx. rewrite Ex, Hh.
  match goal with |- Rabs (_ - _ * ?d) <= _ => replace d with (tau ^ 2) by (symmetry; exact (swing_control K (cu 0%nat) k tau Hk (Hu 0%nat ltac:(cbn; lia)))) end.
  replace (1 / (2 * INR K) - 1 / (2 * INR K) * tau ^ 2) with (1 / (2 * INR K) * (1 - tau ^ 2)) by ring.
  assert (0 < 1 / (2 * INR K)) by (apply Rdiv_lt_0_compat; lra). assert (0 <= 1 - tau ^ 2 <= 1) by nra.
  rewrite Rabs_mult, (Rabs_pos_eq (1 / _)) by lra. apply Rmult_le_compat_l; [lra|]. rewrite Rabs_pos_eq; lra.
Qed.
