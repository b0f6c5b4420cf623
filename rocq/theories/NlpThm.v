(** Consequences for the nonlinear program (proofs of C10-C21). *)
From Coq Require Import Reals Lia Lra Bool Arith String.
From Coquelicot Require Import Coquelicot.
From Coq Require Import List.
From Verif Require Import Num PyList Mat Poly Roots Colloc Ocp Transcribe Spec SpecOcp NumR ListR PolyR CollocR CompR CollocThm MeshR BlockR DiscR NlpR OcpR.
Import ListNotations.
Open Scope R_scope.

(** ** polynomials under an affine change of variable *)
Lemma poly_affine (q : list R) a b : exists c, (length c <= length q)%nat /\ forall x, peval c x = peval q (a + b * x).
Proof.
  induction q as [|q0 q (c & Hl & Hc)]; [exists []; split; [cbn; lia|reflexivity]|].
  exists (padd [q0] (padd (pscale a c) (0 :: pscale b c))). split.
  - rewrite !length_padd. cbn [length]. rewrite !length_pscale. lia.
  - intros x. rewrite !peval_padd. cbn [peval]. rewrite !peval_pscale, Hc. ring.
Qed.

Lemma ex_derive_peval c x : ex_derive (peval c) x.
Proof. eexists. apply is_derive_peval. Qed.
Lemma derive_iff c x v : is_derive (peval c) x v <-> Derive (peval c) x = v.
Proof. split; [apply is_derive_unique|intros <-; apply Derive_correct, ex_derive_peval]. Qed.
Lemma node_time_seg cf w y k tau : cf_tau0 cf < cf_tau1 cf -> node_time cf w y k tau = seg_time cf w y k tau.
Proof. intros H. unfold node_time, seg_time, seg_start, seg_h. field. lra. Qed.
Lemma seg_h_nz mp w y k : cf_tau0 (mp_cf mp) < cf_tau1 (mp_cf mp) -> nondegenerate mp w y -> (k < length (mp_orders mp))%nat ->
  seg_h (mp_cf mp) w y k <> 0.
Proof.
  intros Ht [H1 H2] Hk. unfold seg_h. specialize (H2 k Hk).
  apply Rmult_integral_contrapositive_currified; [apply Rmult_integral_contrapositive_currified; [lra|auto]|].
  apply Rinv_neq_0_compat. lra.
Qed.

Section Time.
Variables (mp : mpo Rnum) (rs : list (list R)) (w : nat -> R) (y : utraj).
Local Notation cf := (mp_cf mp).
Local Notation orders := (mp_orders mp).
Hypothesis Ht : cf_tau0 cf < cf_tau1 cf.
Hypothesis Hnd : nondegenerate mp w y.
Hypothesis Hrs : length rs = length orders.
Hypothesis Hgood : forall k p r, nth_error orders k = Some p -> nth_error rs k = Some r ->
  good_nodes (cf_tau0 cf) (cf_tau1 cf) p r.

Lemma seg_NoDup k : (k < length orders)%nat -> NoDup (nth k rs []).
Proof.
  intros Hk. destruct (nth_error orders k) as [q|] eqn:Eq; [|apply nth_error_None in Eq; lia].
  apply (good_nodup (cf_tau0 cf) (cf_tau1 cf) q). apply (Hgood k); auto. apply nth_error_nth'. lia.
Qed.
(** polynomial in tau from polynomial in time, and back *)
Lemma time_to_tau k ys q : time_interp mp rs w y k ys q ->
  exists c, seg_interp orders k (nth k rs []) ys c /\ forall x, peval c x = peval q (node_time cf w y k x).
Proof.
  intros [Hl Hq]. rewrite map_length in *.
  destruct (poly_affine q (seg_start w y k - seg_h cf w y k * cf_tau0 cf) (seg_h cf w y k)) as (c & Hc & E).
  assert (E' : forall x, peval c x = peval q (node_time cf w y k x)).
  { intros x. rewrite E, node_time_seg by exact Ht. unfold seg_time. f_equal. ring. }
  exists c. split; [|exact E']. split; [lia|]. intros j Hj. rewrite E'. specialize (Hq j Hj).
  rewrite <- Hq. f_equal. symmetry. apply nth_map_in. exact Hj.
Qed.
Lemma tau_to_time k ys c : (k < length orders)%nat -> seg_interp orders k (nth k rs []) ys c ->
  exists q, time_interp mp rs w y k ys q /\ forall x, peval c x = peval q (node_time cf w y k x).
Proof.
  intros Hk [Hl Hc]. pose proof (seg_h_nz mp w y k Ht Hnd Hk) as Hh.
  destruct (poly_affine c (- (seg_start w y k - seg_h cf w y k * cf_tau0 cf) / seg_h cf w y k) (/ seg_h cf w y k)) as (q & Hq & E).
  assert (E' : forall x, peval c x = peval q (node_time cf w y k x)).
  { intros x. rewrite E, node_time_seg by exact Ht. unfold seg_time. f_equal. field. exact Hh. }
  exists q. split; [|exact E']. split; [rewrite map_length; lia|]. rewrite map_length. intros j Hj.
  rewrite (nth_map_in _ _ _ _ 0) by exact Hj. rewrite <- E'. apply Hc. exact Hj.
Qed.
Lemma interp_same k ys c c' : (k < length orders)%nat ->
  seg_interp orders k (nth k rs []) ys c -> seg_interp orders k (nth k rs []) ys c' -> forall x, peval c x = peval c' x.
Proof.
  intros Hk [H1 H2] [H3 H4]. apply (interp_unique (nth k rs [])); auto using seg_NoDup.
  intros j Hj. rewrite H2, H4 by auto. reflexivity.
Qed.
Lemma time_derive k (c q : list R) x : (k < length orders)%nat -> (forall x, peval c x = peval q (node_time cf w y k x)) ->
  Derive (peval c) x = seg_h cf w y k * Derive (peval q) (node_time cf w y k x).
Proof.
  intros Hk E. rewrite (Derive_ext _ (fun x => peval q (seg_start w y k + seg_h cf w y k * (x - cf_tau0 cf)))).
  2:{ intros t. rewrite E, node_time_seg by exact Ht. reflexivity. }
  rewrite node_time_seg by exact Ht. fold (seg_time cf w y k x).
  apply is_derive_unique. unfold seg_time.
  evar_last.
  - apply (is_derive_comp (peval q) (fun x => seg_start w y k + seg_h cf w y k * (x - cf_tau0 cf))).
    + apply Derive_correct. apply ex_derive_peval.
    + auto_derive; [exact I|reflexivity].
  - unfold scal; cbn; unfold mult; cbn. ring.
Qed.

Lemma owned_seg i k j : owned orders i k j -> (k < length orders)%nat.
Proof. intros (p & Hp & _). apply nth_error_Some. congruence. Qed.
Lemma dynamics_time_iff ph : dynamics_ok mp rs w ph y <-> dynamics_time_ok mp rs w ph y.
Proof.
  split.
  - intros H i k j s q Ho Hs Hq t. pose proof (owned_seg _ _ _ Ho) as Hk.
    destruct (time_to_tau k _ q Hq) as (c & Hc & E). specialize (H i k j s c Ho Hs Hc).
    apply derive_iff in H. rewrite (time_derive k c q _ Hk E) in H. apply derive_iff.
    apply Rmult_eq_reg_l in H; [|apply seg_h_nz; auto]. unfold t. rewrite H. rewrite node_time_seg by auto. reflexivity.
  - intros H i k j s c Ho Hs Hc. pose proof (owned_seg _ _ _ Ho) as Hk.
    destruct (tau_to_time k _ c Hk Hc) as (q & Hq & E). specialize (H i k j s q Ho Hs Hq). cbn zeta in H.
    apply derive_iff in H. apply derive_iff. rewrite (time_derive k c q _ Hk E), H. rewrite node_time_seg by auto. reflexivity.
Qed.
Lemma ducont_time_iff ph : nth ph (o_ducont (mp_ocp mp)) false = true ->
  (forall k, (S k < length orders)%nat -> w k = w (S k)) ->
  (ducont_ok mp rs ph y <-> ducont_time_ok mp rs w y).
Proof.
  intros Hd Hw. 
  assert (Eh : forall k, (S k < length orders)%nat -> seg_h cf w y (S k) = seg_h cf w y k).
  { intros k Hk. unfold seg_h. rewrite (Hw k Hk). reflexivity. }
  split.
  - intros H k c q q' Hk Hc Hq Hq'. destruct (time_to_tau k _ q Hq) as (c1 & H1 & E1). destruct (time_to_tau (S k) _ q' Hq') as (c2 & H2 & E2).
    specialize (H Hd k c c1 c2 Hk Hc H1 H2).
    rewrite (time_derive k c1 q) in H by (auto; lia). rewrite (time_derive (S k) c2 q') in H by auto. rewrite Eh in H by auto.
    apply Rmult_eq_reg_l in H; [auto|apply seg_h_nz; auto; lia].
  - intros H _ k c c1 c2 Hk Hc H1 H2. destruct (tau_to_time k _ c1 ltac:(lia) H1) as (q & Hq & E1).
    destruct (tau_to_time (S k) _ c2 Hk H2) as (q' & Hq' & E2). specialize (H k c q q' Hk Hc Hq Hq').
    rewrite (time_derive k c1 q) by (auto; lia). rewrite (time_derive (S k) c2 q') by auto. rewrite Eh by auto. rewrite H. reflexivity.
Qed.
(** the slope that the code bounds is the time slope times the segment's time factor and the scale *)
Lemma slope_time_iff ph : nth ph (o_diff_u (mp_ocp mp)) false = true ->
  (slope_ok mp rs ph y <-> forall i k j c q, owned orders i k j -> (c < o_nu (mp_ocp mp))%nat ->
    time_interp mp rs w y k (fun i => y_u y i c) q ->
    within (nth ph (o_lbdu (mp_ocp mp)) NaN) (nth ph (o_ubdu (mp_ocp mp)) NaN)
      (nth c (o_scale_u (mp_ocp mp)) 0 * (seg_h cf w y k * Derive (peval q) (node_time cf w y k (nth j (nth k rs []) 0))))).
Proof.
  intros Hd. split.
  - intros H i k j c q Ho Hc Hq. pose proof (owned_seg _ _ _ Ho) as Hk.
    destruct (time_to_tau k _ q Hq) as (c1 & H1 & E1). specialize (H Hd i k j c c1 Ho Hc H1).
    rewrite (time_derive k c1 q _ Hk E1) in H. exact H.
  - intros H _ i k j c c1 Ho Hc H1. pose proof (owned_seg _ _ _ Ho) as Hk.
    destruct (tau_to_time k _ c1 Hk H1) as (q & Hq & E1). specialize (H i k j c q Ho Hc Hq).
    rewrite (time_derive k c1 q _ Hk E1). exact H.
Qed.
End Time.

(** ** the blocks of one phase *)
Section Blocks.
Variables (mp : mpo Rnum) (npath nterm : nat -> option nat) (z p : list R).
Hypothesis Hin : input_ok mp npath nterm z p.
Local Notation o := (mp_ocp mp).
Local Notation cf := (mp_cf mp).
Local Notation orders := (mp_orders mp).

Lemma setup : exists rs ap, mapM (c_roots cf) orders = Ok rs /\ compute_numerical_approximation mp = Ok ap /\
  seg_nodes cf orders rs /\ length rs = length orders /\
  (forall k q r, nth_error orders k = Some q -> nth_error rs k = Some r -> good_nodes (cf_tau0 cf) (cf_tau1 cf) q r) /\
  ap_taus ap = rs /\ nr (ap_D ap) = total_nodes orders /\ nc (ap_D ap) = total_nodes orders /\
  (forall i k j ys c, owned orders i k j -> seg_interp orders k (nth k rs []) ys c ->
    is_derive (peval c) (nth j (nth k rs []) 0) (row_dot (ap_D ap) i ys)).
Proof.
  pose proof (in_mpo _ _ _ _ _ Hin) as Hmp.
  destruct (seg_nodes_ok cf orders (mo_cfg _ Hmp) (mo_pos _ Hmp)) as (rs & Hseg & Hlrs & Hgood).
  assert (Hne : orders <> []).
  { intros E. pose proof (mo_len _ Hmp) as Hl. pose proof (mo_nseg _ Hmp). rewrite E in Hl. cbn in Hl. lia. }
  destruct (comp_diff_ok cf orders rs 1 Hseg (or_introl eq_refl)) as (D & ED & HrD & HcD & HD).
  destruct (comp_quad_segs cf orders rs (cf_tau0 cf) (cf_tau1 cf) Hseg Hne) as (W & EW & HlW & HW).
  { exact (lo_integ _ (co_lib _ (mo_cfg _ Hmp))). }
  exists rs, (Approx (N := Rnum) D W rs). pose proof (proj1 Hseg) as Ers. split; [exact Ers|]. split.
  { unfold compute_numerical_approximation. rewrite Ers. cbn [bind]. rewrite ED. cbn [bind]. rewrite EW. reflexivity. }
  split; [exact Hseg|]. split; [exact Hlrs|]. split; [exact Hgood|]. split; [reflexivity|]. split; [exact HrD|]. split; [exact HcD|].
  cbn [ap_D]. intros i k j ys c (q & Hq & Hj & Hk & ->) Hc. unfold row_dot. rewrite HcD.
  assert (Hkl : (k < length rs)%nat) by (rewrite Hlrs; apply nth_error_Some; congruence).
  rewrite (HD k q (nth k rs []) j ys c Hq (nth_error_nth' _ _ Hkl) Hj Hk Hc). apply dform1_derive.
Qed.

Lemma phase_blocks ph : (ph < o_nph o)%nat ->
  let w := width mp p ph in let y := user_traj mp z ph in let v := unpack mp z ph in
  exists rs ap d F C T m DU M K, mapM (c_roots cf) orders = Ok rs /\ compute_numerical_approximation mp = Ok ap /\
  discretize_nodes mp ap (sw_of mp p ph) ph v = Ok d /\
  con_dynamics mp ap d v = Ok F /\ con_path d = Ok C /\ con_terminal mp ph v = Ok (T, m) /\
  con_slope mp ap ph v = Ok DU /\ con_midu mp ph v = Ok M /\ con_ducont mp ph v = Ok K /\
  (balanced F /\ length (c_g F) = (o_nx o * total_nodes orders)%nat /\ (sat F <-> dynamics_ok mp rs w ph y)) /\
  (balanced C /\ length (c_g C) = (match npath ph with None => 0 | Some n => n * total_nodes orders end)%nat /\ (sat C <-> path_ok mp rs w ph y)) /\
  (balanced T /\ length (c_g T) = (match nterm ph with None => 0 | Some n => n end)%nat /\ (sat T <-> terminal_ok mp ph y) /\
   m = mayer_val o ph y (total_nodes orders - 1)) /\
  (balanced DU /\ length (c_g DU) = (if nth ph (o_diff_u o) false then o_nu o * total_nodes orders else 0)%nat /\
   (sat DU <-> slope_ok mp rs ph y)) /\
  (balanced M /\ length (c_g M) = (if nth ph (o_midu o) false && some_finite o ph then o_nu o * (total_nodes orders - 1) else 0)%nat /\
   (sat M <-> midu_ok mp rs ph y)) /\
  (balanced K /\ length (c_g K) = (if nth ph (o_ducont o) false then o_nu o * (mp_nseg mp - 1) else 0)%nat /\
   (sat K <-> ducont_ok mp rs ph y)).
Proof.
  intros Hph w y v. pose proof Hin as [Hmp Hok Hsc Hz Hp].
  destruct setup as (rs & ap & Ers & Eap & Hseg & Hlrs & Hgood & Htaus & HrD & HcD & HD).
  assert (Hrep : rep mp v y) by (eapply unpack_rep; eauto).
  assert (Hw : forall k, (k < length orders)%nat -> at_ (sw_of mp p ph) k = Ok (w k)) by (eapply sw_at; eauto).
  assert (Hd : exists d, discretize_nodes mp ap (sw_of mp p ph) ph v = Ok d /\ disc_spec mp npath rs w ph y d).
  { eapply discretize_nodes_ok; eauto. }
  destruct Hd as (d & Ed & Hd).
  assert (HF : exists F, con_dynamics mp ap d v = Ok F /\ balanced F /\ length (c_g F) = (o_nx o * total_nodes orders)%nat /\
    (sat F <-> dynamics_ok mp rs w ph y)).
  { eapply con_dynamics_ok; eauto. }
  assert (HC : exists C, con_path (N := Rnum) d = Ok C /\ balanced C /\
    length (c_g C) = (match npath ph with None => 0 | Some n => n * total_nodes orders end)%nat /\
    (sat C <-> path_ok mp rs w ph y)).
  { eapply con_path_ok; eauto. }
  assert (HT : exists TC, con_terminal mp ph v = Ok (TC, mayer_val o ph y (total_nodes orders - 1)) /\ balanced TC /\
    length (c_g TC) = (match nterm ph with None => 0 | Some n => n end)%nat /\
    (sat TC <-> terminal_ok mp ph y)).
  { eapply con_terminal_ok; eauto. }
  assert (HDU : exists DU, con_slope mp ap ph v = Ok DU /\ balanced DU /\
    length (c_g DU) = (if nth ph (o_diff_u o) false then o_nu o * total_nodes orders else 0)%nat /\
    (sat DU <-> slope_ok mp rs ph y)).
  { eapply con_slope_ok; eauto. }
  assert (HM : exists mU, con_midu mp ph v = Ok mU /\ balanced mU /\
    length (c_g mU) = (if nth ph (o_midu o) false && some_finite o ph then o_nu o * (total_nodes orders - 1) else 0)%nat /\
    (sat mU <-> midu_ok mp rs ph y)).
  { eapply con_midu_ok; eauto. }
  assert (HK : exists dU, con_ducont mp ph v = Ok dU /\ balanced dU /\
    length (c_g dU) = (if nth ph (o_ducont o) false then o_nu o * (mp_nseg mp - 1) else 0)%nat /\
    (sat dU <-> ducont_ok mp rs ph y)).
  { eapply con_ducont_ok; eauto. }
  destruct HF as (F & EF & HF). destruct HC as (C & EC & HC). destruct HT as (T & ET & HT).
  destruct HDU as (DU & EDU & BDU & LDU & SDU). destruct HM as (M & EM & BM & LM & SM). destruct HK as (K & EK & BK & LK & SK).
  exists rs, ap, d, F, C, T, (mayer_val o ph y (total_nodes orders - 1)), DU, M, K.
  repeat (split; [assumption|]). split; [intuition|]. split; [auto|]. split; auto.
Qed.
(** the values of the dynamics and mid-point blocks *)
Lemma phase_values ph ap d F M : (ph < o_nph o)%nat ->
  let w := width mp p ph in let y := user_traj mp z ph in let v := unpack mp z ph in
  compute_numerical_approximation mp = Ok ap -> discretize_nodes mp ap (sw_of mp p ph) ph v = Ok d ->
  con_dynamics mp ap d v = Ok F -> con_midu mp ph v = Ok M ->
  exists rs, mapM (c_roots cf) orders = Ok rs /\
  (exists g : list R, F = con_const (N := Rnum) g (Fin 0) (Fin 0) /\ length g = (o_nx o * total_nodes orders)%nat /\
    forall s i k j c, (s < o_nx o)%nat -> owned orders i k j -> seg_interp orders k (nth k rs []) (fun i => y_x y i s) c ->
      nth (s * total_nodes orders + i) g 0 = nth s (o_scale_x o) 0 * (Derive (peval c) (nth j (nth k rs []) 0) -
        seg_h cf w y k * nth s (dyn_val o ph y i (seg_time cf w y k (nth j (nth k rs []) 0))) 0)) /\
  (if (nth ph (o_midu o) false && some_finite o ph)%bool then
    exists g : list R, M = Con (N := Rnum) g (bound_block (N := Rnum) (nth ph (o_lbu o) []) (o_scale_u o) (total_nodes orders - 1))
                                     (bound_block (N := Rnum) (nth ph (o_ubu o) []) (o_scale_u o) (total_nodes orders - 1)) /\
      length g = (o_nu o * (total_nodes orders - 1))%nat /\
      forall q k p j c, (q < o_nu o)%nat -> nth_error orders k = Some p -> (j < p)%nat ->
        seg_interp orders k (nth k rs []) (fun i => y_u y i q) c ->
        nth (q * (total_nodes orders - 1) + (offset orders k + j)) g 0 = nth q (o_scale_u o) 0 * peval c ((nth j (nth k rs []) 0 + nth (S j) (nth k rs []) 0) / 2)
   else M = con_nil).
Proof.
  intros Hph w y v Eap Ed EF EM. pose proof Hin as [Hmp Hok Hsc Hz Hp].
  destruct setup as (rs & ap' & Ers & Eap' & Hseg & Hlrs & Hgood & Htaus & HrD & HcD & HD).
  assert (ap' = ap) as -> by (pose proof (eq_trans (eq_sym Eap') Eap) as X; injection X as X; exact X).
  exists rs. split; [exact Ers|].
  assert (Hrep : rep mp v y) by (eapply unpack_rep; eauto).
  assert (Hw : forall k, (k < length orders)%nat -> at_ (sw_of mp p ph) k = Ok (w k)) by (eapply sw_at; eauto).
  assert (Hd : exists d, discretize_nodes mp ap (sw_of mp p ph) ph v = Ok d /\ disc_spec mp npath rs w ph y d).
  { eapply discretize_nodes_ok; eauto. }
  destruct Hd as (d' & Ed' & Hd). assert (d' = d) as -> by (pose proof (eq_trans (eq_sym Ed') Ed) as X; injection X as X; exact X).
  split.
  - assert (HF : exists g : list R, con_dynamics mp ap d v = Ok (con_const (N := Rnum) g (Fin 0) (Fin 0)) /\ length g = (o_nx o * total_nodes orders)%nat /\
      forall s i k j, (s < o_nx o)%nat -> owned orders i k j ->
      nth (s * total_nodes orders + i) g 0 = nth s (o_scale_x o) 0 * (row_dot (ap_D ap) i (fun i => y_x y i s) -
        seg_h cf w y k * nth s (dyn_val o ph y i (seg_time cf w y k (nth j (nth k rs []) 0))) 0)).
    { eapply con_dynamics_full; eauto. }
    destruct HF as (g & E & Hl & Hv). exists g. split; [pose proof (eq_trans (eq_sym EF) E) as X; injection X as X; exact X|]. split; [exact Hl|].
    intros s i k j c Hs Ho Hc. rewrite (is_derive_unique _ _ _ (HD i k j _ c Ho Hc)). exact (Hv s i k j Hs Ho).
  - pose proof (con_midu_full mp npath nterm Hok rs Hseg Hlrs Hgood ph Hph v y Hrep (ap_D ap) HrD HcD) as H.
    destruct (nth ph (o_midu o) false && some_finite o ph)%bool.
    + destruct H as (g & E & Hl & Hv). exists g. split; [pose proof (eq_trans (eq_sym EM) E) as X; injection X as X; exact X|]. split; [exact Hl|]. exact Hv.
    + pose proof (eq_trans (eq_sym EM) H) as X; injection X as X; exact X.
Qed.
End Blocks.

(** ** retrieved trajectories *)
Lemma input_any_z mp npath nterm z p z' : input_ok mp npath nterm z p -> length z' = length z -> input_ok mp npath nterm z' p.
Proof. intros [H1 H2 H3 H4 H5] H. constructor; auto. rewrite H. exact H4. Qed.
Lemma trajectories_ok mp npath nterm z p ph : input_ok mp npath nterm z p -> (ph < o_nph (mp_ocp mp))%nat ->
  exists rs tr, mapM (c_roots (mp_cf mp)) (mp_orders mp) = Ok rs /\ trajectories mp ph z p = Ok tr /\
    tr_x tr = v_X (unpack mp z ph) /\ tr_u tr = v_U (unpack mp z ph) /\ tr_a tr = v_A (unpack mp z ph) /\
    tr_t0 tr = y_t0 (user_traj mp z ph) /\ tr_tf tr = y_tf (user_traj mp z ph) /\
    length (tr_t tr) = total_nodes (mp_orders mp) /\
    (forall i k j, owned (mp_orders mp) i k j -> nth i (tr_t tr) 0 =
       node_time (mp_cf mp) (width mp p ph) (user_traj mp z ph) k (nth j (nth k rs []) 0)).
Proof.
  intros Hin Hph. pose proof Hin as [Hmp Hok Hsc Hz Hp].
  destruct (setup mp npath nterm z p Hin) as (rs & ap & Ers & Eap & Hseg & Hlrs & Hgood & Htaus & HrD & HcD & HD).
  set (y := user_traj mp z ph). set (w := width mp p ph).
  assert (Hrep : rep mp (unpack mp z ph) y) by (eapply unpack_rep; eauto).
  assert (Hw : forall k, (k < length (mp_orders mp))%nat -> at_ (sw_of mp p ph) k = Ok (w k)) by (eapply sw_at; eauto).
  destruct (mesh_nodes mp Hmp rs (sw_of mp p ph) w y Hlrs Hgood Hw) as (nodes & E & Hl & Hn).
  assert (Ht0 : un_t mp (v_t0 (unpack mp z ph)) = y_t0 y).
  { unfold un_t. nred. pose proof (rp_t0 _ _ _ Hrep) as E0. pose proof (sp_t _ Hsc). nred. rewrite E0. field. lra. }
  assert (Htf : un_t mp (v_tf (unpack mp z ph)) = y_tf y).
  { unfold un_t. nred. pose proof (rp_tf _ _ _ Hrep) as E0. pose proof (sp_t _ Hsc). nred. rewrite E0. field. lra. }
  exists rs. eexists. split; [exact Ers|]. split.
  { unfold trajectories. rewrite Eap. cbn [bind]. rewrite Htaus, Ht0, Htf. nred. rewrite E. cbn [bind]. reflexivity. }
  cbn [tr_x tr_u tr_a tr_t0 tr_tf tr_t]. repeat (split; [reflexivity|]). split; [rewrite map_length; exact Hl|].
  intros i k j Ho. specialize (Hn i k j Ho).
  etransitivity; [apply (nth_error_nth _ _ _ (map_nth_error nd_t _ _ Hn))|].
  rewrite node_time_seg by (apply (co_taus _ (mo_cfg _ Hmp))). reflexivity.
Qed.

Lemma trajectories_scaled mp npath nterm z p ph : input_ok mp npath nterm z p -> (ph < o_nph (mp_ocp mp))%nat ->
  exists tr, trajectories mp ph z p = Ok tr /\ traj_scaled mp tr (user_traj mp z ph).
Proof.
  intros Hin Hph. destruct (trajectories_ok mp npath nterm z p ph Hin Hph) as (rs & tr & _ & E & Ex & Eu & Ea & _). exists tr. split; [exact E|].
  pose proof Hin as [Hmp Hok Hsc Hz Hp]. assert (Hrep : rep mp (unpack mp z ph) (user_traj mp z ph)) by (eapply unpack_rep; eauto).
  destruct Hrep as [H1 H2 H3 H4 H5 H6 H7 _ _ H8]. unfold traj_scaled. nred. rewrite Ex, Eu, Ea. auto 10.
Qed.
Lemma Rsum_nonneg n f : (forall k, (k < n)%nat -> 0 <= f k) -> 0 <= Rsum n f.
Proof. induction n; intros H; cbn [Rsum]; [lra|]. specialize (IHn ltac:(auto)). specialize (H n ltac:(lia)). lra. Qed.
Lemma Rsum_mono n m f : (n <= m)%nat -> (forall k, (k < m)%nat -> 0 <= f k) -> Rsum n f <= Rsum m f.
Proof.
  intros H Hf. induction H as [|m H IH]; [lra|]. cbn [Rsum]. specialize (IH ltac:(auto)). specialize (Hf m ltac:(lia)). lra.
Qed.
Lemma node_time_order mp rs w y : cf_tau0 (mp_cf mp) < cf_tau1 (mp_cf mp) -> length rs = length (mp_orders mp) ->
  (forall k p r, nth_error (mp_orders mp) k = Some p -> nth_error rs k = Some r ->
     good_nodes (cf_tau0 (mp_cf mp)) (cf_tau1 (mp_cf mp)) p r) ->
  y_t0 y < y_tf y -> (forall k, (k < length (mp_orders mp))%nat -> 0 < w k) ->
  forall i k j i' k' j', owned (mp_orders mp) i k j -> owned (mp_orders mp) i' k' j' -> (i < i')%nat ->
  node_time (mp_cf mp) w y k (nth j (nth k rs []) 0) < node_time (mp_cf mp) w y k' (nth j' (nth k' rs []) 0).
Proof.
  intros Ht Hrs Hgood Hyt Hw i k j i' k' j' Ho Ho' Hi. set (orders := mp_orders mp) in *. set (cf := mp_cf mp) in *.
  destruct Ho as (p & Hp & Hj & Hk & Ei). destruct Ho' as (p' & Hp' & Hj' & Hk' & Ei').
  assert (Hkl : (k < length orders)%nat) by (apply nth_error_Some; congruence).
  assert (Hkl' : (k' < length orders)%nat) by (apply nth_error_Some; congruence).
  destruct (Hgood k p (nth k rs []) Hp ltac:(apply nth_error_nth'; lia)) as (Hlr & Hinc & H0 & H1).
  destruct (Hgood k' p' (nth k' rs []) Hp' ltac:(apply nth_error_nth'; lia)) as (Hlr' & Hinc' & H0' & H1').
  pose proof (offset_S _ _ _ Hp) as HS. pose proof (offset_S _ _ _ Hp') as HS'.
  unfold node_time.
  assert (Hpos : 0 < / (cf_tau1 cf - cf_tau0 cf)) by (apply Rinv_0_lt_compat; lra).
  set (T := nth j (nth k rs []) 0) in *. set (T' := nth j' (nth k' rs []) 0) in *.
  assert (Hgo : Rsum k w + w k * ((T - cf_tau0 cf) / (cf_tau1 cf - cf_tau0 cf)) <
                Rsum k' w + w k' * ((T' - cf_tau0 cf) / (cf_tau1 cf - cf_tau0 cf))).
  2:{ apply Rplus_lt_compat_l, Rmult_lt_compat_l; lra. }
  destruct (Nat.lt_trichotomy k k') as [Hkk|[->|Hkk]].
  - assert (HT1 : T <= cf_tau1 cf).
    { rewrite <- H1. destruct (Nat.eq_dec j p) as [->|Hne]; [unfold T; lra|]. left. apply Hinc. lia. }
    assert (HT0 : cf_tau0 cf < T') by (rewrite <- H0'; apply Hinc'; lia).
    assert (A : w k * ((T - cf_tau0 cf) / (cf_tau1 cf - cf_tau0 cf)) <= w k).
    { rewrite <- (Rmult_1_r (w k)) at 2. apply Rmult_le_compat_l; [left; apply Hw; auto|].
      apply (Rmult_le_reg_r (cf_tau1 cf - cf_tau0 cf)); [lra|]. unfold Rdiv. rewrite Rmult_assoc, Rinv_l by lra. lra. }
    assert (B : 0 < w k' * ((T' - cf_tau0 cf) / (cf_tau1 cf - cf_tau0 cf))).
    { apply Rmult_lt_0_compat; [apply Hw; auto|]. apply Rmult_lt_0_compat; lra. }
    assert (Hs : Rsum (S k) w <= Rsum k' w) by (apply Rsum_mono; [lia|]; intros q Hq; left; apply Hw; lia).
    cbn [Rsum] in Hs. lra.
  - assert (p' = p) by congruence. subst p'. assert (Hjj : (j < j')%nat) by lia.
    assert (HT : T < T') by (apply Hinc; lia). apply Rplus_lt_compat_l, Rmult_lt_compat_l; [apply Hw; auto|].
    unfold Rdiv. apply Rmult_lt_compat_r; lra.
  - exfalso. pose proof (offset_mono orders (S k') k ltac:(lia)). lia.
Qed.
Lemma node_time_first mp w y : cf_tau0 (mp_cf mp) < cf_tau1 (mp_cf mp) -> 
  node_time (mp_cf mp) w y 0 (cf_tau0 (mp_cf mp)) = y_t0 y.
Proof. intros H. unfold node_time. cbn [Rsum]. field. lra. Qed.

Lemma times_ok mp npath nterm z p ph : input_ok mp npath nterm z p -> (ph < o_nph (mp_ocp mp))%nat ->
  exists tr, trajectories mp ph z p = Ok tr /\
    length (tr_t tr) = total_nodes (mp_orders mp) /\
    nth 0 (tr_t tr) 0 = tr_t0 tr /\
    (Rsum (length (mp_orders mp)) (width mp p ph) = 1 -> nth (total_nodes (mp_orders mp) - 1) (tr_t tr) 0 = tr_tf tr) /\
    (tr_t0 tr < tr_tf tr -> (forall k, (k < length (mp_orders mp))%nat -> 0 < width mp p ph k) -> increasing (tr_t tr)).
Proof.
  intros Hin Hph. destruct (trajectories_ok mp npath nterm z p ph Hin Hph) as (rs & tr & Ers & Etr & _ & _ & _ & E0 & Ef & Hl & Ht).
  pose proof Hin as [Hmp Hok Hsc Hz Hp].
  destruct (setup mp npath nterm z p Hin) as (rs' & ap & Ers' & _ & _ & Hlrs & Hgood & _).
  assert (rs' = rs) by (nred; congruence). subst rs'.
  pose proof (co_taus _ (mo_cfg _ Hmp)) as Htau. pose proof (mo_len _ Hmp) as Hlo. pose proof (mo_nseg _ Hmp) as Hns.
  set (orders := mp_orders mp) in *.
  assert (Hne : orders <> []) by (intros E; rewrite E in Hlo; cbn in Hlo; lia).
  exists tr. split; [exact Etr|]. split; [exact Hl|]. split; [|split].
  - destruct (nth_error orders 0) as [q|] eqn:Eq; [|apply nth_error_None in Eq; lia].
    rewrite (Ht 0%nat 0%nat 0%nat). 2:{ exists q. split; [exact Eq|]. split; [lia|]. split; [auto|]. rewrite offset_0. lia. }
    destruct (Hgood 0%nat q (nth 0 rs []) Eq ltac:(apply nth_error_nth'; nred; lia)) as (_ & _ & H0 & _).
    nred. rewrite H0, node_time_first by auto. symmetry. exact E0.
  - intros Hs. set (k := (length orders - 1)%nat).
    destruct (nth_error orders k) as [q|] eqn:Eq; [|apply nth_error_None in Eq; unfold k in Eq; lia].
    pose proof (offset_S _ _ _ Eq) as HS. replace (S k) with (length orders) in HS by (unfold k; lia).
    rewrite (Ht _ k q).
    2:{ exists q. split; [exact Eq|]. split; [lia|]. split; [|unfold total_nodes; fold orders; lia].
        destruct k; [auto|right]. pose proof (mo_pos _ Hmp q (nth_error_In _ _ Eq)). lia. }
    destruct (Hgood k q (nth k rs []) Eq ltac:(apply nth_error_nth'; nred; unfold k; lia)) as (_ & _ & _ & H1).
    nred. rewrite H1. rewrite Ef. unfold node_time. replace (Rsum k (width mp p ph)) with (1 - width mp p ph k).
    + field. nred. lra.
    + rewrite <- Hs. replace (length orders) with (S k) by (unfold k; lia). cbn [Rsum]. nred. lra.
  - intros Hlt Hw. intros i j Hij. pose proof Hl as Hl2. nred. rewrite Hl2 in Hij.
    destruct (owned_exists orders i) as (k1 & j1 & O1); [exact Hne|lia|].
    destruct (owned_exists orders j) as (k2 & j2 & O2); [exact Hne|lia|].
    rewrite (Ht _ _ _ O1), (Ht _ _ _ O2). eapply node_time_order; eauto; [|lia].
    rewrite <- E0, <- Ef. exact Hlt.
Qed.

(** ** layout of the decision vector *)
Definition phase_vec (v : pvars Rnum) : list R := mvec (v_X v) ++ mvec (v_U v) ++ [v_t0 v; v_tf v] ++ v_A v.
Lemma length_phase_vec mp v : vars_ok mp v -> length (phase_vec v) = nvars mp.
Proof.
  intros (H1 & H2 & H3 & H4 & H5). unfold phase_vec, nvars. rewrite !app_length, !length_mvec. nred. rewrite H1, H2, H3, H4, H5. cbn [length]. lia.
Qed.
Lemma create_nlp_vars mp vs p n : create_nlp mp vs p = Ok n -> length vs = o_nph (mp_ocp mp) ->
  c_g (n_x n) = flat_map phase_vec vs.
Proof.
  intros H Hl. unfold create_nlp in H. destruct (compute_numerical_approximation mp) as [ap|]; [cbn [bind] in H|discriminate].
  destruct (mapM _ _) as [parts|] eqn:Ep; [cbn [bind] in H|discriminate].
  destruct (if Nat.ltb 1 (o_nph (mp_ocp mp)) then _ else _) as [E|]; [cbn [bind] in H|discriminate].
  injection H as <-. cbn [n_x].
  assert (Ec : forall l : list (con Rnum), c_g (con_concat l) = List.concat (map (@c_g Rnum) l)).
  { induction l as [|c l IH]; [reflexivity|]. cbn [con_concat fold_right map List.concat]. rewrite <- IH. reflexivity. }
  rewrite Ec, map_map, flat_map_concat_map. f_equal.
  destruct (mapM_inv _ _ _ Ep) as [Hlp Hn]. rewrite seq_length in Hlp.
  assert (Hall : forall ph v, nth_error vs ph = Some v -> exists r, nth_error parts ph = Some r /\ c_g (fst (fst r)) = phase_vec v).
  { intros ph v Hv. assert (Hph : (ph < o_nph (mp_ocp mp))%nat) by (rewrite <- Hl; apply nth_error_Some; congruence).
    destruct (Hn ph ph) as (r & Hr & Er).
    { rewrite (nth_error_nth' _ 0%nat) by (rewrite seq_length; auto). rewrite seq_nth by auto. reflexivity. }
    exists r. split; [exact Hr|].
    unfold at_ in Er. rewrite Hv in Er. cbn [bind] in Er.
    destruct (nlp_variables mp ph v) as [Z|] eqn:EZ; [cbn [bind] in Er|discriminate].
    destruct (discretize_phase _ _ _ _ _) as [[G J]|]; [cbn [bind] in Er|discriminate].
    injection Er as <-. cbn [fst]. unfold nlp_variables in EZ.
    repeat match type of EZ with bind ?x _ = Ok _ => destruct x; [cbn [bind] in EZ|discriminate] end.
    injection EZ as <-. reflexivity. }
  apply nth_ext with (d := []) (d' := []).
  - rewrite !map_length. nred. lia.
  - rewrite map_length. intros i Hi.
    destruct (nth_error vs i) as [v|] eqn:Ev; [|apply nth_error_None in Ev; nred; lia].
    destruct (Hall i v Ev) as (r & Hr & Er).
    rewrite (nth_error_nth _ _ _ (map_nth_error phase_vec _ _ Ev)).
    etransitivity; [apply (nth_error_nth _ _ _ (map_nth_error _ _ _ Hr))|]. destruct r as [[Z G] J]. exact Er.
Qed.
Lemma nth_pv_X mp v i s : vars_ok mp v -> (i < total_nodes (mp_orders mp))%nat -> (s < o_nx (mp_ocp mp))%nat ->
  nth (s * total_nodes (mp_orders mp) + i) (phase_vec v) 0 = mget (v_X v) i s.
Proof.
  intros (H1 & H2 & H3 & H4 & H5) Hi Hs. unfold phase_vec. rewrite app_nth1.
  - apply (nth_mvec_n _ _ i s H1 Hi). lia.
  - rewrite length_mvec, H1, H2. nia.
Qed.
Lemma nth_pv_U mp v i s : vars_ok mp v -> (i < total_nodes (mp_orders mp))%nat -> (s < o_nu (mp_ocp mp))%nat ->
  nth (total_nodes (mp_orders mp) * o_nx (mp_ocp mp) + s * total_nodes (mp_orders mp) + i) (phase_vec v) 0 = mget (v_U v) i s.
Proof.
  intros (H1 & H2 & H3 & H4 & H5) Hi Hs. unfold phase_vec. rewrite app_nth2; rewrite length_mvec, H1, H2; [|nia].
  rewrite app_nth1.
  - rewrite <- (nth_mvec_n _ _ i s H3 Hi) by lia. f_equal. lia.
  - rewrite length_mvec, H3, H4. nia.
Qed.
Lemma nth_pv_rest mp v i : vars_ok mp v ->
  nth (total_nodes (mp_orders mp) * o_nx (mp_ocp mp) + total_nodes (mp_orders mp) * o_nu (mp_ocp mp) + i) (phase_vec v) 0 =
  nth i ([v_t0 v; v_tf v] ++ v_A v) 0.
Proof.
  intros (H1 & H2 & H3 & H4 & H5). unfold phase_vec. rewrite app_nth2; rewrite length_mvec, H1, H2; [|nia].
  rewrite app_nth2; rewrite length_mvec, H3, H4; [|nia]. f_equal. lia.
Qed.
Lemma unpack_pack mp vs ph v : (forall v, In v vs -> vars_ok mp v) -> nth_error vs ph = Some v ->
  vars_eq (unpack mp (flat_map phase_vec vs) ph) v.
Proof.
  intros Hok Hv. assert (Hph : (ph < length vs)%nat) by (apply nth_error_Some; congruence).
  assert (Hvv : vars_ok mp v) by (apply Hok; eapply nth_error_In; eauto).
  assert (Hn : forall i, (i < nvars mp)%nat -> nth (ph * nvars mp + i) (flat_map phase_vec vs) 0 = nth i (phase_vec v) 0).
  { intros i Hi. rewrite (nth_flat_map_const phase_vec (nvars mp) _ _ v); auto.
    - rewrite (nth_error_nth _ _ v Hv). reflexivity.
    - intros a Ha. apply length_phase_vec. auto. }
  assert (Env : nvars mp = (total_nodes (mp_orders mp) * o_nx (mp_ocp mp) + total_nodes (mp_orders mp) * o_nu (mp_ocp mp) + 2 + o_na (mp_ocp mp))%nat) by reflexivity.
  pose proof Hvv as (H1 & H2 & H3 & H4 & H5).
  assert (Hlf : length (flat_map phase_vec vs) = (length vs * nvars mp)%nat).
  { apply length_flat_map_const. intros a Ha. apply length_phase_vec; auto. }
  unfold unpack. rewrite zlen_nvars, npoints_total. 
  split; [|split; [|split; [|split]]]; cbn [v_X v_U v_t0 v_tf v_A].
  - split; [cbn; auto|]. split; [cbn; auto|]. cbn [nr nc mget]. intros i j Hi Hj. nred. rewrite nth_skipn, Hn by nia. apply nth_pv_X; auto.
  - split; [cbn; auto|]. split; [cbn; auto|]. cbn [nr nc mget]. intros i j Hi Hj. nred. rewrite nth_skipn, Hn by nia. apply nth_pv_U; auto.
  - nred. rewrite nth_skipn, Hn by nia. pose proof (nth_pv_rest mp v 0 Hvv) as E. rewrite Nat.add_0_r in E. exact E.
  - nred. rewrite nth_skipn, Hn by nia. exact (nth_pv_rest mp v 1 Hvv).
  - apply nth_ext with (d := 0) (d' := 0).
    + rewrite firstn_length, !skipn_length. nred. rewrite Hlf, H5. nia.
    + intros i Hi. rewrite firstn_length in Hi. nred. rewrite nth_firstn_lt, !nth_skipn by lia. rewrite Hn by lia.
      pose proof (nth_pv_rest mp v (2 + i) Hvv) as E. rewrite Nat.add_assoc in E. exact E.
Qed.
Lemma vars_eq_ok mp v v' : vars_eq v v' -> vars_ok mp v' -> vars_ok mp v.
Proof. intros ((A & B & _) & (C & D & _) & _ & _ & E) (H1 & H2 & H3 & H4 & H5). unfold vars_ok. rewrite A, B, C, D, E. auto. Qed.

Lemma layout_roundtrip mp vs p n ph v : mpo_ok mp -> scales_pos (mp_ocp mp) -> (forall v, In v vs -> vars_ok mp v) ->
  length vs = o_nph (mp_ocp mp) -> length p = (o_nph (mp_ocp mp) * mp_nseg mp)%nat ->
  create_nlp mp vs p = Ok n -> nth_error vs ph = Some v ->
  length (c_g (n_x n)) = (o_nph (mp_ocp mp) * nvars mp)%nat /\
  exists tr, trajectories mp ph (c_g (n_x n)) p = Ok tr /\
    mat_eq (tr_x tr) (v_X v) /\ mat_eq (tr_u tr) (v_U v) /\ tr_a tr = v_A v /\
    tr_t0 tr = v_t0 v / o_scale_t (mp_ocp mp) /\ tr_tf tr = v_tf v / o_scale_t (mp_ocp mp).
Proof.
  intros Hmp Hsc Hvs Hl Hp Hn Hv. rewrite (create_nlp_vars _ _ _ _ Hn Hl).
  assert (Hph : (ph < o_nph (mp_ocp mp))%nat) by (rewrite <- Hl; apply nth_error_Some; congruence).
  pose proof (unpack_pack mp vs ph v Hvs Hv) as (EX & EU & E0 & Ef & EA).
  split. { rewrite <- Hl. apply length_flat_map_const. intros a Ha. apply length_phase_vec; auto. }
  unfold create_nlp in Hn. destruct (compute_numerical_approximation mp) as [ap|] eqn:Eap; [|discriminate]. clear Hn.
  unfold trajectories. rewrite Eap. cbn [bind].
  destruct (seg_nodes_ok (mp_cf mp) (mp_orders mp) (mo_cfg _ Hmp) (mo_pos _ Hmp)) as (rs & Hseg & Hlrs & Hgood).
  assert (Htaus : ap_taus ap = rs).
  { unfold compute_numerical_approximation in Eap. rewrite (proj1 Hseg) in Eap. cbn [bind] in Eap.
    destruct (comp_diff _ _ _); [cbn [bind] in Eap|discriminate]. destruct (comp_quad _ _ _ _); [cbn [bind] in Eap|discriminate].
    injection Eap as <-. reflexivity. }
  assert (Hw : forall k, (k < length (mp_orders mp))%nat -> at_ (sw_of mp p ph) k = Ok (width mp p ph k)).
  { intros k Hk. pose proof (mo_len _ Hmp) as Hlo. nred.
    assert (Hb : (ph * mp_nseg mp + mp_nseg mp <= length p)%nat) by (rewrite Hp; nia).
    unfold sw_of, slice. rewrite (at_ok _ k 0).
    - f_equal. rewrite nth_firstn_lt by lia. rewrite nth_skipn. reflexivity.
    - rewrite firstn_length, skipn_length. nred. lia. }
  set (v' := unpack mp (flat_map phase_vec vs) ph) in *.
  destruct (mesh_nodes mp Hmp rs (sw_of mp p ph) (width mp p ph)
     (Utraj (fun _ _ => 0) (fun _ _ => 0) (un_t mp (v_t0 v')) (un_t mp (v_tf v')) (fun _ => 0)) Hlrs Hgood Hw) as (nodes & E & _).
  cbn [y_t0 y_tf] in E. rewrite Htaus. nred. rewrite E. cbn [bind].
  eexists. split; [reflexivity|]. cbn [tr_x tr_u tr_a tr_t0 tr_tf]. split; [exact EX|]. split; [exact EU|]. split; [exact EA|].
  unfold un_t. nred. rewrite E0, Ef. split; reflexivity.
Qed.
Lemma layout_injective mp vs vs' : (forall v, In v vs -> vars_ok mp v) -> (forall v, In v vs' -> vars_ok mp v) ->
  flat_map phase_vec vs = flat_map phase_vec vs' ->
  forall ph v v', nth_error vs ph = Some v -> nth_error vs' ph = Some v' -> vars_eq v v'.
Proof.
  intros H H' E ph v v' Hv Hv'. pose proof (unpack_pack mp vs ph v H Hv) as A. pose proof (unpack_pack mp vs' ph v' H' Hv') as B.
  rewrite E in A. destruct A as ((A1 & A2 & A3) & (A4 & A5 & A6) & A7 & A8 & A9). destruct B as ((B1 & B2 & B3) & (B4 & B5 & B6) & B7 & B8 & B9).
  split; [|split; [|split; [congruence|split; congruence]]].
  - split; [congruence|]. split; [congruence|]. intros i j Hi Hj. rewrite <- A3, <- B3 by congruence. reflexivity.
  - split; [congruence|]. split; [congruence|]. intros i j Hi Hj. rewrite <- A6, <- B6 by congruence. reflexivity.
Qed.
