(** States depend on start and controls in a stable way (proofs of C90). *)
From Coq Require Import Reals Lia Lra Psatz Bool Arith String.
From Coquelicot Require Import Coquelicot.
From Coq Require Import List.
From Verif Require Import Num PyList Mat Poly Roots Colloc Ocp Transcribe Spec SpecOcp SpecHadapt SpecTrack SpecStable NumR ListR PolyR CollocR CompR CollocThm MeshR BlockR DiscR NlpR OcpR ScaleR NlpThm CostR ConvexR TransR TaylorR ExactR SmoothR TrackR DetermR.
Import ListNotations.
Open Scope R_scope.

Lemma one_step e e0 x v : 0 <= x -> 2 * x <= 1 -> 0 <= e0 -> 0 <= v -> e <= e0 + x * e + v -> e <= exp (2 * x) * (e0 + v).
Proof.
  intros Hx Hx2 H0 Hv He. pose proof (exp_ineq1_le (2 * x)) as E.
  apply Rle_trans with ((1 + 2 * x) * (e0 + v)); [|apply Rmult_le_compat_r; [lra|exact E]].
  destruct (Rle_lt_dec e 0) as [X|X]; [pose proof (Rmult_le_pos (1 + 2 * x) (e0 + v) ltac:(lra) ltac:(lra)); lra|].
  assert (F : (1 + 2 * x) * (e - x * e) <= (1 + 2 * x) * (e0 + v)) by (apply Rmult_le_compat_l; lra).
  pose proof (Rmult_le_pos _ _ (Rmult_le_pos x (1 - 2 * x) Hx ltac:(lra)) (Rlt_le _ _ X)). nra.
Qed.
Lemma two_steps A B T l d v : 0 <= A -> 0 <= l -> 0 <= v -> 0 <= B -> exp (A * l) * (exp (A * T) * (d + T * v) + l * v) <= exp (A * (T + l)) * (d + (T + l) * v) \/ T < 0.
Proof.
  intros HA Hl Hv HB. destruct (Rlt_le_dec T 0) as [H|H]; [right; exact H|left]. replace (A * (T + l)) with (A * T + A * l) by ring. rewrite exp_plus.
  assert (E : 1 <= exp (A * T)).
  { pose proof (exp_ineq1_le (A * T)). nra. }
  assert (P : 0 < exp (A * l)) by apply exp_pos. assert (Q : 0 <= l * v) by nra.
  replace (exp (A * T) * exp (A * l) * (d + (T + l) * v)) with (exp (A * l) * (exp (A * T) * (d + T * v) + exp (A * T) * (l * v))) by ring.
  apply Rmult_le_compat_l; [lra|]. nra.
Qed.
Section Two.
Variables (mp : mpo Rnum) (rs : list (list R)) (w : nat -> R) (ph : nat) (y : utraj) (x2 u2 : nat -> nat -> R) (C L M dl et : R) (Q : nat).
Let o := mp_ocp mp.
Let cf := mp_cf mp.
Let orders := mp_orders mp.
Let y2 := Utraj x2 u2 (y_t0 y) (y_tf y) (y_a y).
Hypothesis Ht : cf_tau0 cf < cf_tau1 cf.
Hypothesis Hpos : forall q, In q orders -> (1 <= q)%nat.
Hypothesis HQ : forall q, In q orders -> (q <= Q)%nat.
Hypothesis Hroot : forall k q, nth_error orders k = Some q -> c_roots cf q = Ok (nth k rs []).
Hypothesis Hgood : forall k q, nth_error orders k = Some q -> good_nodes (cf_tau0 cf) (cf_tau1 cf) q (nth k rs []).
Hypothesis Hw : forall k, (k < length orders)%nat -> 0 < w k.
Hypothesis Hsum : Rsum (length orders) w = 1.
Hypothesis Hy : y_t0 y < y_tf y.
Hypothesis HC : forall q, (1 <= q <= Q)%nat -> det_const cf q C.
Hypothesis HC0 : 0 <= C.
Hypothesis HL : 0 <= L.
Hypothesis HM : 0 <= M.
Hypothesis Hdl : 0 <= dl.
Hypothesis Het : 0 <= et.
Hypothesis Hlip : lipschitz2 o ph (a_of o y) (y_t0 y) (y_tf y) L M.
Hypothesis Hfine : forall k, (k < length orders)%nat -> 2 * (C * L * lasts w y k) <= 1.
Hypothesis Hnx : (0 < o_nx o)%nat.
Hypothesis D1 : dynamics_ok mp rs w ph y.
Hypothesis D2 : dynamics_ok mp rs w ph y2.
Hypothesis Hu : forall i c, (i < total_nodes orders)%nat -> (c < o_nu o)%nat -> Rabs (y_u y i c - u2 i c) <= et.
Lemma seg_near k q e0 : nth_error orders k = Some q -> 0 <= e0 -> (forall s, (s < o_nx o)%nat -> Rabs (y_x y (offset orders k) s - x2 (offset orders k) s) <= e0) ->
  forall j s, (j <= q)%nat -> (s < o_nx o)%nat -> Rabs (y_x y (offset orders k + j)%nat s - x2 (offset orders k + j)%nat s) <= exp (2 * (C * L * lasts w y k)) * (e0 + C * lasts w y k * (M * et)).
Proof.
  intros Eq He0 H0. pose proof (MeshR.nth_error_lt _ _ _ Eq) as Hk. set (b := offset orders k) in *. set (r := nth k rs []) in *. pose proof (Hgood k q Eq) as Hg. fold r in Hg.
  pose proof (nth_error_In _ _ Eq) as Hin. destruct (HC q (conj (Hpos q Hin) (HQ q Hin))) as (_ & HCq). specialize (HCq r (Hroot k q Eq)).
  destruct (arg_max2 (o_nx o) (S q) (fun s j => Rabs (y_x y (b + j)%nat s - x2 (b + j)%nat s)) Hnx (Nat.lt_0_succ q)) as (s & i & Hs & Hi & HX).
  set (e := Rabs (y_x y (b + i)%nat s - x2 (b + i)%nat s)) in *.
  assert (Lr : length r = S q) by apply Hg. pose proof (good_nodup _ _ _ _ Hg) as Hnd.
  destruct (interp_exists r (fun j => y_x y (b + j)%nat s) Hnd) as (c & Lc & Ec). destruct (interp_exists r (fun j => x2 (b + j)%nat s) Hnd) as (c2 & Lc2 & Ec2).
  destruct (poly_minus c c2 (S q)) as (d1 & Ld1 & Ed1); [rewrite <- Lr; exact Lc|rewrite <- Lr; exact Lc2|].
  set (v0 := peval d1 (nth 0 r 0)). destruct (poly_minus d1 [v0] (S q) Ld1) as (d & Ld & Ed); [cbn; lia|].
  assert (Ev : forall x, peval [v0] x = v0) by (intros x; change (v0 + x * 0 = v0); ring).
  assert (Ed' : forall x, peval (@pder Rnum d) x = peval (@pder Rnum c) x - peval (@pder Rnum c2) x).
  { intros x. apply (is_derive_unique2 (peval d) x); [apply is_derive_peval|]. apply (is_derive_ext (fun x => (peval c x - peval c2 x) - v0)); [intros t; rewrite Ed, Ed1, Ev; reflexivity|].
    pose proof (is_derive_minus (K := R_AbsRing) (V := R_NormedModule) (peval c) (peval c2) x _ _ (is_derive_peval c x) (is_derive_peval c2 x)) as Z1.
    pose proof (is_derive_minus (K := R_AbsRing) (V := R_NormedModule) _ (fun _ => v0) x _ _ Z1 (is_derive_const (K := R_AbsRing) (V := R_NormedModule) v0 x)) as Z2.
    refine (is_derive_ext_val _ _ _ _ _ Z2).
    change (peval (@pder Rnum c) x - peval (@pder Rnum c2) x - 0 = peval (@pder Rnum c) x - peval (@pder Rnum c2) x). ring. }
  pose proof (h_pos mp w y Ht Hw Hy k Hk) as Hh. fold cf in Hh. set (h := seg_h cf w y k) in *.
  assert (He : 0 <= e) by apply Rabs_pos.
  assert (HLe : 0 <= L * e + M * et) by (clear - HL HM Het He; nra).
  assert (Hv0 : Rabs v0 <= e0).
  { unfold v0. rewrite Ed1, (Ec 0%nat), (Ec2 0%nat) by (rewrite Lr; lia). rewrite Nat.add_0_r. exact (H0 s Hs). }
  assert (HE : Rabs (peval d (nth i r 0)) <= C * (h * (L * e + M * et) * (cf_tau1 cf - cf_tau0 cf))).
  { apply HCq; [exact Ld|apply Rmult_le_pos; lra| | |lia].
    - rewrite Ed, Ev. unfold v0. apply Rminus_diag_eq. reflexivity.
    - intros j Hj. assert (Hown : owned orders (b + j) k j) by (exists q; repeat split; auto; lia).
      pose proof (D1 _ k j s c Hown Hs (conj Lc Ec)) as X1. pose proof (D2 _ k j s c2 Hown Hs (conj Lc2 Ec2)) as X2.
      pose proof (is_derive_unique2 _ _ _ _ (is_derive_peval c (nth j r 0)) X1) as Y1. pose proof (is_derive_unique2 _ _ _ _ (is_derive_peval c2 (nth j r 0)) X2) as Y2.
      change (peval (@pder Rnum c) (nth j r 0) = h * nth s (rhs o ph (a_of o y) (y_x y (b + j)%nat) (y_u y (b + j)%nat) (seg_time cf w y k (nth j r 0))) 0) in Y1.
      change (peval (@pder Rnum c2) (nth j r 0) = h * nth s (rhs o ph (a_of o y) (x2 (b + j)%nat) (u2 (b + j)%nat) (seg_time cf w y k (nth j r 0))) 0) in Y2.
      rewrite Ed', Y1, Y2.
      rewrite <- Rmult_minus_distr_l, Rabs_mult, (Rabs_pos_eq h) by lra. apply Rmult_le_compat_l; [lra|].
      apply (Hlip (seg_time cf w y k (nth j r 0)) (y_u y (b + j)) (u2 (b + j)%nat) (y_x y (b + j)) (x2 (b + j)%nat) e et s); [|exact Hs|intros i' Hi'; apply HX; [exact Hi'|lia]|intros c' Hc'; apply Hu; [exact (owned_lt _ _ _ _ Hown)|exact Hc']].
      apply (T_range mp w y Ht Hw Hsum Hy k _ Hk). apply (good_range _ _ q); [exact Ht|exact Hg|lia]. }
  assert (Eh : h * (cf_tau1 cf - cf_tau0 cf) = lasts w y k) by (unfold h, seg_h, lasts; field; lra).
  assert (Hl : 0 <= lasts w y k) by (rewrite <- Eh; apply Rmult_le_pos; lra).
  assert (G : e <= e0 + C * L * lasts w y k * e + C * lasts w y k * (M * et)).
  { assert (E1 : e <= Rabs (peval d (nth i r 0)) + Rabs v0).
    { unfold e. replace (y_x y (b + i)%nat s - x2 (b + i)%nat s) with (peval d (nth i r 0) + v0); [apply Rabs_triang|]. rewrite Ed, Ev, Ed1, (Ec i), (Ec2 i) by (rewrite Lr; exact Hi). ring. }
    rewrite (Rmult_comm h), Rmult_assoc, Eh in HE. clear - E1 HE Hv0. nra. }
  assert (G' : e <= exp (2 * (C * L * lasts w y k)) * (e0 + C * lasts w y k * (M * et))).
  { apply one_step; [|exact (Hfine k Hk)|exact He0| |exact G].
    - apply Rmult_le_pos; [apply Rmult_le_pos; assumption|exact Hl].
    - apply Rmult_le_pos; [apply Rmult_le_pos; assumption|apply Rmult_le_pos; assumption]. }
  intros j s' Hj Hs'. eapply Rle_trans; [exact (HX s' j Hs' ltac:(lia))|exact G'].
Qed.
Lemma lasts_sum k : Rsum k (lasts w y) = (y_tf y - y_t0 y) * Rsum k w.
Proof. clear. unfold lasts. induction k as [|k IH]; cbn [Rsum]; [ring|]. rewrite IH. ring. Qed.
Lemma all_near : (forall s, (s < o_nx o)%nat -> Rabs (y_x y 0 s - x2 0%nat s) <= dl) -> forall i s, (i < total_nodes orders)%nat -> (s < o_nx o)%nat ->
  Rabs (y_x y i s - x2 i s) <= exp (2 * C * L * (y_tf y - y_t0 y)) * (dl + C * M * (y_tf y - y_t0 y) * et).
Proof.
  intros H0. set (T := fun k => Rsum k (lasts w y)). set (bd := fun k => exp (2 * C * L * T k) * (dl + T k * (C * M * et))).
  assert (HV : 0 <= C * M * et) by (apply Rmult_le_pos; [apply Rmult_le_pos; assumption|assumption]).
  assert (HA : 0 <= 2 * C * L) by (apply Rmult_le_pos; [apply Rmult_le_pos; lra|assumption]).
  assert (Hl : forall k, (k < length orders)%nat -> 0 <= lasts w y k) by (intros k Hk; unfold lasts; apply Rmult_le_pos; [lra|left; exact (Hw k Hk)]).
  assert (HT : forall k, (k <= length orders)%nat -> 0 <= T k) by (induction k as [|k IH]; intros Hk; unfold T; cbn [Rsum]; [lra|]; pose proof (Hl k ltac:(lia)); specialize (IH ltac:(lia)); unfold T in IH; lra).
  assert (Hb : forall k, (k <= length orders)%nat -> 0 <= bd k) by (intros k Hk; unfold bd; apply Rmult_le_pos; [left; apply exp_pos|pose proof (Rmult_le_pos _ _ (HT k Hk) HV); lra]).
  assert (Hstep : forall k, (k < length orders)%nat -> exp (2 * (C * L * lasts w y k)) * (bd k + C * lasts w y k * (M * et)) <= bd (S k)).
  { intros k Hk. destruct (two_steps (2 * C * L) 0 (T k) (lasts w y k) dl (C * M * et) HA (Hl k Hk) HV (Rle_refl 0)) as [X|X]; [|pose proof (HT k ltac:(lia)); lra].
    unfold bd. unfold T at 2 3. cbn [Rsum]. fold (T k). eapply Rle_trans; [|exact X]. apply Req_le. f_equal; [f_equal; ring|]. ring. }
  assert (Hmono : forall k, (k < length orders)%nat -> bd k <= bd (S k)).
  { intros k Hk. eapply Rle_trans; [|exact (Hstep k Hk)]. pose proof (Hb k ltac:(lia)) as B.
    assert (P1 : 0 <= C * L * lasts w y k) by (apply Rmult_le_pos; [apply Rmult_le_pos; assumption|exact (Hl k Hk)]).
    assert (P2 : 0 <= C * lasts w y k * (M * et)) by (apply Rmult_le_pos; [apply Rmult_le_pos; [assumption|exact (Hl k Hk)]|apply Rmult_le_pos; assumption]).
    apply (one_step (bd k) (bd k) _ _ P1 (Hfine k Hk) B P2). pose proof (Rmult_le_pos _ _ P1 B). lra. }
  assert (G : forall k, (k <= length orders)%nat -> forall i s, (i <= offset orders k)%nat -> (s < o_nx o)%nat -> Rabs (y_x y i s - x2 i s) <= bd k).
  { induction k as [|k IH]; intros Hk i s Hi Hs.
    - rewrite offset_0 in Hi. assert (i = 0)%nat as -> by lia. eapply Rle_trans; [exact (H0 s Hs)|]. unfold bd, T. cbn [Rsum]. rewrite Rmult_0_r, exp_0. lra.
    - destruct (nth_error orders k) as [q|] eqn:Eq; [|apply nth_error_None in Eq; lia]. rewrite (offset_S _ _ _ Eq) in Hi.
      destruct (Nat.le_gt_cases i (offset orders k)) as [X|X]; [eapply Rle_trans; [apply IH; [lia|exact X|exact Hs]|apply Hmono; lia]|].
      replace i with (offset orders k + (i - offset orders k))%nat by lia. eapply Rle_trans; [apply (seg_near k q (bd k) Eq (Hb k ltac:(lia)))|exact (Hstep k ltac:(lia))]; [|lia|exact Hs].
      intros s' Hs'. apply IH; [lia|lia|exact Hs']. }
  intros i s Hi Hs. eapply Rle_trans; [apply (G (length orders) (le_n _)); [unfold total_nodes in Hi; lia|exact Hs]|].
  unfold bd, T. rewrite lasts_sum, Hsum, Rmult_1_r. apply Req_le. f_equal. ring.
Qed.
End Two.
Theorem stable_thm cf Q : cfg_ok cf -> exists C, 0 <= C /\ forall mp npath nterm (z z' p : list R) n n' ph,
  mp_cf mp = cf -> (forall q, In q (mp_orders mp) -> (q <= Q)%nat) -> input_ok mp npath nterm z p -> input_ok mp npath nterm z' p -> widths_ok (mp_nseg mp) (o_nph (mp_ocp mp)) p ->
  nlp_at mp z p = Ok n -> nlp_at mp z' p = Ok n' -> feasible n -> feasible n' -> (ph < o_nph (mp_ocp mp))%nat ->
  let o := mp_ocp mp in let w := width mp p ph in let y := user_traj mp z ph in let y' := user_traj mp z' ph in y_t0 y < y_tf y ->
  forall L M dl et, 0 <= L -> 0 <= M -> 0 <= dl -> 0 <= et -> lipschitz2 o ph (a_of o y) (y_t0 y) (y_tf y) L M -> (forall k, (k < length (mp_orders mp))%nat -> 2 * (C * L * lasts w y k) <= 1) ->
    y_t0 y' = y_t0 y -> y_tf y' = y_tf y -> (forall i, (i < o_na o)%nat -> y_a y' i = y_a y i) ->
    (forall i c, (i < total_nodes (mp_orders mp))%nat -> (c < o_nu o)%nat -> Rabs (y_u y i c - y_u y' i c) <= et) -> (forall s, (s < o_nx o)%nat -> Rabs (y_x y 0 s - y_x y' 0 s) <= dl) ->
    forall i s, (i < total_nodes (mp_orders mp))%nat -> (s < o_nx o)%nat ->
      Rabs (y_x y i s - y_x y' i s) <= exp (2 * C * L * (y_tf y - y_t0 y)) * (dl + C * M * (y_tf y - y_t0 y) * et).
Proof.
  intros Hcf. destruct (dets_exist cf Q Hcf) as (C & HC & Hd). exists C. split; [exact HC|].
  intros mp npath nterm z z' p n n' ph Ecf HQ Hin Hin' Hw En En' Hf Hf' Hph o w y y' Hy L M dl et HL HM Hdl Het Hlip Hfine E1 E2 E3 E4 E5. subst cf.
  destruct (nlp_like _ _ _ _ _ (user_traj mp z) Hin (fun ph _ => same_refl _ _)) as (rs & m & R1 & R2 & _ & R3 & _).
  assert (m = n) as -> by (pose proof (eq_trans (eq_sym R2) En) as X; injection X as X; exact X). apply R3 in Hf. destruct Hf as (_ & Hp & _). destruct (Hp ph Hph) as (Hdyn & _).
  destruct (nlp_like _ _ _ _ _ (user_traj mp z') Hin' (fun ph _ => same_refl _ _)) as (rs' & m' & R1' & R2' & R4 & R3' & _).
  assert (m' = n') as -> by (pose proof (eq_trans (eq_sym R2') En') as X; injection X as X; exact X). apply R3' in Hf'. destruct Hf' as (_ & Hp' & _). destruct (Hp' ph Hph) as (Hdyn' & _).
  assert (rs' = rs) as -> by (pose proof (eq_trans (eq_sym R1') R1) as X; injection X as X; exact X).
  set (y2 := Utraj (y_x y') (y_u y') (y_t0 y) (y_tf y) (y_a y)).
  assert (HS : same_traj mp y' y2) by (split; [reflexivity|]; split; [reflexivity|]; split; [exact E1|]; split; [exact E2|exact E3]).
  assert (Hdyn2 : dynamics_ok mp rs (width mp p ph) ph y2) by exact (dynamics_congr mp rs (width mp p ph) ph R4 y' y2 HS Hdyn').
  destruct (part_widths mp p (in_mpo _ _ _ _ _ Hin) Hw ph Hph) as (W1 & W2).
  assert (Hg : forall k q, nth_error (mp_orders mp) k = Some q -> good_nodes (cf_tau0 (mp_cf mp)) (cf_tau1 (mp_cf mp)) q (nth k rs [])).
  { intros k q Eq. apply (rs_good mp npath nterm z p Hin rs R1 k q _ Eq). apply nth_error_nth'. exact (Nat.lt_le_trans _ _ _ (MeshR.nth_error_lt _ _ _ Eq) (Nat.eq_le_incl _ _ (eq_sym (rs_len mp rs R1)))). }
  exact (all_near mp rs (width mp p ph) ph y (y_x y') (y_u y') C L M dl et Q (co_taus _ Hcf) (mo_pos _ (in_mpo _ _ _ _ _ Hin)) HQ (rs_root mp rs R1) Hg W1 W2 Hy Hd HC HL HM Hdl Het Hlip Hfine (ok_nx _ _ _ (in_ocp _ _ _ _ _ Hin)) Hdyn Hdyn2 E4 E5).
Qed.
