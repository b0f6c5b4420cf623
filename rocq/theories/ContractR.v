(** Dissipative problems on Radau meshes (proofs of C92). *)
From Coq Require Import Reals Lia Lra Psatz Bool Arith String.
From Coquelicot Require Import Coquelicot.
From Coq Require Import List.
From Verif Require Import Num PyList Mat Poly Roots Colloc Ocp Transcribe Spec SpecOcp SpecHadapt SpecTrack SpecContract NumR ListR PolyR CollocR CompR CollocThm MeshR BlockR DiscR NlpR OcpR ScaleR NlpThm CostR WeightR ConvexR UniqueR TransR TaylorR ExactR SmoothR TrackR.
Import ListNotations.
Open Scope R_scope.

Lemma product (a b : list R) : exists c, (length c <= length a + length b - 1)%nat /\ forall x, peval c x = peval a x * peval b x.
Proof.
  destruct a as [|a0 a]; [exists []; split; [cbn; lia|]; intros x; cbn; ring|]. destruct b as [|b0 b]; [exists []; split; [cbn; lia|]; intros x; cbn; ring|].
  exists (@pmul Rnum (a0 :: a) (b0 :: b)). split; [rewrite length_pmul by discriminate; lia|]. intros x. apply peval_pmul.
Qed.
Lemma square_int (d c : list R) a b : (forall x, peval c x = peval d x * peval (@pder Rnum d) x) -> RInt (peval c) a b = (peval d b * peval d b - peval d a * peval d a) / 2.
Proof.
  intros H. replace ((peval d b * peval d b - peval d a * peval d a) / 2) with (minus (peval d b * peval d b / 2) (peval d a * peval d a / 2)) by (unfold minus, plus, opp; cbn; field).
  apply is_RInt_unique. apply (is_RInt_derive (fun x => peval d x * peval d x / 2)); [|intros x _; apply continuous_peval].
  intros x _. rewrite H. assert (D : is_derive (fun x => peval d x * peval d x) x (peval (@pder Rnum d) x * peval d x + peval d x * peval (@pder Rnum d) x)).
  { apply (is_derive_mult (peval d) (peval d)); [apply is_derive_peval|apply is_derive_peval|intros; apply Rmult_comm]. }
  apply (is_derive_ext (fun x => / 2 * (peval d x * peval d x))); [intros t; cbn; field|].
  pose proof (is_derive_scal (fun x => peval d x * peval d x) x (/ 2) _ D) as Z. refine (is_derive_ext_val _ _ _ _ _ Z). cbn; unfold scal; cbn; unfold mult; cbn. field.
Qed.
(** weights of the nodes but the first *)
Definition radau_rule (t0 t1 : R) (q : nat) (r : list R) (W : nat -> R) : Prop := (forall j, (j < q)%nat -> 0 < W j) /\
  forall c : list R, (length c <= 2 * q - 1)%nat -> Rsum q (fun j => W j * peval c (nth (S j) r 0)) = RInt (peval c) t0 t1.
Lemma radau_exists cf q (r : list R) : cfg_ok cf -> (1 <= q)%nat -> cf_scheme cf = "LGR"%string \/ q = 1%nat -> c_roots cf q = Ok r -> exists W, radau_rule (cf_tau0 cf) (cf_tau1 cf) q r W.
Proof.
  intros Hcf Hq Hs Er. pose proof (co_taus _ Hcf) as Ht. destruct (Nat.eq_dec q 1) as [->|Hq1].
  - exists (fun _ => cf_tau1 cf - cf_tau0 cf). split; [intros; lra|]. intros [|a [|b c]] Hc; [| |cbn in Hc; lia]; cbn [Rsum].
    + rewrite (RInt_ext _ (fun _ => 0)) by reflexivity. rewrite RInt_const. cbn. unfold scal; cbn; unfold mult; cbn. ring.
    + rewrite (RInt_ext _ (fun _ => a)) by (intros x _; cbn; ring). rewrite RInt_const. cbn. unfold scal; cbn; unfold mult; cbn. ring.
  - destruct Hs as [Hs|Hs]; [|contradiction]. destruct (lgr_weights cf q Hcf Hs ltac:(lia)) as (r' & w & Er' & Ew & H0 & HX).
    assert (r' = r) as -> by (pose proof (eq_trans (eq_sym Er') Er) as X; injection X as X; exact X).
    destruct (lgr_positive cf q Hcf Hs Hq) as (w' & Ew' & _ & _ & HP). assert (w' = w) as -> by (pose proof (eq_trans (eq_sym Ew') Ew) as X; injection X as X; exact X).
    exists (fun j => nth (S j) w 0). split; [intros j Hj; apply HP; lia|]. intros c Hc. rewrite <- (HX c Hc), Rsum_S_l. nred. rewrite H0. rewrite Rmult_0_l, Rplus_0_l. reflexivity.
Qed.
Lemma radau_key t0 t1 q (r : list R) W (d : list R) : good_nodes t0 t1 q r -> (1 <= q)%nat -> radau_rule t0 t1 q r W -> (length d <= S q)%nat ->
  peval d t1 * peval d t1 - peval d t0 * peval d t0 <= Rsum q (fun j => W j * (2 * (peval d (nth (S j) r 0) * peval (@pder Rnum d) (nth (S j) r 0)))).
Proof.
  intros Hg Hq (_ & HW) Ld. pose proof (good_nodup _ _ _ _ Hg) as Hnd. destruct Hg as (Lr & _ & R0 & R1).
  destruct r as [|r0 r]; [discriminate|]. apply NoDup_cons_iff in Hnd. destruct Hnd as (_ & Hnd'). assert (Lr' : length r = q) by (cbn in Lr; lia).
  destruct (interp_exists r (fun j => peval d (nth j r 0)) Hnd') as (e & Le & Ee).
  destruct (poly_minus d e (S q) Ld ltac:(lia)) as (u & Lu & Eu).
  destruct (product e (@pder Rnum d)) as (A & LA & EA). destruct (product u (@pder Rnum e)) as (B & LB & EB).
  set (S0 := @pmul Rnum u (@pder Rnum u)). set (D := @pmul Rnum d (@pder Rnum d)).
  assert (Ed' : forall x, peval (@pder Rnum u) x = peval (@pder Rnum d) x - peval (@pder Rnum e) x).
  { intros x. apply (is_derive_unique2 (peval u) x); [apply is_derive_peval|]. apply (is_derive_ext (fun x => peval d x - peval e x)); [intros t; symmetry; apply Eu|].
    exact (is_derive_minus (K := R_AbsRing) (V := R_NormedModule) (peval d) (peval e) x _ _ (is_derive_peval d x) (is_derive_peval e x)). }
  assert (Hu0 : forall j, (j < q)%nat -> peval u (nth j r 0) = 0) by (intros j Hj; rewrite Eu, (Ee j) by lia; ring).
  assert (ED : forall x, peval D x = peval (@padd Rnum A (@padd Rnum B S0)) x).
  { intros x. unfold D, S0. rewrite !peval_padd, !peval_pmul, EA, EB, Ed', Eu. nred. ring. }
  assert (Lpd : (length (@pder Rnum d) <= q)%nat) by (apply length_pder; exact Ld).
  assert (Lpe : (length (@pder Rnum e) <= q - 1)%nat) by (apply length_pder; lia).
  assert (IA : RInt (peval A) t0 t1 = Rsum q (fun j => W j * (peval d (nth j r 0) * peval (@pder Rnum d) (nth j r 0)))).
  { rewrite <- (HW A) by (clear - LA Le Lr' Lpd Hq; nred; lia). apply Rsum_ext. intros j Hj. cbn [nth]. rewrite EA, (Ee j) by (rewrite Lr'; exact Hj). reflexivity. }
  assert (IB : RInt (peval B) t0 t1 = 0).
  { rewrite <- (HW B) by (clear - LB Lu Lpe Hq; nred; lia). apply Rsum_0. intros j Hj. cbn [nth]. rewrite EB, Hu0 by exact Hj. ring. }
  pose proof (square_int d D t0 t1 (fun x => peval_pmul d _ x)) as ID.
  pose proof (square_int u S0 t0 t1 (fun x => peval_pmul u _ x)) as IS.
  assert (Hsum : RInt (peval D) t0 t1 = RInt (peval A) t0 t1 +
    (RInt (peval B) t0 t1 + RInt (peval S0) t0 t1)).
  { rewrite (RInt_ext (peval D) (fun x => peval A x + (peval B x + peval S0 x))) by (intros x _; rewrite ED, !peval_padd; reflexivity).
    apply is_RInt_unique. apply (is_RInt_plus (V := R_NormedModule)); [apply (RInt_correct (V := R_CompleteNormedModule)), ex_RInt_peval|].
    apply (is_RInt_plus (V := R_NormedModule)); apply (RInt_correct (V := R_CompleteNormedModule)), ex_RInt_peval. }
  assert (U1 : peval u t1 = 0).
  { rewrite <- R1. destruct q as [|m]; [lia|]. cbn [nth]. apply Hu0. lia. }
  rewrite IA, IB, ID, IS, U1 in Hsum. pose proof (Rle_0_sqr (peval u t0)) as P. unfold Rsqr in P.
  apply Rle_trans with (2 * Rsum q (fun j => W j * (peval d (nth j r 0) * peval (@pder Rnum d) (nth j r 0)))); [lra|].
  rewrite <- Rsum_scal. apply Req_le, Rsum_ext. intros j Hj. cbn [nth]. ring.
Qed.
Lemma gap2_pos o y y' i : 0 <= gap2 o y y' i.
Proof. apply Rsum_nonneg. intros s _. apply Rle_0_sqr. Qed.
Lemma gap2_zero o y y' i : (forall s, (s < o_nx o)%nat -> y_x y i s = y_x y' i s) -> gap2 o y y' i = 0.
Proof. intros H. apply Rsum_0. intros s Hs. rewrite (H s Hs). ring. Qed.
Lemma same_or n (f g : nat -> R) : (forall s, (s < n)%nat -> f s = g s) \/ exists s, (s < n)%nat /\ f s <> g s.
Proof.
  induction n as [|n [H|(s & Hs & H)]]; [left; intros; lia| |right; exists s; split; [lia|exact H]].
  destruct (Req_dec (f n) (g n)) as [E|E]; [left|right; exists n; split; [lia|exact E]]. intros s Hs. destruct (Nat.eq_dec s n) as [->|]; [exact E|]. apply H. lia.
Qed.
Lemma strict_weak o ph a t0 tf : strictly_dissipative o ph a t0 tf -> dissipative o ph a t0 tf.
Proof.
  intros H t u x x' Ht. destruct (same_or (o_nx o) x x') as [E|E]; [|left; exact (H t u x x' Ht E)]. apply Req_le, Rsum_0. intros s Hs. rewrite (E s Hs). ring.
Qed.
Section Two.
Variables (mp : mpo Rnum) (rs : list (list R)) (w : nat -> R) (ph : nat) (y : utraj) (x2 u2 : nat -> nat -> R).
Let o := mp_ocp mp.
Let cf := mp_cf mp.
Let orders := mp_orders mp.
Let y2 := Utraj x2 u2 (y_t0 y) (y_tf y) (y_a y).
Hypothesis Hcf : cfg_ok cf.
Hypothesis Hpos : forall q, In q orders -> (1 <= q)%nat.
Hypothesis Hsch : forall q, In q orders -> cf_scheme cf = "LGR"%string \/ q = 1%nat.
Hypothesis Hroot : forall k q, nth_error orders k = Some q -> c_roots cf q = Ok (nth k rs []).
Hypothesis Hgood : forall k q, nth_error orders k = Some q -> good_nodes (cf_tau0 cf) (cf_tau1 cf) q (nth k rs []).
Hypothesis Hw : forall k, (k < length orders)%nat -> 0 < w k.
Hypothesis Hsum : Rsum (length orders) w = 1.
Hypothesis Hy : y_t0 y < y_tf y.
Hypothesis D1 : dynamics_ok mp rs w ph y.
Hypothesis D2 : dynamics_ok mp rs w ph y2.
Hypothesis Hu : forall i c, (i < total_nodes orders)%nat -> (c < o_nu o)%nat -> y_u y i c = u2 i c.
Let T k j := seg_time cf w y k (nth (S j) (nth k rs []) 0).
Let inn k j := let i := (offset orders k + S j)%nat in
  dotdiff (o_nx o) (y_x y i) (x2 i) (fun s => nth s (rhs o ph (a_of o y) (y_x y i) (y_u y i) (T k j)) 0) (fun s => nth s (rhs o ph (a_of o y) (x2 i) (y_u y i) (T k j)) 0).
Lemma T_in k q j : nth_error orders k = Some q -> (j < q)%nat -> y_t0 y <= T k j <= y_tf y.
Proof.
  intros Eq Hj. apply (T_range mp w y (co_taus _ Hcf) Hw Hsum Hy k _ (MeshR.nth_error_lt _ _ _ Eq)). apply (good_range _ _ q); [exact (co_taus _ Hcf)|exact (Hgood k q Eq)|lia].
Qed.
Lemma seg_gapW k q W : nth_error orders k = Some q -> radau_rule (cf_tau0 cf) (cf_tau1 cf) q (nth k rs []) W ->
  gap2 o y y2 (offset orders (S k)) <= gap2 o y y2 (offset orders k) + Rsum q (fun j => W j * (2 * seg_h cf w y k) * inn k j).
Proof.
  intros Eq HW. pose proof (MeshR.nth_error_lt _ _ _ Eq) as Hk. set (b := offset orders k) in *. set (r := nth k rs []) in *. pose proof (Hgood k q Eq) as Hg. fold r in Hg.
  pose proof (nth_error_In _ _ Eq) as Hin. pose proof HW as (HW0 & _).
  pose proof (h_pos mp w y (co_taus _ Hcf) Hw Hy k Hk) as Hh. fold cf in Hh. set (h := seg_h cf w y k) in *.
  assert (Lr : length r = S q) by apply Hg. pose proof (good_nodup _ _ _ _ Hg) as Hnd.
  assert (Key : forall s, (s < o_nx o)%nat -> (y_x y (b + q)%nat s - x2 (b + q)%nat s) * (y_x y (b + q)%nat s - x2 (b + q)%nat s) - (y_x y b s - x2 b s) * (y_x y b s - x2 b s) <=
    Rsum q (fun j => W j * (2 * h) * ((y_x y (b + S j)%nat s - x2 (b + S j)%nat s) *
      (nth s (rhs o ph (a_of o y) (y_x y (b + S j)%nat) (y_u y (b + S j)%nat) (T k j)) 0 - nth s (rhs o ph (a_of o y) (x2 (b + S j)%nat) (y_u y (b + S j)%nat) (T k j)) 0)))).
  { intros s Hs. destruct (interp_exists r (fun j => y_x y (b + j)%nat s) Hnd) as (c & Lc & Ec). destruct (interp_exists r (fun j => x2 (b + j)%nat s) Hnd) as (c2 & Lc2 & Ec2).
    destruct (poly_minus c c2 (S q)) as (d & Ld & Ed); [rewrite <- Lr; exact Lc|rewrite <- Lr; exact Lc2|].
    assert (Ed' : forall x, peval (@pder Rnum d) x = peval (@pder Rnum c) x - peval (@pder Rnum c2) x).
    { intros x. apply (is_derive_unique2 (peval d) x); [apply is_derive_peval|]. apply (is_derive_ext (fun x => peval c x - peval c2 x)); [intros t; symmetry; apply Ed|].
      exact (is_derive_minus (K := R_AbsRing) (V := R_NormedModule) (peval c) (peval c2) x _ _ (is_derive_peval c x) (is_derive_peval c2 x)). }
    assert (Ev : forall j, (j <= q)%nat -> peval d (nth j r 0) = y_x y (b + j)%nat s - x2 (b + j)%nat s) by (intros j Hj; rewrite Ed, (Ec j), (Ec2 j) by (rewrite Lr; lia); reflexivity).
    pose proof (radau_key _ _ q r W d Hg (Hpos q Hin) HW Ld) as X. destruct Hg as (_ & _ & R0 & R1). rewrite <- R0, <- R1 in X. rewrite (Ev q (le_n q)), (Ev 0%nat (Nat.le_0_l q)), Nat.add_0_r in X.
    eapply Rle_trans; [exact X|]. apply Req_le, Rsum_ext. intros j Hj. rewrite (Ev (S j) Hj), Ed'.
    assert (Hown : owned orders (b + S j) k (S j)) by (exists q; repeat split; auto; lia).
    pose proof (D1 _ k (S j) s c Hown Hs (conj Lc Ec)) as X1. pose proof (D2 _ k (S j) s c2 Hown Hs (conj Lc2 Ec2)) as X2.
    pose proof (is_derive_unique2 _ _ _ _ (is_derive_peval c (nth (S j) r 0)) X1) as Y1. pose proof (is_derive_unique2 _ _ _ _ (is_derive_peval c2 (nth (S j) r 0)) X2) as Y2.
    change (peval (@pder Rnum c) (nth (S j) r 0) = h * nth s (rhs o ph (a_of o y) (y_x y (b + S j)%nat) (y_u y (b + S j)%nat) (T k j)) 0) in Y1.
    change (peval (@pder Rnum c2) (nth (S j) r 0) = h * nth s (rhs o ph (a_of o y) (x2 (b + S j)%nat) (u2 (b + S j)%nat) (T k j)) 0) in Y2.
    assert (EU : rhs o ph (a_of o y) (x2 (b + S j)%nat) (u2 (b + S j)%nat) (T k j) = rhs o ph (a_of o y) (x2 (b + S j)%nat) (y_u y (b + S j)%nat) (T k j)).
    { unfold rhs. rewrite (ResidThm.vec_ext (o_nu o) (u2 (b + S j)%nat) (y_u y (b + S j)%nat)); [reflexivity|]. intros c' Hc'. symmetry. apply Hu; [exact (owned_lt _ _ _ _ Hown)|exact Hc']. }
    rewrite EU in Y2. rewrite Y1, Y2. ring. }
  rewrite (offset_S _ _ _ Eq). fold b. unfold gap2, dotdiff. cbn [y_x y2].
  apply Rplus_le_reg_l with (- Rsum (o_nx o) (fun s => (y_x y b s - x2 b s) * (y_x y b s - x2 b s))). rewrite <- Rplus_assoc, Rplus_opp_l, Rplus_0_l, Rplus_comm.
  change (Rsum (o_nx o) (fun s => (y_x y (b + q)%nat s - x2 (b + q)%nat s) * (y_x y (b + q)%nat s - x2 (b + q)%nat s)) - Rsum (o_nx o) (fun s => (y_x y b s - x2 b s) * (y_x y b s - x2 b s)) <= Rsum q (fun j => W j * (2 * h) * inn k j)).
  rewrite <- Rsum_minus. eapply Rle_trans; [apply Rsum_le; exact Key|]. rewrite Rsum_exchange. apply Req_le, Rsum_ext. intros j Hj. rewrite Rsum_scal. reflexivity.
Qed.
Lemma seg_gap k q : nth_error orders k = Some q -> exists W, (forall j, (j < q)%nat -> 0 < W j) /\
  gap2 o y y2 (offset orders (S k)) <= gap2 o y y2 (offset orders k) + Rsum q (fun j => W j * inn k j).
Proof.
  intros Eq. pose proof (nth_error_In _ _ Eq) as Hin. destruct (radau_exists cf q (nth k rs []) Hcf (Hpos q Hin) (Hsch q Hin) (Hroot k q Eq)) as (W & HW).
  exists (fun j => W j * (2 * seg_h cf w y k)). split; [|exact (seg_gapW k q W Eq HW)].
  intros j Hj. apply Rmult_lt_0_compat; [exact (proj1 HW j Hj)|]. pose proof (h_pos mp w y (co_taus _ Hcf) Hw Hy k (MeshR.nth_error_lt _ _ _ Eq)) as Hh. fold cf in Hh. lra.
Qed.
Lemma ends_gap : dissipative o ph (a_of o y) (y_t0 y) (y_tf y) -> forall k k', (k <= k')%nat -> (k' <= length orders)%nat -> gap2 o y y2 (offset orders k') <= gap2 o y y2 (offset orders k).
Proof.
  intros Hd k k' H. induction H as [|m H IH]; intros Hk; [apply Rle_refl|]. eapply Rle_trans; [|apply IH; lia].
  destruct (nth_error orders m) as [q|] eqn:Eq; [|apply nth_error_None in Eq; lia]. destruct (seg_gap m q Eq) as (W & HW & X). eapply Rle_trans; [exact X|].
  assert (G : Rsum q (fun j => W j * inn m j) <= Rsum q (fun _ => 0)).
  { apply Rsum_le. intros j Hj. pose proof (HW j Hj). pose proof (Hd (T m j) (y_u y (offset orders m + S j)%nat) (y_x y (offset orders m + S j)%nat) (x2 (offset orders m + S j)%nat) (T_in m q j Eq Hj)) as P.
    change (inn m j <= 0) in P. nra. }
  rewrite (Rsum_0 q (fun _ => 0)) in G by reflexivity. lra.
Qed.
Lemma all_equal : strictly_dissipative o ph (a_of o y) (y_t0 y) (y_tf y) -> (forall s, (s < o_nx o)%nat -> y_x y 0 s = x2 0%nat s) ->
  forall i s, (i < total_nodes orders)%nat -> (s < o_nx o)%nat -> y_x y i s = x2 i s.
Proof.
  intros Hd H0. assert (G : forall k, (k <= length orders)%nat -> forall i s, (i <= offset orders k)%nat -> (s < o_nx o)%nat -> y_x y i s = x2 i s).
  { induction k as [|k IH]; intros Hk i s Hi Hs.
    - rewrite offset_0 in Hi. assert (i = 0)%nat as -> by lia. exact (H0 s Hs).
    - destruct (nth_error orders k) as [q|] eqn:Eq; [|apply nth_error_None in Eq; lia]. rewrite (offset_S _ _ _ Eq) in Hi.
      destruct (Nat.le_gt_cases i (offset orders k)) as [X|X]; [apply IH; [lia|exact X|exact Hs]|].
      destruct (seg_gap k q Eq) as (W & HW & HG). rewrite (gap2_zero o y y2 (offset orders k)) in HG by (intros s' Hs'; apply IH; [lia|lia|exact Hs']).
      pose proof (gap2_pos o y y2 (offset orders (S k))) as P. set (j := (i - offset orders k - 1)%nat). assert (Hj : (j < q)%nat) by (unfold j; lia).
      assert (Ei : (offset orders k + S j)%nat = i) by (unfold j; lia).
      destruct (same_or (o_nx o) (y_x y i) (x2 i)) as [E|E]; [exact (E s Hs)|]. exfalso.
      assert (N : Rsum q (fun j => W j * inn k j) < Rsum q (fun _ => 0)).
      { apply (Rsum_lt q _ _ j Hj).
        - intros j' Hj'. pose proof (HW j' Hj'). pose proof (strict_weak _ _ _ _ _ Hd (T k j') (y_u y (offset orders k + S j')%nat) (y_x y (offset orders k + S j')%nat) (x2 (offset orders k + S j')%nat) (T_in k q j' Eq Hj')) as Q.
          change (inn k j' <= 0) in Q. nra.
        - rewrite <- Ei in E. pose proof (HW j Hj). pose proof (Hd (T k j) (y_u y (offset orders k + S j)%nat) (y_x y (offset orders k + S j)%nat) (x2 (offset orders k + S j)%nat) (T_in k q j Eq Hj) E) as Q.
          change (inn k j < 0) in Q. nra. }
      rewrite (Rsum_0 q (fun _ => 0)) in N by reflexivity. lra. }
  intros i s Hi Hs. apply (G (length orders) (le_n _)); [unfold total_nodes in Hi; lia|exact Hs].
Qed.
End Two.
Theorem contract_thm mp npath nterm (z z' p : list R) n n' ph : input_ok mp npath nterm z p -> input_ok mp npath nterm z' p -> widths_ok (mp_nseg mp) (o_nph (mp_ocp mp)) p ->
  nlp_at mp z p = Ok n -> nlp_at mp z' p = Ok n' -> feasible n -> feasible n' -> (ph < o_nph (mp_ocp mp))%nat -> (forall q, In q (mp_orders mp) -> cf_scheme (mp_cf mp) = "LGR"%string \/ q = 1%nat) ->
  let o := mp_ocp mp in let y := user_traj mp z ph in let y' := user_traj mp z' ph in y_t0 y < y_tf y ->
    y_t0 y' = y_t0 y -> y_tf y' = y_tf y -> (forall i, (i < o_na o)%nat -> y_a y' i = y_a y i) -> (forall i c, (i < total_nodes (mp_orders mp))%nat -> (c < o_nu o)%nat -> y_u y i c = y_u y' i c) ->
    (dissipative o ph (a_of o y) (y_t0 y) (y_tf y) -> forall k k', (k <= k')%nat -> (k' <= length (mp_orders mp))%nat -> gap2 o y y' (offset (mp_orders mp) k') <= gap2 o y y' (offset (mp_orders mp) k)) /\
    (strictly_dissipative o ph (a_of o y) (y_t0 y) (y_tf y) -> (forall s, (s < o_nx o)%nat -> y_x y 0 s = y_x y' 0 s) -> same_traj mp y' y).
Proof.
  intros Hin Hin' Hw En En' Hf Hf' Hph Hsch o y y' Hy E1 E2 E3 E4.
  destruct (nlp_like _ _ _ _ _ (user_traj mp z) Hin (fun ph _ => same_refl _ _)) as (rs & m & R1 & R2 & _ & R3 & _).
  assert (m = n) as -> by (pose proof (eq_trans (eq_sym R2) En) as X; injection X as X; exact X). apply R3 in Hf. destruct Hf as (_ & Hp & _). destruct (Hp ph Hph) as (Hdyn & _).
  destruct (nlp_like _ _ _ _ _ (user_traj mp z') Hin' (fun ph _ => same_refl _ _)) as (rs' & m' & R1' & R2' & R4 & R3' & _).
  assert (m' = n') as -> by (pose proof (eq_trans (eq_sym R2') En') as X; injection X as X; exact X). apply R3' in Hf'. destruct Hf' as (_ & Hp' & _). destruct (Hp' ph Hph) as (Hdyn' & _).
  assert (rs' = rs) as -> by (pose proof (eq_trans (eq_sym R1') R1) as X; injection X as X; exact X).
  set (y2 := Utraj (y_x y') (y_u y') (y_t0 y) (y_tf y) (y_a y)).
  assert (HS : same_traj mp y' y2) by (split; [reflexivity|]; split; [reflexivity|]; split; [exact E1|]; split; [exact E2|exact E3]).
  assert (Hdyn2 : dynamics_ok mp rs (width mp p ph) ph y2) by exact (dynamics_congr mp rs (width mp p ph) ph R4 y' y2 HS Hdyn').
  pose proof (in_mpo _ _ _ _ _ Hin) as Hmp. destruct (part_widths mp p Hmp Hw ph Hph) as (W1 & W2).
  assert (Hg : forall k q, nth_error (mp_orders mp) k = Some q -> good_nodes (cf_tau0 (mp_cf mp)) (cf_tau1 (mp_cf mp)) q (nth k rs [])).
  { intros k q Eq. apply (rs_good mp npath nterm z p Hin rs R1 k q _ Eq). apply nth_error_nth'. exact (Nat.lt_le_trans _ _ _ (MeshR.nth_error_lt _ _ _ Eq) (Nat.eq_le_incl _ _ (eq_sym (rs_len mp rs R1)))). }
  split.
  - exact (ends_gap mp rs (width mp p ph) ph y (y_x y') (y_u y') (mo_cfg _ Hmp) (mo_pos _ Hmp) Hsch (rs_root mp rs R1) Hg W1 W2 Hy Hdyn Hdyn2 E4).
  - intros Hd H0. pose proof (all_equal mp rs (width mp p ph) ph y (y_x y') (y_u y') (mo_cfg _ Hmp) (mo_pos _ Hmp) Hsch (rs_root mp rs R1) Hg W1 W2 Hy Hdyn Hdyn2 E4 Hd H0) as G.
    split; [intros i s Hi Hs; symmetry; exact (G i s Hi Hs)|]. split; [intros i c Hi Hc; symmetry; exact (E4 i c Hi Hc)|]. split; [exact E1|]. split; [exact E2|exact E3].
Qed.
