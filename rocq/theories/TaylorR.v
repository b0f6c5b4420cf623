(** Taylor polynomials and the errors of interpolation, differentiation and integration at nodes (proofs of C62). *)
From Coq Require Import Reals Lia Lra Bool Arith String.
From Coquelicot Require Import Coquelicot.
From Coq Require Import List.
From Verif Require Import Num PyList Mat Poly Roots Colloc Spec SpecOcp SpecSmooth NumR ListR PolyR CollocR CompR CollocThm BlockR NlpThm BalanceR ConvexR DualR.
Import ListNotations.
Open Scope R_scope.

Lemma peval_snoc l a x : peval (l ++ [a]) x = peval l x + a * x ^ length l.
Proof. induction l as [|b l IH]; cbn [app peval length pow]; [ring|]. rewrite IH. ring. Qed.
Lemma peval_seq (g : nat -> R) n x : peval (map g (seq 0 n)) x = Rsum n (fun m => g m * x ^ m).
Proof.
  induction n as [|n IH]; [reflexivity|]. rewrite seq_S, map_app. cbn [map Nat.add]. rewrite peval_snoc, IH, map_length, seq_length. reflexivity.
Qed.
Definition tay (f : R -> R) (n : nat) (a : R) : list R := map (fun m => Derive_n f m a / INR (fact m)) (seq 0 (S n)).
Lemma length_tay f n a : length (tay f n a) = S n.
Proof. unfold tay. rewrite map_length, seq_length. reflexivity. Qed.
Lemma sum_Rsum f n : sum_f_R0 f n = Rsum (S n) f.
Proof. induction n as [|n IH]; cbn [sum_f_R0 Rsum] in *; [ring|]. rewrite IH. reflexivity. Qed.
Lemma fact_pos n : 0 < INR (fact n).
Proof. apply lt_0_INR, lt_O_fact. Qed.
Lemma fact_ge1 n : 1 <= INR (fact n).
Proof. change 1 with (INR 1). apply le_INR. pose proof (lt_O_fact n). lia. Qed.
Lemma Derive_n_S f k t : Derive_n (Derive f) k t = Derive_n f (S k) t.
Proof. change (Derive f) with (Derive_n f 1). rewrite Derive_n_comp. f_equal. lia. Qed.
Lemma pow_le_pow x y n : 0 <= x <= y -> x ^ n <= y ^ n.
Proof. apply pow_incr. Qed.
(** value *)
Lemma taylor_value f a b n M t : smooth f a b (S n) M -> a <= t <= b -> Rabs (f t - peval (tay f n a) (t - a)) <= M * (t - a) ^ S n.
Proof.
  intros Hs Ht. assert (HM : 0 <= M) by (pose proof (proj2 (Hs a ltac:(lra))); pose proof (Rabs_pos (Derive_n f (S n) a)); lra).
  destruct (Rle_lt_or_eq_dec a t (proj1 Ht)) as [Hlt| <-].
  - destruct (Taylor_Lagrange f n a t Hlt) as (zt & Hz & E); [intros u Hu k Hk; apply (Hs u ltac:(lra)); exact Hk|].
    unfold tay. rewrite peval_seq. rewrite E, sum_Rsum.
    rewrite (Rsum_ext (S n) (fun m => (t - a) ^ m / INR (fact m) * Derive_n f m a) (fun m => Derive_n f m a / INR (fact m) * (t - a) ^ m)) by (intros m _; pose proof (fact_pos m); field; lra).
    match goal with |- Rabs (?A + ?B - ?C) <= _ => replace (A + B - C) with B by ring end.
    rewrite Rabs_mult. pose proof (proj2 (Hs zt ltac:(lra))) as Hb.
    assert (E1 : Rabs ((t - a) ^ S n / INR (fact (S n))) <= (t - a) ^ S n).
    { assert (P : 0 <= (t - a) ^ S n) by (apply pow_le; lra). pose proof (fact_ge1 (S n)) as F. rewrite Rabs_pos_eq; [|apply Rmult_le_pos; [exact P|apply Rlt_le, Rinv_0_lt_compat; lra]].
      apply Rmult_le_reg_r with (INR (fact (S n))); [lra|]. unfold Rdiv. rewrite Rmult_assoc, Rinv_l by lra. nra. }
    rewrite Rmult_comm. apply Rmult_le_compat; try apply Rabs_pos; assumption.
  - replace (a - a) with 0 by ring. unfold tay. cbn [seq map peval]. cbn [Derive_n fact]. change (INR 1) with 1.
    match goal with |- Rabs ?e <= _ => replace e with 0 by (field) end. rewrite Rabs_R0. apply Rmult_le_pos; [exact HM|]. rewrite pow_ne_zero by lia. lra.
Qed.
(** the Taylor polynomial of the derivative *)
Lemma tay_derive f n a x : Derive (peval (tay f (S n) a)) x = peval (tay (Derive f) n a) x.
Proof.
  apply is_derive_unique. apply is_derive_ext with (f := fun x => Rsum (S (S n)) (fun m => Derive_n f m a / INR (fact m) * x ^ m)); [intros t; symmetry; unfold tay; apply peval_seq|].
  evar_last.
  - apply (is_derive_Rsum (S (S n)) (fun m x => Derive_n f m a / INR (fact m) * x ^ m) (fun m => Derive_n f m a / INR (fact m) * (INR m * x ^ pred m))). intros m _.
    auto_derive; [exact I|]. ring.
  - rewrite Rsum_S_l. change (INR 0) with 0. unfold tay. rewrite peval_seq. rewrite (Rsum_ext (S n) _ (fun m => Derive_n (Derive f) m a / INR (fact m) * x ^ m)); [ring|].
    intros m _. rewrite Derive_n_S. cbn [pred]. change (fact (S m)) with (S m * fact m)%nat. rewrite mult_INR. pose proof (fact_pos m). pose proof (lt_0_INR (S m) ltac:(lia)). field. lra.
Qed.
Lemma smooth_derive f a b n M : smooth f a b (S n) M -> smooth (Derive f) a b n M.
Proof.
  intros H t Ht. destruct (H t Ht) as [A B]. split.
  - intros [|k] Hk; [exact I|]. pose proof (A (S (S k)) ltac:(lia)) as X. cbn [ex_derive_n] in X |- *.
    eapply ex_derive_ext; [|exact X]. intros u. cbn beta. symmetry. apply Derive_n_S.
  - rewrite Derive_n_S. exact B.
Qed.
Lemma taylor_slope f a b n M t : smooth f a b (S (S n)) M -> a <= t <= b -> Rabs (Derive f t - Derive (peval (tay f (S n) a)) (t - a)) <= M * (t - a) ^ S n.
Proof. intros Hs Ht. rewrite tay_derive. apply (taylor_value (Derive f) a b n M t); [|exact Ht]. apply smooth_derive. exact Hs. Qed.

(** ** bounds on linear functionals *)
Lemma Rsum_abs n f : Rabs (Rsum n f) <= Rsum n (fun k => Rabs (f k)).
Proof. induction n as [|n IH]; cbn [Rsum]; [rewrite Rabs_R0; lra|]. eapply Rle_trans; [apply Rabs_triang|]. lra. Qed.
Definition msize (D : mat Rnum) : R := Rsum (nr D) (fun i => Rsum (nc D) (fun j => Rabs (mget D i j))).
Lemma msize_nonneg D : 0 <= msize D.
Proof. apply Rsum_nonneg. intros i _. apply Rsum_nonneg. intros j _. apply Rabs_pos. Qed.
Lemma row_bound D i ys B : (i < nr D)%nat -> (forall j, (j < nc D)%nat -> Rabs (ys j) <= B) -> 0 <= B -> Rabs (row_dot D i ys) <= msize D * B.
Proof.
  intros Hi Hy HB. unfold row_dot. eapply Rle_trans; [apply Rsum_abs|].
  apply Rle_trans with (Rsum (nc D) (fun j => Rabs (mget D i j)) * B).
  - rewrite <- Rsum_scal_r. apply Rsum_le. intros j Hj. rewrite Rabs_mult. apply Rmult_le_compat_l; [apply Rabs_pos|]. apply Hy. exact Hj.
  - apply Rmult_le_compat_r; [exact HB|]. unfold msize.
    assert (G : forall n (f : nat -> R), (forall k, (k < n)%nat -> 0 <= f k) -> (i < n)%nat -> f i <= Rsum n f).
    { induction n as [|n IH]; [lia|]. intros f Hf Hin. cbn [Rsum]. destruct (Nat.eq_dec i n) as [->|].
      - pose proof (Rsum_nonneg n f ltac:(intros; apply Hf; lia)). lra.
      - pose proof (IH f ltac:(intros; apply Hf; lia) ltac:(lia)). pose proof (Hf n ltac:(lia)). lra. }
    apply (G (nr D) (fun i => Rsum (nc D) (fun j => Rabs (mget D i j)))); [|exact Hi]. intros k _. apply Rsum_nonneg. intros j _. apply Rabs_pos.
Qed.
(** polynomials small at the nodes have small slopes there and small values at given points *)
Lemma node_bounds (cf : ccfg Rnum) (r pts : list R) : NoDup r -> exists C, 0 <= C /\ forall c B, (length c <= length r)%nat -> 0 <= B ->
  (forall j, (j < length r)%nat -> Rabs (peval c (nth j r 0)) <= B) ->
  (forall j, (j < length r)%nat -> Rabs (Derive (peval c) (nth j r 0)) <= C * B) /\
  (forall j, (j < length pts)%nat -> Rabs (peval c (nth j pts 0)) <= C * B).
Proof.
  intros Hnd. destruct (diff1_exact cf r r Hnd) as (D & _ & Dr & Dc & HD). destruct (interp_exact cf r pts Hnd) as (I & _ & Ir & Ic & HI).
  exists (msize D + msize I). pose proof (msize_nonneg D) as P1. pose proof (msize_nonneg I) as P2. split; [lra|]. intros c B Hc HB Hv. split; intros j Hj.
  - rewrite (is_derive_unique _ _ _ (HD c j Hc Hj)). eapply Rle_trans; [apply (row_bound D j _ B); [rewrite Dr; exact Hj| |exact HB]|nra].
    rewrite Dc. exact Hv.
  - rewrite <- (HI c j Hc Hj). eapply Rle_trans; [apply (row_bound I j _ B); [rewrite Ir; exact Hj| |exact HB]|nra]. rewrite Ic. exact Hv.
Qed.
Lemma poly_minus (a b : list R) m : (length a <= m)%nat -> (length b <= m)%nat -> exists c, (length c <= m)%nat /\ forall x, peval c x = peval a x - peval b x.
Proof.
  intros Ha Hb. exists (@padd Rnum a (@pscale Rnum (-1) b)). split; [rewrite length_padd; unfold pscale; rewrite map_length; nred; lia|]. intros x. rewrite peval_padd, peval_pscale. nred. ring.
Qed.
Lemma abs_le_trans3 a b c B1 B2 : Rabs (a - b) <= B1 -> Rabs (b - c) <= B2 -> Rabs (a - c) <= B1 + B2.
Proof. intros H1 H2. replace (a - c) with ((a - b) + (b - c)) by ring. eapply Rle_trans; [apply Rabs_triang|]. lra. Qed.

(** one segment: reference coordinates [t0, t1], time a + h (x - t0) *)
Lemma segment_error (cf : ccfg Rnum) (t0 t1 : R) (q : nat) (r pts : list R) : t0 < t1 -> (1 <= q)%nat -> good_nodes t0 t1 q r -> (forall x, In x pts -> t0 <= x <= t1) ->
  exists C, 0 <= C /\ forall f a h M c, 0 < h -> smooth f a (a + h * (t1 - t0)) (S q) M ->
    interpolates c r (fun j => f (a + h * (nth j r 0 - t0))) ->
    (forall j, (j <= q)%nat -> Rabs (Derive (peval c) (nth j r 0) - h * Derive f (a + h * (nth j r 0 - t0))) <= C * M * (h * (t1 - t0)) ^ S q) /\
    (forall j, (j < length pts)%nat -> Rabs (peval c (nth j pts 0) - f (a + h * (nth j pts 0 - t0))) <= C * M * (h * (t1 - t0)) ^ S q).
Proof.
  intros Ht Hq Hg Hp. assert (Hrange : forall j, (j <= q)%nat -> t0 <= nth j r 0 <= t1).
  { intros j Hj. destruct Hg as (L & I & A & B). split.
    - destruct j as [|j]; [rewrite A; lra|]. rewrite <- A. apply Rlt_le, I. lia.
    - destruct (Nat.eq_dec j q) as [->|]; [rewrite B; lra|]. rewrite <- B. apply Rlt_le, I. lia. }
  assert (Hnd : NoDup r) by (exact (good_nodup _ _ _ _ Hg)). destruct Hg as (Lr & _).
  destruct (node_bounds cf r pts Hnd) as (C & HC & HB). exists (C + / (t1 - t0) + 1).
  assert (Hi : 0 < / (t1 - t0)) by (apply Rinv_0_lt_compat; lra). split; [lra|]. intros f a h M c Hh Hs [Lc Ec].
  set (dur := h * (t1 - t0)). assert (Hdur : 0 < dur) by (apply Rmult_lt_0_compat; lra). fold dur in Hs.
  assert (HM : 0 <= M) by (pose proof (proj2 (Hs a ltac:(lra))); pose proof (Rabs_pos (Derive_n f (S q) a)); lra).
  assert (HT : forall x, t0 <= x <= t1 -> a <= a + h * (x - t0) <= a + dur) by (intros x Hx; unfold dur; split; nra).
  set (tl := tay f q a). destruct (poly_affine tl (- (h * t0)) h) as (d & Ld & Ed).
  assert (Ed' : forall x, peval d x = peval tl (a + h * (x - t0) - a)) by (intros x; rewrite Ed; f_equal; ring).
  assert (Llt : length tl = S q) by apply length_tay.
  destruct (poly_minus c d (S q)) as (e & Le & Ee); [lia|lia|].
  assert (Hpow : forall x n, t0 <= x <= t1 -> (a + h * (x - t0) - a) ^ n <= dur ^ n) by (intros x n Hx; apply pow_incr; pose proof (HT x Hx); lra).
  assert (Hval : forall x, t0 <= x <= t1 -> Rabs (f (a + h * (x - t0)) - peval d x) <= M * dur ^ S q).
  { intros x Hx. rewrite Ed'. eapply Rle_trans; [apply (taylor_value f a (a + dur) q M); [exact Hs|apply HT; exact Hx]|]. apply Rmult_le_compat_l; [exact HM|]. apply Hpow. exact Hx. }
  assert (HP : 0 <= M * dur ^ S q) by (apply Rmult_le_pos; [exact HM|apply pow_le; lra]).
  destruct (HB e (M * dur ^ S q)) as [B1 B2]; [lia|exact HP| |].
  { intros j Hj. rewrite Ee, (Ec j Hj). apply Hval. apply Hrange. lia. }
  split; intros j Hj.
  - apply Rle_trans with (C * (M * dur ^ S q) + / (t1 - t0) * (M * dur ^ S q)); [|nra].
    apply (abs_le_trans3 _ (Derive (peval d) (nth j r 0))).
    + replace (Derive (peval c) (nth j r 0) - Derive (peval d) (nth j r 0)) with (Derive (peval e) (nth j r 0)); [apply B1; lia|].
      rewrite (Derive_ext (peval e) (fun x => peval c x - peval d x) _ Ee). apply Derive_minus; apply ex_derive_peval.
    + assert (E : Derive (peval d) (nth j r 0) = h * Derive (peval tl) (a + h * (nth j r 0 - t0) - a)).
      { rewrite (Derive_ext (peval d) (fun x => peval tl (a + h * (x - t0) - a)) _ Ed'). apply is_derive_unique. evar_last.
        - apply (is_derive_comp (peval tl) (fun x => a + h * (x - t0) - a)); [apply Derive_correct, ex_derive_peval|auto_derive; [exact I|reflexivity]].
        - unfold scal; cbn; unfold mult; cbn. ring. }
      rewrite E. rewrite <- Rmult_minus_distr_l, Rabs_mult, (Rabs_pos_eq h) by lra. rewrite Rabs_minus_sym.
      assert (Hx := Hrange j ltac:(lia)). destruct q as [|n]; [lia|].
      assert (G : Rabs (Derive f (a + h * (nth j r 0 - t0)) - Derive (peval tl) (a + h * (nth j r 0 - t0) - a)) <= M * dur ^ S n).
      { eapply Rle_trans; [apply (taylor_slope f a (a + dur) n M); [exact Hs|apply HT; exact Hx]|]. apply Rmult_le_compat_l; [exact HM|]. apply Hpow. exact Hx. }
      replace (/ (t1 - t0) * (M * dur ^ S (S n))) with (h * (M * dur ^ S n)); [apply Rmult_le_compat_l; [lra|exact G]|].
      change (dur ^ S (S n)) with (dur * dur ^ S n). generalize (dur ^ S n). intros X. unfold dur. field. lra.
  - apply Rle_trans with (C * (M * dur ^ S q) + 1 * (M * dur ^ S q)); [|nra].
    apply (abs_le_trans3 _ (peval d (nth j pts 0))); [rewrite <- Ee; apply B2; exact Hj|]. rewrite Rabs_minus_sym, Rmult_1_l. apply Hval. apply Hp. apply nth_In. exact Hj.
Qed.
(** integration with weights that are exact on polynomials of length m + 1 *)
Lemma integral_error (t0 t1 : R) (m : nat) (r W : list R) : t0 < t1 -> (forall j, (j < length r)%nat -> t0 <= nth j r 0 <= t1) ->
  (forall c, (length c <= S m)%nat -> Rsum (length r) (fun j => nth j W 0 * peval c (nth j r 0)) = RInt (peval c) t0 t1) ->
  exists C, 0 <= C /\ forall f a h M, 0 < h -> smooth f a (a + h * (t1 - t0)) (S m) M ->
    Rabs (h * Rsum (length r) (fun j => nth j W 0 * f (a + h * (nth j r 0 - t0))) - RInt f a (a + h * (t1 - t0))) <= C * M * (h * (t1 - t0)) ^ S (S m).
Proof.
  intros Ht Hr HW. set (SW := Rsum (length r) (fun j => Rabs (nth j W 0))). assert (HSW : 0 <= SW) by (apply Rsum_nonneg; intros; apply Rabs_pos).
  assert (Hi : 0 < / (t1 - t0)) by (apply Rinv_0_lt_compat; lra). exists (SW * / (t1 - t0) + 1). split; [nra|]. intros f a h M Hh Hs.
  set (dur := h * (t1 - t0)). assert (Hdur : 0 < dur) by (apply Rmult_lt_0_compat; lra). fold dur in Hs.
  assert (HM : 0 <= M) by (pose proof (proj2 (Hs a ltac:(lra))); pose proof (Rabs_pos (Derive_n f (S m) a)); lra).
  assert (HT : forall x, t0 <= x <= t1 -> a <= a + h * (x - t0) <= a + dur) by (intros x Hx; unfold dur; split; nra).
  set (tl := tay f m a). destruct (poly_affine tl (- (h * t0)) h) as (d & Ld & Ed).
  assert (Ed' : forall x, peval d x = peval tl (a + h * (x - t0) - a)) by (intros x; rewrite Ed; f_equal; ring).
  assert (Llt : length tl = S m) by apply length_tay. destruct (poly_affine tl (- a) 1) as (e & _ & Ee).
  assert (Ee' : forall t, peval e t = peval tl (t - a)) by (intros t; rewrite Ee; f_equal; ring).
  assert (HP : 0 <= M * dur ^ S m) by (apply Rmult_le_pos; [exact HM|apply pow_le; lra]).
  assert (Hrem : forall t, a <= t <= a + dur -> Rabs (f t - peval e t) <= M * dur ^ S m).
  { intros t Hx. rewrite Ee'. eapply Rle_trans; [apply (taylor_value f a (a + dur) m M); [exact Hs|exact Hx]|]. apply Rmult_le_compat_l; [exact HM|]. apply pow_incr. lra. }
  assert (Hde : forall x, peval d x = peval e (a + h * (x - t0))) by (intros x; rewrite Ed', Ee'; f_equal).
  (* the polynomial part is exact *)
  assert (Hex : h * Rsum (length r) (fun j => nth j W 0 * peval d (nth j r 0)) = RInt (peval e) a (a + dur)).
  { rewrite HW by lia. transitivity (RInt (fun x => h * peval d x) t0 t1).
    - rewrite RInt_peval. symmetry. exact (is_RInt_unique _ _ _ _ (is_RInt_scal _ _ _ h _ (is_RInt_peval d t0 t1))).
    - pose proof (RInt_comp_lin (V := R_CompleteNormedModule) (peval e) h (a - h * t0) t0 t1) as X.
      replace (h * t0 + (a - h * t0)) with a in X by ring. replace (h * t1 + (a - h * t0)) with (a + dur) in X by (unfold dur; ring).
      rewrite <- X by (eexists; apply is_RInt_peval). apply RInt_ext. intros x _. rewrite Hde. unfold scal; cbn; unfold mult; cbn. f_equal. f_equal. ring. }
  assert (Hcf : ex_RInt f a (a + dur)).
  { apply (ex_RInt_continuous (V := R_CompleteNormedModule)). intros t Hx. rewrite Rmin_left, Rmax_right in Hx by lra. apply (ex_derive_continuous (V := R_NormedModule)). exact (proj1 (Hs t Hx) 1%nat ltac:(lia)). }
  assert (Hce : ex_RInt (peval e) a (a + dur)) by (eexists; apply is_RInt_peval).
  apply Rle_trans with (SW * / (t1 - t0) * (M * dur ^ S (S m)) + M * dur ^ S (S m)); [|nra].
  apply (abs_le_trans3 _ (RInt (peval e) a (a + dur))).
  - rewrite <- Hex, <- Rmult_minus_distr_l, <- Rsum_minus, Rabs_mult, (Rabs_pos_eq h) by lra.
    replace (SW * / (t1 - t0) * (M * dur ^ S (S m))) with (h * (SW * (M * dur ^ S m))) by (change (dur ^ S (S m)) with (dur * dur ^ S m); generalize (dur ^ S m); intros X; unfold dur; field; lra).
    apply Rmult_le_compat_l; [lra|]. eapply Rle_trans; [apply Rsum_abs|]. unfold SW. rewrite <- Rsum_scal_r. apply Rsum_le. intros j Hj.
    rewrite <- Rmult_minus_distr_l, Rabs_mult. apply Rmult_le_compat_l; [apply Rabs_pos|]. rewrite Hde. apply Hrem. apply HT. apply Hr. exact Hj.
  - rewrite Rabs_minus_sym. pose proof (RInt_minus (V := R_CompleteNormedModule) f (peval e) a (a + dur) Hcf Hce) as X.
    unfold minus, plus, opp in X; cbn in X. match goal with |- Rabs (?A - ?B) <= _ => replace (A - B) with (RInt (fun t => f t + - peval e t) a (a + dur)) by (rewrite X; ring) end.
    replace (M * dur ^ S (S m)) with ((a + dur - a) * (M * dur ^ S m)) by (cbn [pow]; ring).
    apply abs_RInt_le_const; [lra| |intros t Hx; apply Hrem; exact Hx].
    apply (ex_RInt_plus (V := R_NormedModule) f (fun t => - peval e t)); [exact Hcf|]. apply (ex_RInt_opp (V := R_NormedModule)). exact Hce.
Qed.
