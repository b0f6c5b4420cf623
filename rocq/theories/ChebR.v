(** The quadrature weights of the Chebyshev points are positive (proofs for C60): Chebyshev polynomials, their integrals, and
    the polynomial that vanishes at all points but one. *)
From Coq Require Import Reals Lia Lra Psatz Bool Arith String.
From Coquelicot Require Import Coquelicot.
From Coq Require Import List.
From Verif Require Import Num PyList Mat Poly Roots Colloc Spec NumR ListR PolyR CollocR CompR JacobiR CollocThm NlpThm WeightR.
Import ListNotations.
Open Scope R_scope.

(** ** Chebyshev polynomials *)
Fixpoint cheb2 (n : nat) : list R * list R :=
  match n with
  | O => ([1], [0; 1])
  | S m => (snd (cheb2 m), @padd Rnum (@pscale Rnum 2 (0 :: snd (cheb2 m))) (@pscale Rnum (-1) (fst (cheb2 m))))
  end.
Definition cheb (n : nat) : list R := fst (cheb2 n).
Lemma cheb2_len n : (length (fst (cheb2 n)) <= S n)%nat /\ (length (snd (cheb2 n)) <= S (S n))%nat.
Proof.
  induction n as [|n [A B]]; [cbn; lia|]. cbn [cheb2 fst snd]. split; [exact B|].
  rewrite length_padd, !length_pscale. cbn [length]. nred. lia.
Qed.
Lemma cheb2_cos n t : peval (fst (cheb2 n)) (cos t) = cos (INR n * t) /\ peval (snd (cheb2 n)) (cos t) = cos (INR (S n) * t).
Proof.
  induction n as [|n [A B]].
  - cbn. split; [rewrite Rmult_0_l, cos_0; ring|]. rewrite Rmult_1_l. ring.
  - cbn [cheb2 fst snd]. split; [exact B|]. rewrite peval_padd, !peval_pscale. cbn [peval]. rewrite A, B.
    replace (INR n * t) with (INR (S n) * t - t) by (rewrite S_INR; ring). replace (INR (S (S n)) * t) with (INR (S n) * t + t) by (rewrite (S_INR (S n)); ring).
    rewrite cos_plus, cos_minus. ring.
Qed.
Lemma cheb_cos n t : peval (cheb n) (cos t) = cos (INR n * t).
Proof. apply cheb2_cos. Qed.
Lemma cheb_len n : (length (cheb n) <= S n)%nat.
Proof. apply cheb2_len. Qed.

(** ** Integrals over [-1, 1] *)
Definition pint (c : list R) : R := RInt (peval c) (-1) 1.
Lemma pint_padd p q : pint (@padd Rnum p q) = pint p + pint q.
Proof.
  unfold pint. rewrite (RInt_ext (peval (@padd Rnum p q)) (fun x => peval p x + peval q x)) by (intros; apply peval_padd).
  exact (RInt_plus (peval p) (peval q) _ _ (ex_RInt_peval p _ _) (ex_RInt_peval q _ _)).
Qed.
Lemma pint_pscale a p : pint (@pscale Rnum a p) = a * pint p.
Proof.
  unfold pint. rewrite (RInt_ext (peval (@pscale Rnum a p)) (fun x => a * peval p x)) by (intros; apply peval_pscale).
  exact (RInt_scal (peval p) _ _ a (ex_RInt_peval p _ _)).
Qed.
(** by the substitution x = cos t *)
Lemma cheb_int n F : (forall t, is_derive F t (- sin t * cos (INR n * t))) -> pint (cheb n) = F 0 - F PI.
Proof.
  intros HF. unfold pint.
  assert (A : is_RInt (fun y => scal (- sin y) (peval (cheb n) (cos y))) PI 0 (RInt (peval (cheb n)) (cos PI) (cos 0))).
  { apply (is_RInt_comp (peval (cheb n)) cos (fun y => - sin y)); intros x _.
    - apply continuous_peval.
    - split; [auto_derive; [exact I|ring]|]. apply (ex_derive_continuous (fun y => - sin y)). auto_derive. exact I. }
  rewrite cos_PI, cos_0 in A. rewrite <- (is_RInt_unique _ _ _ _ A). apply is_RInt_unique.
  apply (is_RInt_ext (fun t => - sin t * cos (INR n * t))); [intros x _; rewrite cheb_cos; reflexivity|].
  apply (is_RInt_derive F (fun t => - sin t * cos (INR n * t))); intros x _; [apply HF|].
  apply (ex_derive_continuous (fun t => - sin t * cos (INR n * t))). auto_derive. exact I.
Qed.
Lemma cheb_int0 : pint (cheb 0) = 2.
Proof.
  rewrite (cheb_int 0 cos); [rewrite cos_0, cos_PI; ring|]. intros t. auto_derive; [exact I|]. cbn. rewrite Rmult_0_l, cos_0. ring.
Qed.
Lemma cheb_int1 : pint (cheb 1) = 0.
Proof.
  rewrite (cheb_int 1 (fun t => - (sin t * sin t) / 2)); [rewrite sin_0, sin_PI; field|]. intros t. auto_derive; [exact I|]. cbn [INR]. rewrite (Rmult_1_l t). field.
Qed.
Lemma cos_even i : cos (INR (2 * i) * PI) = 1.
Proof. replace (INR (2 * i) * PI) with (0 + 2 * INR i * PI) by (rewrite mult_INR; cbn; ring). rewrite cos_period. apply cos_0. Qed.
Lemma cos_odd i : cos (INR (S (2 * i)) * PI) = -1.
Proof. rewrite S_INR, Rmult_plus_distr_r, Rmult_1_l, neg_cos, cos_even. reflexivity. Qed.
Lemma cheb_int_big n : (2 <= n)%nat -> pint (cheb n) = (1 / (INR n + 1) - 1 / (INR n - 1)) / 2 * (1 + cos (INR n * PI)).
Proof.
  intros Hn. assert (H2 : 2 <= INR n) by (apply (le_INR 2); exact Hn).
  rewrite (cheb_int n (fun t => (cos ((INR n + 1) * t) / (INR n + 1) - cos ((INR n - 1) * t) / (INR n - 1)) / 2)).
  - rewrite !Rmult_0_r, cos_0. replace ((INR n + 1) * PI) with (INR n * PI + PI) by ring. replace ((INR n - 1) * PI) with (INR n * PI - PI) by ring. rewrite cos_plus, cos_minus, cos_PI, sin_PI. field. lra.
  - intros t. auto_derive; [exact I|]. replace ((INR n + 1) * t) with (INR n * t + t) by ring. replace ((INR n - 1) * t) with (INR n * t - t) by ring. rewrite sin_plus, sin_minus. field. lra.
Qed.
Lemma cheb_int_even i : (1 <= i)%nat -> pint (cheb (2 * i)) = - (2 / (INR (2 * i) * INR (2 * i) - 1)).
Proof.
  intros Hi. rewrite cheb_int_big by lia. rewrite cos_even. assert (2 <= INR (2 * i)) by (apply (le_INR 2); lia). field. split; [nra|lra].
Qed.
Lemma cheb_int_odd i : pint (cheb (S (2 * i))) = 0.
Proof.
  destruct i as [|i]; [exact cheb_int1|]. rewrite cheb_int_big by lia. rewrite cos_odd. ring.
Qed.

(** ** The trapezoidal sum of cosines *)
Lemma cos_trap n phi : 2 * sin (phi / 2) * Rsum n (fun j => (cos (INR j * phi) + cos (INR (S j) * phi)) / 2) = cos (phi / 2) * sin (INR n * phi).
Proof.
  induction n as [|n IH]; [cbn; rewrite Rmult_0_l, sin_0; ring|]. cbn [Rsum]. rewrite Rmult_plus_distr_l, IH.
  replace (INR (S n) * phi) with (INR n * phi + phi / 2 + phi / 2) by (rewrite S_INR; field).
  set (a := INR n * phi). set (b := phi / 2). rewrite (cos_plus (a + b) b), (sin_plus (a + b) b), (cos_plus a b), (sin_plus a b).
  pose proof (sin2_cos2 b) as H. unfold Rsqr in H. assert (E : cos b * cos b = 1 - sin b * sin b) by lra.
  match goal with |- ?l = ?r => cut (l - r = 0); [lra|] end.
  replace (cos b * sin a + 2 * sin b * ((cos a + ((cos a * cos b - sin a * sin b) * cos b - (sin a * cos b + cos a * sin b) * sin b)) / 2) - cos b * ((sin a * cos b + cos a * sin b) * cos b + (cos a * cos b - sin a * sin b) * sin b))
    with ((sin b * cos a + cos b * sin a) * (1 - cos b * cos b - sin b * sin b)
          + 0 * (sin b * sin b + cos b * cos b)) by field.
  rewrite E. ring.
Qed.
Lemma cos_trap_0 n l : (1 <= n)%nat -> (1 <= l < 2 * n)%nat -> Rsum n (fun j => (cos (INR j * (PI * INR l / INR n)) + cos (INR (S j) * (PI * INR l / INR n))) / 2) = 0.
Proof.
  intros Hn Hl. assert (Hn0 : 0 < INR n) by (apply lt_0_INR; lia). assert (Hl0 : 0 < INR l) by (apply lt_0_INR; lia).
  assert (Hl1 : INR l < 2 * INR n) by (replace (2 * INR n) with (INR (2 * n)) by (rewrite mult_INR; cbn; ring); apply lt_INR; lia).
  pose proof (cos_trap n (PI * INR l / INR n)) as E. pose proof PI_RGT_0 as HPI.
  assert (S0 : sin (INR n * (PI * INR l / INR n)) = 0).
  { replace (INR n * (PI * INR l / INR n)) with (INR l * PI) by (field; lra). apply sin_eq_0_1. exists (Z.of_nat l). rewrite <- INR_IZR_INZ. reflexivity. }
  rewrite S0, Rmult_0_r in E. apply Rmult_integral in E. destruct E as [E|E]; [exfalso|exact E].
  assert (0 < sin (PI * INR l / INR n / 2)); [|lra]. apply sin_gt_0.
  - apply Rdiv_lt_0_compat; [|lra]. apply Rdiv_lt_0_compat; [nra|lra].
  - replace (PI * INR l / INR n / 2) with (PI * (INR l / (2 * INR n))) by (field; lra). rewrite <- (Rmult_1_r PI) at 2. apply Rmult_lt_compat_l; [exact HPI|].
    apply Rlt_div_l; lra.
Qed.
(** at two different points *)
Lemma cos_orth n k m : (1 <= n)%nat -> (k <= n)%nat -> (m <= n)%nat -> k <> m ->
  Rsum n (fun j => (cos (INR j * (PI * INR k / INR n)) * cos (INR j * (PI * INR m / INR n)) + cos (INR (S j) * (PI * INR k / INR n)) * cos (INR (S j) * (PI * INR m / INR n))) / 2) = 0.
Proof.
  intros Hn. assert (Hn0 : 0 < INR n) by (apply lt_0_INR; lia). revert k m.
  assert (G : forall k m, (k <= n)%nat -> (m < k)%nat -> Rsum n (fun j => (cos (INR j * (PI * INR k / INR n)) * cos (INR j * (PI * INR m / INR n)) + cos (INR (S j) * (PI * INR k / INR n)) * cos (INR (S j) * (PI * INR m / INR n))) / 2) = 0).
  { intros k m Hk Hm. pose proof (cos_trap_0 n (k + m) Hn ltac:(lia)) as A. pose proof (cos_trap_0 n (k - m) Hn ltac:(lia)) as B.
    assert (P : forall j, cos (INR j * (PI * INR k / INR n)) * cos (INR j * (PI * INR m / INR n)) = (cos (INR j * (PI * INR (k + m) / INR n)) + cos (INR j * (PI * INR (k - m) / INR n))) / 2).
    { intros j. rewrite plus_INR, minus_INR by lia. replace (INR j * (PI * (INR k + INR m) / INR n)) with (INR j * (PI * INR k / INR n) + INR j * (PI * INR m / INR n)) by (field; lra).
      replace (INR j * (PI * (INR k - INR m) / INR n)) with (INR j * (PI * INR k / INR n) - INR j * (PI * INR m / INR n)) by (field; lra). rewrite cos_plus, cos_minus. field. }
    rewrite (Rsum_ext n _ (fun j => / 2 * ((cos (INR j * (PI * INR (k + m) / INR n)) + cos (INR (S j) * (PI * INR (k + m) / INR n))) / 2)
       + / 2 * ((cos (INR j * (PI * INR (k - m) / INR n)) + cos (INR (S j) * (PI * INR (k - m) / INR n))) / 2))).
    - rewrite Rsum_plus, !Rsum_scal, A, B. ring.
    - intros j _. rewrite (P j), (P (S j)). field. }
  intros k m Hk Hm Hne. destruct (lt_dec m k) as [H|H]; [exact (G k m Hk H)|]. etransitivity; [|exact (G m k Hm ltac:(lia))]. apply Rsum_ext. intros j _. field.
Qed.

(** ** The polynomial of one point *)
Fixpoint cheb_sum (a : nat -> R) (n : nat) : list R :=
  match n with
  | O => []
  | S m => @padd Rnum (cheb_sum a m) (@padd Rnum (@pscale Rnum (a m / 2)%R (cheb m)) (@pscale Rnum (a (S m) / 2)%R (cheb (S m))))
  end.
Lemma cheb_sum_len a n : (length (cheb_sum a n) <= S n)%nat.
Proof.
  induction n as [|n IH]; [cbn; lia|]. cbn [cheb_sum]. rewrite !length_padd, !length_pscale. pose proof (cheb_len n). pose proof (cheb_len (S n)). nred. lia.
Qed.
Lemma cheb_sum_cos a n t : peval (cheb_sum a n) (cos t) = Rsum n (fun j => (a j * cos (INR j * t) + a (S j) * cos (INR (S j) * t)) / 2).
Proof.
  induction n as [|n IH]; [reflexivity|]. cbn [cheb_sum Rsum]. rewrite !peval_padd, !peval_pscale, IH, !cheb_cos. field.
Qed.
Lemma cheb_sum_int a n : pint (cheb_sum a n) = Rsum n (fun j => (a j * pint (cheb j) + a (S j) * pint (cheb (S j))) / 2).
Proof.
  induction n as [|n IH]; [unfold pint; cbn [cheb_sum Rsum]; rewrite (RInt_ext _ (fun _ => 0)) by reflexivity; rewrite RInt_const; apply Rmult_0_r|].
  cbn [cheb_sum Rsum]. rewrite !pint_padd, !pint_pscale, IH. field.
Qed.
(** the terms after the first sum to less than 1 in size *)
Definition left_over (m : nat) : R := if Nat.even m then 1 / (INR m + 1) else (INR m + 1) / (INR m * (INR m + 2)).
Lemma tail_bound a n : (forall j, -1 <= a j <= 1) -> (1 <= n)%nat -> a 0%nat = 1 ->
  left_over (n - 1) <= Rsum n (fun j => (a j * pint (cheb j) + a (S j) * pint (cheb (S j))) / 2).
Proof.
  intros Ha Hn H0. induction n as [|n IH]; [lia|]. destruct n as [|n].
  - cbn [Rsum]. rewrite H0, cheb_int0, cheb_int1. unfold left_over. cbn. lra.
  - cbn [Rsum] in *. specialize (IH ltac:(lia)). cbn [Nat.sub] in *. rewrite Nat.sub_0_r in IH.
    match goal with |- _ <= ?s + ?f => set (ss := s) in *; set (ff := f) in * end.
    assert (HH : left_over (S n) - left_over n <= ff); [|lra]. clear IH ss. unfold ff; clear ff.
    destruct (Nat.Even_or_Odd n) as [[i E]|[i E]].
    + assert (Ev : Nat.even n = true) by (apply Nat.even_spec; exists i; exact E). subst n. unfold left_over. rewrite Nat.even_succ, <- Nat.negb_even, Ev. cbn [negb].
      replace (S (S (2 * i))) with (2 * S i)%nat by lia. rewrite cheb_int_odd, cheb_int_even by lia. rewrite Rmult_0_r, Rplus_0_l.
      replace (INR (2 * S i)) with (INR (2 * i) + 2) by (replace (2 * S i)%nat with (S (S (2 * i))) by lia; rewrite !S_INR; ring). rewrite (S_INR (2 * i)).
      set (x := INR (2 * i)). assert (Hx : 0 <= x) by apply pos_INR. specialize (Ha (2 * S i)%nat). set (b := a (2 * S i)%nat) in *.
      replace ((x + 1 + 1) / ((x + 1) * (x + 1 + 2)) - 1 / (x + 1)) with (- (1 / ((x + 1) * (x + 3)))) by (field; lra).
      replace (b * - (2 / ((x + 2) * (x + 2) - 1)) / 2) with (- b * (1 / ((x + 1) * (x + 3)))) by (field; split; nra).
      assert (0 < 1 / ((x + 1) * (x + 3))) by (apply Rdiv_lt_0_compat; nra). nra.
    + assert (Ev : Nat.even n = false) by (rewrite <- Nat.negb_odd; apply negb_false_iff, Nat.odd_spec; exists i; exact E). unfold left_over. rewrite Nat.even_succ, <- Nat.negb_even, Ev. cbn [negb].
      replace (S n) with (2 * S i)%nat by lia. rewrite cheb_int_odd, cheb_int_even by lia. rewrite Rmult_0_r, Rplus_0_r.
      replace (INR (2 * S i)) with (INR n + 1) by (rewrite <- S_INR; f_equal; lia).
      set (x := INR n). assert (Hx : 1 <= x) by (apply (le_INR 1); lia). specialize (Ha (2 * S i)%nat). set (b := a (2 * S i)%nat) in *.
      replace (1 / (x + 1 + 1) - (x + 1) / (x * (x + 2))) with (- (1 / (x * (x + 2)))) by (field; lra).
      replace (b * - (2 / ((x + 1) * (x + 1) - 1)) / 2) with (- b * (1 / (x * (x + 2)))) by (field; split; nra).
      assert (0 < 1 / (x * (x + 2))) by (apply Rdiv_lt_0_compat; nra). nra.
Qed.
Lemma left_over_pos m : 0 < left_over m.
Proof.
  unfold left_over. pose proof (pos_INR m). destruct (Nat.even m) eqn:E; [apply Rdiv_lt_0_compat; lra|].
  assert (1 <= INR m) by (apply (le_INR 1); destruct m; [discriminate|lia]). apply Rdiv_lt_0_compat; nra.
Qed.

Lemma Rsum_ge_0 n f : (forall j, 0 <= f j) -> 0 <= Rsum n f.
Proof. intros H. induction n as [|n IH]; cbn; [lra|]. specialize (H n). lra. Qed.
(** the polynomial of degree n that is zero at the Chebyshev points other than the k-th, positive there, with positive integral *)
Lemma point_poly n k : (1 <= n)%nat -> (k <= n)%nat -> exists c, (length c <= S n)%nat /\ 0 < pint c /\ 0 < peval c (cos (PI * INR k / INR n)) /\
  forall m, (m <= n)%nat -> m <> k -> peval c (cos (PI * INR m / INR n)) = 0.
Proof.
  intros Hn Hk. exists (cheb_sum (fun j => cos (INR j * (PI * INR k / INR n))) n). split; [apply cheb_sum_len|]. split; [|split].
  - rewrite cheb_sum_int. eapply Rlt_le_trans; [apply left_over_pos|].
    apply (tail_bound (fun j => cos (INR j * (PI * INR k / INR n)))); [intros j; apply COS_bound|exact Hn|cbn; rewrite Rmult_0_l; apply cos_0].
  - rewrite cheb_sum_cos. destruct n as [|n]; [lia|]. rewrite Rsum_S_l. change (INR 0) with 0. rewrite Rmult_0_l, cos_0.
    apply Rplus_lt_le_0_compat; [match goal with |- 0 < (_ + ?a * ?a) / 2 => pose proof (Rle_0_sqr a) as H; unfold Rsqr in H; lra end|].
    apply Rsum_ge_0. intros j. cbv beta. pose proof (Rle_0_sqr (cos (INR (S j) * (PI * INR k / INR (S n))))) as H1.
    pose proof (Rle_0_sqr (cos (INR (S (S j)) * (PI * INR k / INR (S n))))) as H2. unfold Rsqr in *. lra.
  - intros m Hm Hne. rewrite cheb_sum_cos. apply (cos_orth n k m Hn Hk Hm). auto.
Qed.

(** ** The weights *)
Lemma cgl_positive cf q : cfg_ok cf -> cf_scheme cf = "CGL"%string -> (1 <= q)%nat ->
  exists w, quad_weights cf q (cf_tau0 cf) (cf_tau1 cf) = Ok w /\ length w = S q /\ forall j, (j <= q)%nat -> 0 < nth j w 0.
Proof.
  intros Hcf Hs Hq. pose proof Hcf as [[Hcos Hpi _ _ _] _ Ht]. assert (Hq0 : 0 < INR q) by (apply lt_0_INR; lia).
  set (cs := map (fun j => cos (PI * INR j / INR q)) (seq 0 (q + 1))).
  set (r := map (scale1 (cf_tau0 cf) (cf_tau1 cf)) (rev cs)).
  assert (Er : c_roots cf q = Ok r).
  { unfold c_roots, taus_fn. rewrite Hs. cbn [String.eqb Ascii.eqb Bool.eqb]. unfold cgl_roots. destruct (Nat.eqb_spec q 0); [lia|]. rewrite scale_roots_R. unfold r, cs. do 3 f_equal.
    apply map_ext_in. intros j _. rewrite Hcos, Hpi, !nofnat_R. reflexivity. }
  assert (Lc : length cs = S q) by (unfold cs; rewrite map_length, seq_length; lia).
  assert (Hr : forall j, (j <= q)%nat -> nth j r 0 = scale1 (cf_tau0 cf) (cf_tau1 cf) (cos (PI * INR (q - j) / INR q))).
  { intros j Hj. unfold r. rewrite (nth_indep _ 0 (scale1 (cf_tau0 cf) (cf_tau1 cf) 0)) by (rewrite map_length, rev_length, Lc; lia). rewrite map_nth. f_equal.
    rewrite rev_nth by lia. rewrite Lc. replace (S q - S j)%nat with (q - j)%nat by lia. unfold cs.
    rewrite (nth_indep _ 0 ((fun j => cos (PI * INR j / INR q)) 0%nat)) by (rewrite map_length, seq_length; lia).
    rewrite (map_nth (fun j => cos (PI * INR j / INR q))). rewrite seq_nth by lia. reflexivity. }
  destruct (weights_at cf q r Hcf Hq Er) as (w & Ew & Lw & HW). exists w. split; [exact Ew|]. split; [exact Lw|]. intros j Hj.
  destruct (point_poly q (q - j) Hq ltac:(lia)) as (c & Hl & Hint & Hpos & Hz).
  set (t0 := cf_tau0 cf) in *. set (t1 := cf_tau1 cf) in *. nred. set (h := (t1 - t0) / 2). assert (Hh : 0 < h) by (unfold h; lra).
  destruct (poly_affine c (- t0 / h - 1) (/ h)) as (d & Hd & Ed).
  assert (Ev : forall x, peval d (scale1 t0 t1 x) = peval c x).
  { intros x. rewrite Ed. f_equal. unfold scale1. fold h. field. lra. }
  specialize (HW d ltac:(lia)).
  rewrite (Rsum_single (S q) _ j ltac:(lia)) in HW.
  2:{ intros i Hi Hne. rewrite Hr by lia. rewrite Ev. rewrite Hz by lia. ring. }
  rewrite Hr, Ev in HW by lia.
  assert (EI : RInt (peval d) t0 t1 = h * pint c).
  { unfold pint. replace t0 with (h * -1 + (t0 + h)) at 1 by ring. replace t1 with (h * 1 + (t0 + h)) at 1 by (unfold h; field).
    rewrite <- (RInt_comp_lin (peval d) h (t0 + h) (-1) 1) by apply ex_RInt_peval.
    rewrite <- (RInt_scal (peval c) (-1) 1 h (ex_RInt_peval c _ _) : RInt (fun x => h * peval c x) (-1) 1 = h * RInt (peval c) (-1) 1).
    apply RInt_ext. intros x _. change (h * peval d (h * x + (t0 + h)) = h * peval c x). rewrite <- Ev. do 2 f_equal. unfold scale1. fold h. ring. }
  rewrite EI in HW. assert (0 < h * pint c) by (apply Rmult_lt_0_compat; assumption). destruct (Rle_or_lt (nth j w 0) 0); [nra|assumption].
Qed.
