(** Solutions of differential equations whose right side is Lipschitz in the states exist (Picard iteration). *)
From Coq Require Import Reals Lia Lra Psatz Arith.
From Coquelicot Require Import Coquelicot.
From Coq Require Import List.
Import ListNotations.
Open Scope R_scope.

Lemma cont_eps (f : R -> R) t : continuous f t <-> forall eps : posreal, exists d : posreal, forall v, Rabs (v - t) < d -> Rabs (f v - f t) < eps.
Proof.
  split.
  - intros H eps. destruct (proj1 (filterlim_locally f (f t)) H eps) as [d Hd]. exists d. intros v Hv. exact (Hd v Hv).
  - intros H. apply filterlim_locally. intros eps. destruct (H eps) as [d Hd]. exists d. intros v Hv. exact (Hd v Hv).
Qed.
Lemma finite_pos n (P : nat -> R -> Prop) : (forall s d d', P s d -> 0 < d' <= d -> P s d') -> (forall s, (s < n)%nat -> exists d, 0 < d /\ P s d) -> exists d, 0 < d /\ forall s, (s < n)%nat -> P s d.
Proof.
  intros Hmono. induction n as [|n IH]; intros H; [exists 1; split; [lra|intros; lia]|].
  destruct IH as (d & Hd & H1); [intros s Hs; apply H; lia|]. destruct (H n ltac:(lia)) as (d' & Hd' & H2).
  exists (Rmin d d'). split; [apply Rmin_glb_lt; assumption|]. intros s Hs. assert (0 < Rmin d d') by (apply Rmin_glb_lt; assumption).
  destruct (Nat.eq_dec s n) as [->|Hn]; [apply (Hmono n d'); [exact H2|split; [assumption|apply Rmin_r]]|apply (Hmono s d); [apply H1; lia|split; [assumption|apply Rmin_l]]].
Qed.
Lemma RInt_bound (h bd : R -> R) a c : a <= c -> ex_RInt h a c -> ex_RInt bd a c -> (forall v, a < v < c -> Rabs (h v) <= bd v) -> Rabs (RInt h a c) <= RInt bd a c.
Proof.
  intros Hac Hh Hb H. apply Rabs_le. split.
  - assert (E : - RInt bd a c = RInt (fun v => - bd v) a c) by (symmetry; apply (RInt_opp (V := R_CompleteNormedModule)); exact Hb). rewrite E.
    apply RInt_le; [exact Hac|apply (ex_RInt_opp (V := R_NormedModule)); exact Hb|exact Hh|]. intros v Hv. pose proof (H v Hv) as X. apply Rabs_le_between in X. lra.
  - apply RInt_le; [exact Hac|exact Hh|exact Hb|]. intros v Hv. pose proof (H v Hv) as X. apply Rabs_le_between in X. lra.
Qed.
Lemma halves (u : nat -> R) W : 0 <= W -> (forall m, Rabs (u (S m) - u m) <= W * (1 / 2) ^ m) ->
  exists l : R, forall m, Rabs (l - u m) <= 2 * W * (1 / 2) ^ m.
Proof.
  intros HW H. assert (P : forall m, 0 < (1 / 2) ^ m) by (intros m; apply pow_lt; lra).
  assert (A : forall p m, Rabs (u (m + p)%nat - u m) <= 2 * W * (1 / 2) ^ m).
  { intros p m. apply Rle_trans with (2 * W * (1 / 2) ^ m * (1 - (1 / 2) ^ p)).
    - induction p as [|p IH]; [rewrite Nat.add_0_r, Rminus_diag_eq by reflexivity; rewrite Rabs_R0; cbn; lra|].
      rewrite Nat.add_succ_r. replace (u (S (m + p)) - u m) with ((u (S (m + p)) - u (m + p)%nat) + (u (m + p)%nat - u m)) by ring.
      eapply Rle_trans; [apply Rabs_triang|]. pose proof (H (m + p)%nat) as X. rewrite pow_add in X. cbn [pow]. nra.
    - pose proof (P m). pose proof (P p). assert (0 <= 2 * W * (1 / 2) ^ m) by (apply Rmult_le_pos; lra). nra. }
  assert (Hc : ex_lim_seq_cauchy u).
  { intros eps. assert (Hl : is_lim_seq (fun m => 2 * W * (1 / 2) ^ m) 0).
    { replace (Finite 0) with (Rbar_mult (2 * W) 0) by (cbn; f_equal; ring). apply is_lim_seq_scal_l. apply is_lim_seq_geom. rewrite Rabs_pos_eq; lra. }
    apply is_lim_seq_spec in Hl. assert (He : 0 < eps / 2) by (destruct eps; cbn; lra). destruct (Hl (mkposreal _ He)) as [M HM]. cbn in HM. exists M. intros i j Hi Hj.
    pose proof (HM M (le_n M)) as X. rewrite Rminus_0_r in X. apply Rabs_def2 in X. destruct X as [X _].
    pose proof (A (i - M)%nat M) as Ai. pose proof (A (j - M)%nat M) as Aj. replace (M + (i - M))%nat with i in Ai by lia. replace (M + (j - M))%nat with j in Aj by lia.
    replace (u i - u j) with ((u i - u M) - (u j - u M)) by ring. eapply Rle_lt_trans; [apply Rabs_triang|]. rewrite Rabs_Ropp. lra. }
  apply ex_lim_seq_cauchy_corr in Hc. destruct Hc as [l Hl]. exists l. intros m.
  assert (Hl' : is_lim_seq (fun p => Rabs (u (m + p)%nat - u m)) (Rabs (l - u m))).
  { apply is_lim_seq_abs with (l := Finite (l - u m)). apply (is_lim_seq_minus _ _ l (u m)); [|apply is_lim_seq_const|reflexivity].
    apply (is_lim_seq_ext (fun p => u (p + m)%nat)); [intros p; f_equal; lia|]. apply is_lim_seq_incr_n. exact Hl. }
  pose proof (is_lim_seq_le _ _ _ _ (fun p => A p m) Hl' (is_lim_seq_const _)) as X. exact X.
Qed.

Section Picard.
Variables (n : nat) (g : nat -> R -> (nat -> R) -> R) (a b K : R) (x0 : nat -> R).
Hypothesis Hab : a <= b.
Hypothesis HK : 0 < K.
Hypothesis Hlip : forall s t x x' e, (s < n)%nat -> (forall i, (i < n)%nat -> Rabs (x i - x' i) <= e) -> Rabs (g s t x - g s t x') <= K * e.
Hypothesis Hcont : forall s x t, (s < n)%nat -> continuous (fun t => g s t x) t.

Definition pin (t : R) : R := Rmax a (Rmin t b).
Lemma pin_range t : a <= pin t <= b.
Proof. unfold pin. split; [apply Rmax_l|]. apply Rmax_lub; [exact Hab|apply Rmin_r]. Qed.
Lemma pin_in t : a <= t <= b -> pin t = t.
Proof. intros H. unfold pin. rewrite Rmin_left by lra. apply Rmax_right. lra. Qed.
Lemma pin_near t v : Rabs (pin v - pin t) <= Rabs (v - t).
Proof. unfold pin, Rmax, Rmin. repeat (destruct (Rle_dec _ _)); apply Rabs_le; unfold Rabs; destruct (Rcase_abs _); lra. Qed.
Lemma pin_cont t : continuous pin t.
Proof. apply cont_eps. intros eps. exists eps. intros v Hv. eapply Rle_lt_trans; [apply pin_near|exact Hv]. Qed.

Lemma comp_cont s (Y : nat -> R -> R) t : (s < n)%nat -> (forall i, (i < n)%nat -> continuous (Y i) t) -> continuous (fun v => g s v (fun i => Y i v)) t.
Proof.
  intros Hs HY. apply cont_eps. intros eps. destruct eps as [eps He]. cbn.
  destruct (finite_pos n (fun i d => forall v, Rabs (v - t) < d -> Rabs (Y i v - Y i t) < eps / (2 * K))) as (d & Hd & H1).
  - intros i d d' H [_ Hdd] v Hv. apply H. lra.
  - intros i Hi. assert (He' : 0 < eps / (2 * K)) by (apply Rdiv_lt_0_compat; lra). destruct (proj1 (cont_eps _ _) (HY i Hi) (mkposreal _ He')) as [[d Hd] H]. exists d. split; [exact Hd|exact H].
  - assert (He2 : 0 < eps / 2) by lra. destruct (proj1 (cont_eps _ _) (Hcont s (fun i => Y i t) t Hs) (mkposreal _ He2)) as [[d' Hd'] H2]. cbn in H2.
    exists (mkposreal _ (Rmin_glb_lt _ _ _ Hd Hd')). intros v Hv. cbn in Hv.
    assert (V1 : Rabs (v - t) < d) by (eapply Rlt_le_trans; [exact Hv|apply Rmin_l]). assert (V2 : Rabs (v - t) < d') by (eapply Rlt_le_trans; [exact Hv|apply Rmin_r]).
    assert (A : Rabs (g s v (fun i => Y i v) - g s v (fun i => Y i t)) <= K * (eps / (2 * K))) by (apply Hlip; [exact Hs|]; intros i Hi; apply Rlt_le, H1; assumption).
    replace (K * (eps / (2 * K))) with (eps / 2) in A by (field; lra). pose proof (H2 v V2) as C.
    replace (g s v (fun i => Y i v) - g s t (fun i => Y i t)) with ((g s v (fun i => Y i v) - g s v (fun i => Y i t)) + (g s v (fun i => Y i t) - g s t (fun i => Y i t))) by ring.
    eapply Rle_lt_trans; [apply Rabs_triang|]. lra.
Qed.
Lemma int_cont (h : R -> R) t : (forall v, continuous h v) -> continuous (fun t => RInt h a (pin t)) t.
Proof.
  intros H. apply (continuous_comp pin (fun c => RInt h a c)); [apply pin_cont|]. apply (ex_derive_continuous (V := R_NormedModule)). exists (h (pin t)).
  apply (is_derive_RInt (V := R_NormedModule) h _ a); [|apply H]. apply filter_forall. intros c. apply (RInt_correct (V := R_CompleteNormedModule)). apply (ex_RInt_continuous (V := R_CompleteNormedModule)). intros; apply H.
Qed.

Fixpoint iter (m : nat) (s : nat) (t : R) : R :=
  match m with 0%nat => x0 s | S m' => x0 s + RInt (fun v => g s v (fun i => iter m' i v)) a (pin t) end.
Lemma iter_cont m : forall s t, (s < n)%nat -> continuous (iter m s) t.
Proof.
  induction m as [|m IH]; intros s t Hs; [apply continuous_const|]. cbn [iter]. apply (continuous_plus (V := R_NormedModule)); [apply continuous_const|].
  apply int_cont. intros v. apply comp_cont; [exact Hs|]. intros i Hi. apply IH. exact Hi.
Qed.
Lemma cont_int (h : R -> R) c d : (forall v, continuous h v) -> ex_RInt h c d.
Proof. intros H. apply (ex_RInt_continuous (V := R_CompleteNormedModule)). intros; apply H. Qed.
Lemma iter_int m s c d : (s < n)%nat -> ex_RInt (fun v => g s v (fun i => iter m i v)) c d.
Proof. intros Hs. apply cont_int. intros v. apply comp_cont; [exact Hs|]. intros i Hi. apply iter_cont. exact Hi. Qed.
Lemma first_bound : exists B, 0 <= B /\ forall s t, (s < n)%nat -> Rabs (iter 1 s t - iter 0 s t) <= B.
Proof.
  assert (H : forall k, (k <= n)%nat -> exists B, 0 <= B /\ forall s t, (s < k)%nat -> Rabs (iter 1 s t - iter 0 s t) <= B).
  { induction k as [|k IH]; intros Hk; [exists 0; split; [lra|intros; lia]|]. destruct (IH ltac:(lia)) as (B & HB & H1).
    set (h := fun t => Rabs (iter 1 k t - iter 0 k t)). assert (Hc : forall t, continuous h t).
    { intros t. apply (continuous_comp (fun t => iter 1 k t - iter 0 k t) Rabs); [apply (continuous_minus (V := R_NormedModule)); apply iter_cont; lia|apply continuous_Rabs]. }
    destruct (continuity_ab_maj h a b Hab) as (M & HM & _); [intros c _; apply continuity_pt_filterlim, Hc|].
    exists (Rmax B (h M)). split; [eapply Rle_trans; [exact HB|apply Rmax_l]|]. intros s t Hs. destruct (Nat.eq_dec s k) as [->|Hn].
    - assert (E : h t = h (pin t)) by (unfold h; cbn [iter]; rewrite (pin_in (pin t) (pin_range t)); reflexivity). change (h t <= Rmax B (h M)). rewrite E.
      eapply Rle_trans; [apply HM; apply pin_range|apply Rmax_r].
    - eapply Rle_trans; [apply H1; lia|apply Rmax_l]. }
  exact (H n (le_n n)).
Qed.
Lemma exp_int c C : a <= c -> RInt (fun v => C * exp (2 * K * (v - a))) a c = C * ((exp (2 * K * (c - a)) - 1) / (2 * K)) /\ ex_RInt (fun v => C * exp (2 * K * (v - a))) a c.
Proof.
  intros Hc. assert (X : is_RInt (fun v => C * exp (2 * K * (v - a))) a c (C * ((exp (2 * K * (c - a)) - 1) / (2 * K)))).
  { replace (C * ((exp (2 * K * (c - a)) - 1) / (2 * K))) with (C * exp (2 * K * (c - a)) / (2 * K) - C * exp (2 * K * (a - a)) / (2 * K)).
    - apply (is_RInt_derive (fun v => C * exp (2 * K * (v - a)) / (2 * K))); [intros v _; auto_derive; [exact I|]; change (v + - a) with (v - a); field; lra|].
      intros v _. apply (ex_derive_continuous (V := R_NormedModule)). auto_derive. exact I.
    - replace (2 * K * (a - a)) with 0 by ring. rewrite exp_0. field. lra. }
  split; [apply is_RInt_unique; exact X|eexists; exact X].
Qed.
Lemma iter_step B : 0 <= B -> (forall s t, (s < n)%nat -> Rabs (iter 1 s t - iter 0 s t) <= B) ->
  forall m s t, (s < n)%nat -> Rabs (iter (S m) s t - iter m s t) <= B * (1 / 2) ^ m * exp (2 * K * (pin t - a)).
Proof.
  intros HB H1. assert (E1 : forall t, 1 <= exp (2 * K * (pin t - a))).
  { intros t. pose proof (pin_range t) as [X _]. rewrite <- exp_0. destruct (Req_dec (pin t) a) as [->|Hn]; [replace (2 * K * (a - a)) with 0 by ring; lra|]. apply Rlt_le, exp_increasing. nra. }
  induction m as [|m IH]; intros s t Hs.
  - cbn [pow]. pose proof (H1 s t Hs). pose proof (E1 t). nra.
  - cbn [iter]. fold iter. set (c := pin t). pose proof (pin_range t) as Hc. fold c in Hc.
    change (Rabs ((x0 s + RInt (fun v => g s v (fun i => iter (S m) i v)) a c) - (x0 s + RInt (fun v => g s v (fun i => iter m i v)) a c)) <= B * (1 / 2) ^ S m * exp (2 * K * (c - a))).
    replace ((x0 s + RInt (fun v => g s v (fun i => iter (S m) i v)) a c) - (x0 s + RInt (fun v => g s v (fun i => iter m i v)) a c))
      with (RInt (fun v => g s v (fun i => iter (S m) i v) - g s v (fun i => iter m i v)) a c).
    2:{ rewrite (RInt_minus (V := R_CompleteNormedModule)) by (apply iter_int; exact Hs). unfold minus, plus, opp; cbn. ring. }
    destruct (exp_int c (K * (B * (1 / 2) ^ m)) (proj1 Hc)) as [EI XI]. eapply Rle_trans; [apply (RInt_bound _ (fun v => K * (B * (1 / 2) ^ m) * exp (2 * K * (v - a)))); [lra| |exact XI|]|].
    + apply (ex_RInt_minus (V := R_NormedModule)); apply iter_int; exact Hs.
    + intros v Hv. eapply Rle_trans; [apply (Hlip s v _ _ (B * (1 / 2) ^ m * exp (2 * K * (v - a))) Hs)|right; ring].
      intros i Hi. pose proof (IH i v Hi) as X. rewrite (pin_in v) in X by lra. exact X.
    + rewrite EI. assert (0 <= B * (1 / 2) ^ m) by (apply Rmult_le_pos; [exact HB|apply pow_le; lra]).
      replace (K * (B * (1 / 2) ^ m) * ((exp (2 * K * (c - a)) - 1) / (2 * K))) with (B * (1 / 2) ^ m / 2 * (exp (2 * K * (c - a)) - 1)) by (field; lra). cbn [pow]. nra.
Qed.
Theorem picard : exists x : nat -> R -> R, (forall s t, (s < n)%nat -> continuous (x s) t) /\ (forall s, (s < n)%nat -> x s a = x0 s) /\
  forall s t, (s < n)%nat -> a < t < b -> is_derive (x s) t (g s t (fun i => x i t)).
Proof.
  destruct first_bound as (B & HB & H1). pose proof (iter_step B HB H1) as H2. set (W := B * exp (2 * K * (b - a))).
  assert (HW : 0 <= W) by (apply Rmult_le_pos; [exact HB|apply Rlt_le, exp_pos]).
  assert (P : forall m, 0 < (1 / 2) ^ m) by (intros m; apply pow_lt; lra).
  assert (H3 : forall m s t, (s < n)%nat -> Rabs (iter (S m) s t - iter m s t) <= W * (1 / 2) ^ m).
  { intros m s t Hs. eapply Rle_trans; [apply (H2 m s t Hs)|]. unfold W. pose proof (pin_range t) as Hc.
    assert (exp (2 * K * (pin t - a)) <= exp (2 * K * (b - a))) by (destruct (Req_dec (pin t) b) as [->|Hn]; [lra|apply Rlt_le, exp_increasing; nra]).
    assert (0 <= B * (1 / 2) ^ m) by (apply Rmult_le_pos; [exact HB|apply Rlt_le, P]). nra. }
  assert (H4 : forall s t, (s < n)%nat -> exists l : R, forall m, Rabs (l - iter m s t) <= 2 * W * (1 / 2) ^ m) by (intros s t Hs; apply halves; [exact HW|intros m; apply H3; exact Hs]).
  set (x := fun s t => real (Lim_seq (fun m => iter m s t))).
  assert (Hsmall : forall c, 0 <= c -> forall eps, 0 < eps -> exists m, c * (1 / 2) ^ m < eps).
  { intros c Hc eps He. assert (Hl : is_lim_seq (fun m => c * (1 / 2) ^ m) 0).
    { replace (Finite 0) with (Rbar_mult c 0) by (cbn; f_equal; ring). apply is_lim_seq_scal_l. apply is_lim_seq_geom. rewrite Rabs_pos_eq; lra. }
    apply is_lim_seq_spec in Hl. destruct (Hl (mkposreal _ He)) as [M HM]. exists M. pose proof (HM M (le_n M)) as X. cbn in X. rewrite Rminus_0_r in X. apply Rabs_def2 in X. apply X. }
  assert (Hx : forall s t m, (s < n)%nat -> Rabs (x s t - iter m s t) <= 2 * W * (1 / 2) ^ m).
  { intros s t m Hs. destruct (H4 s t Hs) as [l Hl]. assert (E : is_lim_seq (fun m => iter m s t) l).
    { apply is_lim_seq_spec. intros [eps He]. destruct (Hsmall (2 * W) ltac:(lra) eps He) as [M HM]. exists M. intros i Hi. cbn. rewrite Rabs_minus_sym. eapply Rle_lt_trans; [apply Hl|].
      eapply Rle_lt_trans; [|exact HM]. apply Rmult_le_compat_l; [lra|]. replace i with (M + (i - M))%nat by lia. rewrite pow_add. pose proof (P M).
      pose proof (pow_incr (1 / 2) 1 (i - M) ltac:(lra)) as Q. rewrite pow1 in Q. nra. }
    unfold x. rewrite (is_lim_seq_unique _ _ E). exact (Hl m). }
  assert (Hxc : forall s t, (s < n)%nat -> continuous (x s) t).
  { intros s t Hs. apply cont_eps. intros [eps He]. destruct (Hsmall (2 * W) ltac:(lra) (eps / 3) ltac:(lra)) as [m Hm].
    assert (He3 : 0 < eps / 3) by lra. destruct (proj1 (cont_eps _ _) (iter_cont m s t Hs) (mkposreal _ He3)) as [d Hd]. exists d. intros v Hv. cbn in Hd |- *. pose proof (Hd v Hv) as X. pose proof (Hx s v m Hs) as Y. pose proof (Hx s t m Hs) as Z. rewrite Rabs_minus_sym in Z.
    replace (x s v - x s t) with ((x s v - iter m s v) + ((iter m s v - iter m s t) + (iter m s t - x s t))) by ring.
    eapply Rle_lt_trans; [apply Rabs_triang|]. pose proof (Rabs_triang (iter m s v - iter m s t) (iter m s t - x s t)). lra. }
  assert (Hgc : forall s v, (s < n)%nat -> continuous (fun v => g s v (fun i => x i v)) v) by (intros s v Hs; apply comp_cont; [exact Hs|]; intros i Hi; apply Hxc; exact Hi).
  assert (Hint : forall s t, (s < n)%nat -> x s t = x0 s + RInt (fun v => g s v (fun i => x i v)) a (pin t)).
  { intros s t Hs. set (r := x0 s + RInt (fun v => g s v (fun i => x i v)) a (pin t)).
    assert (Hd : forall m, Rabs (x s t - r) <= (2 * W + K * (2 * W) * (b - a)) * (1 / 2) ^ m).
    { intros m. pose proof (Hx s t (S m) Hs) as X. assert (Y : Rabs (iter (S m) s t - r) <= K * (2 * W * (1 / 2) ^ m) * (b - a)).
      { unfold r. cbn [iter]. pose proof (pin_range t) as Hc. set (c := pin t) in *.
        replace ((x0 s + RInt (fun v => g s v (fun i => iter m i v)) a c) - (x0 s + RInt (fun v => g s v (fun i => x i v)) a c)) with (RInt (fun v => g s v (fun i => iter m i v) - g s v (fun i => x i v)) a c).
        2:{ rewrite (RInt_minus (V := R_CompleteNormedModule)); [|apply iter_int; exact Hs|apply cont_int; intros v; apply Hgc; exact Hs]. unfold minus, plus, opp; cbn. ring. }
        eapply Rle_trans; [apply (RInt_bound _ (fun _ => K * (2 * W * (1 / 2) ^ m))); [lra| |apply (ex_RInt_const (V := R_NormedModule))|]|].
        - apply (ex_RInt_minus (V := R_NormedModule)); [apply iter_int; exact Hs|apply cont_int; intros v; apply Hgc; exact Hs].
        - intros v Hv. apply Hlip; [exact Hs|]. intros i Hi. rewrite Rabs_minus_sym. apply Hx. exact Hi.
        - rewrite (RInt_const (V := R_CompleteNormedModule)). unfold scal; cbn; unfold mult; cbn. pose proof (P m).
          assert (0 <= K * (2 * W * (1 / 2) ^ m)) by (apply Rmult_le_pos; [lra|apply Rmult_le_pos; lra]). nra. }
      replace (x s t - r) with ((x s t - iter (S m) s t) + (iter (S m) s t - r)) by ring. eapply Rle_trans; [apply Rabs_triang|]. cbn [pow] in X. pose proof (P m). nra. }
    assert (Z : Rabs (x s t - r) <= 0).
    { apply Rnot_lt_le. intros Hpos. assert (H0 : 0 <= 2 * W + K * (2 * W) * (b - a)) by (assert (0 <= K * (2 * W) * (b - a)) by (apply Rmult_le_pos; [apply Rmult_le_pos; lra|lra]); lra). destruct (Hsmall _ H0 _ Hpos) as [m Hm]. pose proof (Hd m). lra. }
    pose proof (Rabs_pos (x s t - r)). assert (Rabs (x s t - r) = 0) as E by lra. apply Rabs_eq_0 in E. lra. }
  exists x. split; [exact Hxc|]. split.
  - intros s Hs. rewrite (Hint s a Hs), (pin_in a) by lra. rewrite (RInt_point (V := R_CompleteNormedModule)). unfold zero; cbn. ring.
  - intros s t Hs Ht. apply (is_derive_ext_loc (fun t => x0 s + RInt (fun v => g s v (fun i => x i v)) a t)).
    + assert (Hd : 0 < Rmin (t - a) (b - t)) by (apply Rmin_glb_lt; lra). exists (mkposreal _ Hd). intros v Hv. unfold ball in Hv; cbn in Hv. unfold AbsRing_ball, abs, minus, plus, opp in Hv; cbn in Hv.
      apply Rabs_def2 in Hv. pose proof (Rmin_l (t - a) (b - t)). pose proof (Rmin_r (t - a) (b - t)). rewrite (Hint s v Hs), (pin_in v) by lra. reflexivity.
    + evar_last; [apply (is_derive_plus (V := R_NormedModule)); [apply (is_derive_const (V := R_NormedModule))|]|].
      * apply (is_derive_RInt (V := R_NormedModule) (fun v => g s v (fun i => x i v)) _ a); [|apply Hgc; exact Hs]. apply filter_forall. intros c. apply (RInt_correct (V := R_CompleteNormedModule)). apply cont_int. intros v. apply Hgc. exact Hs.
      * unfold plus, zero; cbn. ring.
Qed.
End Picard.
