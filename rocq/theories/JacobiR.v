(** Existence of Jacobi roots: the assumptions on scipy.special.j_roots are satisfiable (proofs). *)
From Coq Require Import Reals Lia Lra Bool Arith Permutation Sorted ClassicalEpsilon.
From Coquelicot Require Import Coquelicot.
From Coq Require Import String List.
From Verif Require Import Num PyList Mat Poly Roots Colloc Spec NumR PolyR ListR CollocR CompR GaussR.
Import ListNotations.
Open Scope R_scope.

Section Weight.
Variable w : R -> R.
Hypothesis w_cont : forall x, continuous w x.
Hypothesis w_pos : forall x, -1 < x < 1 -> 0 < w x.

Definition ip (f : R -> R) : R := RInt (fun x => w x * f x) (-1) 1.
Lemma wf_cont f : (forall x, continuous f x) -> forall x, continuous (fun x => w x * f x) x.
Proof. intros Hf x. apply (continuous_mult w f); auto. Qed.
Lemma wf_ex f a b : (forall x, continuous f x) -> ex_RInt (fun x => w x * f x) a b.
Proof. intros Hf. apply (ex_RInt_continuous (fun x => w x * f x)). intros z _. apply wf_cont; auto. Qed.

Lemma ip_ext f g : (forall x, f x = g x) -> ip f = ip g.
Proof. intros H. apply RInt_ext. intros x _. rewrite H. reflexivity. Qed.
Lemma ip_plus f g : (forall x, continuous f x) -> (forall x, continuous g x) ->
  ip (fun x => f x + g x) = ip f + ip g.
Proof.
  intros Hf Hg. unfold ip.
  transitivity (RInt (fun x => plus (w x * f x) (w x * g x)) (-1) 1).
  - apply RInt_ext. intros x _. change (w x * (f x + g x) = w x * f x + w x * g x). lra.
  - apply (RInt_plus (fun x => w x * f x) (fun x => w x * g x)); apply wf_ex; auto.
Qed.
Lemma ip_scal f k : (forall x, continuous f x) -> ip (fun x => k * f x) = k * ip f.
Proof.
  intros Hf. unfold ip.
  transitivity (RInt (fun x => scal k (w x * f x)) (-1) 1).
  - apply RInt_ext. intros x _. change (w x * (k * f x) = k * (w x * f x)). lra.
  - apply (RInt_scal (fun x => w x * f x)). apply wf_ex; auto.
Qed.

Lemma ip_pos f x0 : (forall x, continuous f x) -> (forall x, -1 < x < 1 -> 0 <= f x) ->
  -1 < x0 < 1 -> 0 < f x0 -> 0 < ip f.
Proof.
  intros Hf Hnn Hx0 Hp. unfold ip. set (g := fun x => w x * f x).
  assert (Hg : forall x, continuous g x) by (apply wf_cont; auto).
  assert (Hg0 : 0 < g x0) by (unfold g; apply Rmult_lt_0_compat; [apply w_pos; auto|auto]).
  assert (Hgn : forall x, -1 < x < 1 -> 0 <= g x).
  { intros x Hx. unfold g. apply Rmult_le_pos; [left; apply w_pos; auto|auto]. }
  assert (HD : exists d : posreal, forall y, Rabs (y - x0) < d -> 0 < g y).
  { assert (Hc := Hg x0). destruct (proj1 (filterlim_locally g (g x0)) Hc (mkposreal (g x0) Hg0)) as [d Hd].
    exists d. intros y Hy. specialize (Hd y Hy). unfold ball in Hd; cbn in Hd. unfold AbsRing_ball in Hd; cbn in Hd.
    unfold abs, minus, plus, opp in Hd; cbn in Hd. apply Rabs_def2 in Hd. lra. }
  destruct HD as [d Hd].
  pose (e := Rmin (d / 2) (Rmin ((x0 + 1) / 2) ((1 - x0) / 2))).
  assert (He : 0 < e /\ e <= d / 2 /\ e <= (x0 + 1) / 2 /\ e <= (1 - x0) / 2).
  { unfold e. pose proof (cond_pos d). pose proof (Rmin_l (d / 2) (Rmin ((x0 + 1) / 2) ((1 - x0) / 2))).
    pose proof (Rmin_r (d / 2) (Rmin ((x0 + 1) / 2) ((1 - x0) / 2))).
    pose proof (Rmin_l ((x0 + 1) / 2) ((1 - x0) / 2)). pose proof (Rmin_r ((x0 + 1) / 2) ((1 - x0) / 2)).
    repeat split; try lra. apply Rmin_glb_lt; [lra|]. apply Rmin_glb_lt; lra. }
  assert (Hex : forall a b, ex_RInt g a b).
  { intros a b. apply (ex_RInt_continuous g). intros; apply Hg. }
  assert (E1 : RInt g (-1) 1 = RInt g (-1) (x0 - e) + (RInt g (x0 - e) (x0 + e) + RInt g (x0 + e) 1)).
  { rewrite <- (RInt_Chasles g (-1) (x0 - e) 1) by apply Hex.
    rewrite <- (RInt_Chasles g (x0 - e) (x0 + e) 1) by apply Hex. reflexivity. }
  change (0 < RInt g (-1) 1). rewrite E1.
  assert (A1 : 0 <= RInt g (-1) (x0 - e)).
  { apply RInt_ge_0; [lra|apply Hex|]. intros x Hx. apply Hgn. lra. }
  assert (A3 : 0 <= RInt g (x0 + e) 1).
  { apply RInt_ge_0; [lra|apply Hex|]. intros x Hx. apply Hgn. lra. }
  assert (A2 : 0 < RInt g (x0 - e) (x0 + e)).
  { apply RInt_gt_0; [lra| |].
    - intros x Hx. apply Hd. pose proof (cond_pos d). apply Rabs_def1; lra.
    - intros x Hx. apply Hg. }
  lra.
Qed.

(** polynomials as coefficient lists *)
Definition pip (p q : list R) : R := ip (fun x => peval p x * peval q x).
Lemma pq_cont p q x : continuous (fun x => peval p x * peval q x) x.
Proof. apply (continuous_mult (peval p) (peval q)); apply continuous_peval. Qed.
Lemma pip_ext p p' q q' : (forall x, peval p x = peval p' x) -> (forall x, peval q x = peval q' x) ->
  pip p q = pip p' q'.
Proof. intros H H'. apply ip_ext. intros x. rewrite H, H'. reflexivity. Qed.
Lemma pip_comb_l p a k b q : (forall x, peval p x = peval a x + k * peval b x) ->
  pip p q = pip a q + k * pip b q.
Proof.
  intros H. unfold pip.
  rewrite (ip_ext _ (fun x => peval a x * peval q x + k * (peval b x * peval q x))) by (intros x; rewrite H; ring).
  rewrite (ip_plus (fun x => peval a x * peval q x) (fun x => k * (peval b x * peval q x))).
  - rewrite (ip_scal (fun x => peval b x * peval q x)); [reflexivity|]. intros; apply pq_cont.
  - intros; apply pq_cont.
  - intros x. apply (continuous_mult (fun _ => k) (fun x => peval b x * peval q x)); [apply continuous_const|apply pq_cont].
Qed.
Lemma pip_comm p q : pip p q = pip q p.
Proof. apply ip_ext. intros; apply Rmult_comm. Qed.
Lemma pip_self_pos p x0 : -1 < x0 < 1 -> peval p x0 <> 0 -> 0 < pip p p.
Proof.
  intros Hx H. apply (ip_pos (fun x => peval p x * peval p x) x0); auto.
  - intros; apply pq_cont.
  - intros x _. nra.
  - nra.
Qed.

(** a monic polynomial is not zero on (-1,1) *)
Lemma monic_nonzero (e : list R) : exists x, -1 < x < 1 /\ peval (e ++ [1]) x <> 0.
Proof.
  set (c := e ++ [1]).
  pose (rs := map (fun k => / (INR k + 2)) (seq 0 (length c))).
  destruct (Classical_Prop.classic (exists x, -1 < x < 1 /\ peval c x <> 0)) as [H|H]; [exact H|exfalso].
  assert (Hz : forall x, -1 < x < 1 -> peval c x = 0).
  { intros x Hx. destruct (Req_dec (peval c x) 0); auto. exfalso. apply H. eauto. }
  assert (Hall : forall x, peval c x = 0).
  { apply (many_roots_zero rs).
    - unfold rs. apply FinFun.Injective_map_NoDup; [|apply seq_NoDup].
      intros a b E. pose proof (pos_INR a). pose proof (pos_INR b).
      assert (INR a + 2 = INR b + 2) by (rewrite <- (Rinv_inv (INR a + 2)), <- (Rinv_inv (INR b + 2)), E; reflexivity).
      apply INR_eq. lra.
    - unfold rs. rewrite map_length, seq_length. lia.
    - intros r Hr. unfold rs in Hr. apply in_map_iff in Hr. destruct Hr as (k & <- & _).
      apply Hz. pose proof (pos_INR k). split.
      + assert (0 < / (INR k + 2)) by (apply Rinv_0_lt_compat; lra). lra.
      + rewrite <- Rinv_1. apply Rinv_lt_contravar; lra. }
  (* derivative argument avoided: a polynomial vanishing everywhere has zero coefficients *)
  assert (Hc0 : forall d : list R, (forall x, peval d x = 0) -> List.Forall (fun a => a = 0) d).
  { induction d as [|a d IH]; intros Hd; [constructor|].
    assert (Ha : a = 0) by (specialize (Hd 0); cbn in Hd; lra).
    constructor; [exact Ha|]. apply IH. intros x.
    destruct (Req_dec x 0) as [->|Hx].
    - (* continuity at 0 *)
      assert (Hnz : forall y, y <> 0 -> peval d y = 0).
      { intros y Hy. specialize (Hd y). cbn in Hd. rewrite Ha in Hd.
        assert (E : y * peval d y = 0) by lra. apply Rmult_integral in E. destruct E; [lra|auto]. }
      apply (many_roots_zero (map (fun k => INR (S k)) (seq 0 (length d)))).
      + apply FinFun.Injective_map_NoDup; [|apply seq_NoDup]. intros p q E. apply INR_eq in E. lia.
      + rewrite map_length, seq_length. lia.
      + intros r Hr. apply in_map_iff in Hr. destruct Hr as (k & <- & _). apply Hnz. apply not_0_INR. lia.
    - specialize (Hd x). cbn in Hd. rewrite Ha in Hd. assert (E : x * peval d x = 0) by lra.
      apply Rmult_integral in E. destruct E; [lra|auto]. }
  specialize (Hc0 c Hall). unfold c in Hc0. apply List.Forall_app in Hc0. destruct Hc0 as [_ Hc1].
  inversion Hc1; subst. lra.
Qed.

Lemma peval_app (a b : list R) x : peval (a ++ b) x = peval a x + x ^ length a * peval b x.
Proof. induction a as [|c a IH]; cbn; [lra|rewrite IH; lra]. Qed.
(** pad a polynomial to a given length *)
Definition pad (n : nat) (d : list R) : list R := d ++ repeat 0 (n - length d).
Lemma peval_zeros n x : peval (repeat 0 n) x = 0.
Proof. induction n; cbn; [reflexivity|rewrite IHn; lra]. Qed.
Lemma peval_pad n d x : peval (pad n d) x = peval d x.
Proof. unfold pad. rewrite peval_app, peval_zeros. lra. Qed.
Lemma length_pad n d : (length d <= n)%nat -> length (pad n d) = n.
Proof. intros H. unfold pad. rewrite app_length, repeat_length. lia. Qed.

Definition xpow (n : nat) : list R := repeat 0 n ++ [1].
Lemma peval_xpow n x : peval (xpow n) x = x ^ n.
Proof. unfold xpow. rewrite peval_app, peval_zeros, repeat_length. cbn. lra. Qed.

Lemma projection n : forall c : list R, exists d, (length d <= n)%nat /\
  forall q, (length q <= n)%nat -> pip c q = pip d q.
Proof.
  induction n as [|n IH]; intros c.
  - exists []. split; [cbn; lia|]. intros [|a q] Hq; [|cbn in Hq; lia].
    unfold pip. apply ip_ext. intros x. cbn. lra.
  - destruct (IH (xpow n)) as (e & Hle & He).
    pose (u := map Ropp (pad n e) ++ [1]).
    assert (Hu : forall x, peval u x = x ^ n - peval e x).
    { intros x. unfold u. rewrite peval_app, map_length, length_pad by auto.
      assert (Ho : forall l : list R, peval (map Ropp l) x = - peval l x).
      { induction l; cbn; [lra|rewrite IHl; lra]. }
      rewrite Ho, peval_pad. cbn. lra. }
    assert (Hlu : length u = S n) by (unfold u; rewrite app_length, map_length, length_pad by auto; cbn; lia).
    assert (Huq : forall q, (length q <= n)%nat -> pip u q = 0).
    { intros q Hq. rewrite (pip_comb_l u (xpow n) (-1) e) by (intros x; rewrite Hu, peval_xpow; lra).
      rewrite (He q Hq). lra. }
    destruct (monic_nonzero (map Ropp (pad n e))) as (x0 & Hx0 & Hnz).
    pose proof (pip_self_pos u x0 Hx0 Hnz) as Huu.
    destruct (IH c) as (d & Hld & Hd).
    pose (k := (pip c u - pip d u) / pip u u).
    exists (@padd Rnum d (@pscale Rnum k u)). split.
    + rewrite length_padd, length_pscale. lia.
    + intros q Hq.
      rewrite (pip_comb_l (@padd Rnum d (@pscale Rnum k u)) d k u) by (intros x; rewrite peval_padd, peval_pscale; reflexivity).
      (* split q *)
      destruct (Nat.eq_dec (length q) (S n)) as [Hlq|Hlq].
      * assert (Hsp : exists q' a, q = q' ++ [a] /\ length q' = n).
        { destruct (exists_last (l := q)) as (q' & a & ->); [intros ->; discriminate|].
          exists q', a. split; [reflexivity|]. rewrite app_length in Hlq. cbn in Hlq. lia. }
        destruct Hsp as (q' & a & -> & Hlq').
        pose (q2 := @padd Rnum q' (@pscale Rnum a e)).
        assert (Hl2 : (length q2 <= n)%nat) by (unfold q2; rewrite length_padd, length_pscale; lia).
        assert (Hdec : forall p, pip p (q' ++ [a]) = pip p q2 + a * pip p u).
        { intros p. rewrite !(pip_comm p). apply pip_comb_l. intros x.
          unfold q2. rewrite peval_app, Hlq', peval_padd, peval_pscale, Hu. cbn. lra. }
        rewrite !Hdec. rewrite (Hd q2 Hl2), (Huq q2 Hl2).
        assert (E : pip c u = pip d u + k * pip u u) by (unfold k; field; lra).
        rewrite E. ring.
      * rewrite (Hd q) by lia. rewrite (Huq q) by lia. lra.
Qed.

Lemma orth_poly n : exists e : list R, length e = n /\
  forall q, (length q <= n)%nat -> pip (e ++ [1]) q = 0.
Proof.
  destruct (projection n (xpow n)) as (d & Hl & Hd).
  exists (map Ropp (pad n d)). split; [rewrite map_length; apply length_pad; auto|].
  intros q Hq. rewrite (pip_comb_l _ (xpow n) (-1) d).
  - rewrite (Hd q Hq). lra.
  - intros x. rewrite peval_app, map_length, length_pad, peval_xpow by auto.
    assert (Ho : forall l : list R, peval (map Ropp l) x = - peval l x).
    { induction l; cbn; [lra|rewrite IHl; lra]. }
    rewrite Ho, peval_pad. cbn. lra.
Qed.

(** split off all zeros in (-1,1) *)
Lemma split_zeros n : forall c : list R, (length c <= n)%nat -> (exists x, peval c x <> 0) ->
  exists rs q, List.Forall (fun r => -1 < r < 1) rs /\
    (length rs + length q <= length c)%nat /\
    (forall x, peval c x = prod_roots rs x * peval q x) /\
    (forall x, -1 < x < 1 -> peval q x <> 0).
Proof.
  induction n as [|n IH]; intros c Hn Hnz.
  - destruct c; [|cbn in Hn; lia]. destruct Hnz as [x Hx]. cbn in Hx. lra.
  - destruct (Classical_Prop.classic (exists r, -1 < r < 1 /\ peval c r = 0)) as [(r & Hr & Hz)|Hno].
    + destruct (synth_div c r) as (q & Hl & Hq).
      assert (Hc : c <> []) by (intros ->; destruct Hnz as [x Hx]; cbn in Hx; lra).
      destruct (IH q) as (rs & q' & HF & Hlen & Hfac & Hnzq).
      * destruct c; [congruence|]. cbn in *. lia.
      * destruct Hnz as [x Hx]. exists x. intros E. apply Hx. rewrite Hq, E, Hz. lra.
      * exists (r :: rs), q'. split; [constructor; auto|]. split.
        -- destruct c; [congruence|]. cbn in *. lia.
        -- split; auto. intros x. rewrite Hq, Hz, Hfac. cbn. lra.
    + exists [], c. split; [constructor|]. split; [cbn; lia|]. split; [intros; cbn; lra|].
      intros x Hx E. apply Hno. eauto.
Qed.

(** pair up repeated zeros *)
Lemma prod_roots_perm a b x : Permutation a b -> prod_roots a x = prod_roots b x.
Proof. intros H. induction H; cbn; try lra; congruence. Qed.
Lemma pair_roots rs : exists s t, NoDup s /\ incl s rs /\ (length s <= length rs)%nat /\
  forall x, prod_roots rs x = prod_roots s x * (prod_roots t x * prod_roots t x).
Proof.
  induction rs as [|a rs (s & t & Hnd & Hin & Hl & Hp)].
  - exists [], []. split; [constructor|]. split; [apply incl_refl|]. split; [cbn; lia|]. intros; cbn; lra.
  - destruct (in_dec Req_EM_T a s) as [Ha|Ha].
    + apply in_split in Ha. destruct Ha as (s1 & s2 & ->).
      exists (s1 ++ s2), (a :: t). split; [eapply NoDup_remove_1; eauto|]. split.
      * intros z Hz. right. apply Hin. apply in_app_iff in Hz. apply in_app_iff. cbn. tauto.
      * split; [rewrite app_length in *; cbn in *; lia|].
        intros x. cbn. rewrite Hp.
        rewrite (prod_roots_perm (s1 ++ a :: s2) (a :: s1 ++ s2)) by (symmetry; apply Permutation_middle).
        cbn. ring.
    + exists (a :: s), t. split; [constructor; auto|]. split.
      * intros z [->|Hz]; [left; auto|right; apply Hin; auto].
      * split; [cbn; lia|]. intros x. cbn. rewrite Hp. ring.
Qed.

Lemma const_sign q : (forall x, -1 < x < 1 -> peval q x <> 0) ->
  (forall x, -1 < x < 1 -> 0 < peval q x) \/ (forall x, -1 < x < 1 -> peval q x < 0).
Proof.
  intros Hnz.
  assert (H0 : peval q 0 <> 0) by (apply Hnz; lra).
  assert (Hiv : forall x, -1 < x < 1 -> 0 < peval q x * peval q 0).
  { intros x Hx. destruct (Rlt_le_dec 0 (peval q x * peval q 0)) as [|Hle]; auto. exfalso.
    destruct (IVT_gen (peval q) 0 x 0) as (z & Hz & Ez).
    - intros y. apply continuity_pt_filterlim. apply continuous_peval.
    - assert (peval q x <> 0) by auto. unfold Rmin, Rmax. destruct (Rle_dec _ _); nra.
    - apply (Hnz z); auto. unfold Rmin, Rmax in Hz. destruct (Rle_dec 0 x); lra. }
  destruct (Rtotal_order (peval q 0) 0) as [H|[H|H]]; [right|lra|left]; intros x Hx; specialize (Hiv x Hx); nra.
Qed.

Lemma poly_of_roots s : exists c, length c = S (length s) /\ forall x, peval c x = prod_roots s x.
Proof.
  induction s as [|a s (c & Hl & Hc)].
  - exists [1]. split; [reflexivity|]. intros; cbn; lra.
  - exists (@pmul Rnum [-a; 1] c). split.
    + rewrite length_pmul; [cbn; nred; lia|discriminate|intros ->; discriminate].
    + intros x. rewrite peval_pmul, Hc. cbn. lra.
Qed.
Lemma prod_roots_nonzero s : exists x, -1 < x < 1 /\ prod_roots s x <> 0.
Proof.
  destruct (poly_of_roots s) as (c & Hl & Hc).
  destruct (Classical_Prop.classic (exists x, -1 < x < 1 /\ prod_roots s x <> 0)) as [H|H]; [exact H|exfalso].
  (* value at 2 is not zero *)
  assert (Hall : forall x, peval c x = 0).
  { apply (many_roots_zero (map (fun k => / (INR k + 2)) (seq 0 (length c)))).
    - apply FinFun.Injective_map_NoDup; [|apply seq_NoDup].
      intros a b E. pose proof (pos_INR a). pose proof (pos_INR b).
      assert (INR a + 2 = INR b + 2) by (rewrite <- (Rinv_inv (INR a + 2)), <- (Rinv_inv (INR b + 2)), E; reflexivity).
      apply INR_eq. lra.
    - rewrite map_length, seq_length. lia.
    - intros r Hr. apply in_map_iff in Hr. destruct Hr as (k & <- & _). rewrite Hc.
      destruct (Req_dec (prod_roots s (/ (INR k + 2))) 0) as [|Hn]; auto. exfalso. apply H.
      exists (/ (INR k + 2)). split; auto. pose proof (pos_INR k). split.
      + assert (0 < / (INR k + 2)) by (apply Rinv_0_lt_compat; lra). lra.
      + rewrite <- Rinv_1. apply Rinv_lt_contravar; lra. }
  assert (Hb : exists y, forall x, In x s -> x < y).
  { clear. induction s as [|a s (y & Hy)]; [exists 0; intros x []|].
    exists (Rmax y (a + 1)). intros x [->|Hx].
    - pose proof (Rmax_r y (x + 1)). lra.
    - specialize (Hy x Hx). pose proof (Rmax_l y (a + 1)). lra. }
  destruct Hb as [y Hy]. specialize (Hall y). rewrite Hc in Hall.
  assert (Hnz : prod_roots s y <> 0).
  { clear - Hy. induction s as [|a s IH]; cbn; [lra|].
    assert (a < y) by (apply Hy; left; auto).
    apply Rmult_integral_contrapositive. split; [lra|]. apply IH. intros; apply Hy; right; auto. }
  auto.
Qed.

Lemma roots_exist n : exists s, length s = n /\ NoDup s /\ (forall x, In x s -> -1 < x < 1) /\
  forall q, (length q <= n)%nat -> ip (fun x => prod_roots s x * peval q x) = 0.
Proof.
  destruct (orth_poly n) as (e & Hl & Ho).
  destruct (monic_nonzero e) as (x1 & _ & Hx1).
  destruct (split_zeros (S n) (e ++ [1])) as (rs & q & HF & Hlen & Hfac & Hnzq).
  { rewrite app_length. cbn. lia. } { eauto. }
  destruct (pair_roots rs) as (s & t & Hnd & Hin & Hls & Hp).
  assert (Hs1 : forall x, In x s -> -1 < x < 1).
  { intros x Hx. rewrite List.Forall_forall in HF. apply HF, Hin; auto. }
  rewrite app_length in Hlen. cbn [length] in Hlen.
  assert (Hq0 : q <> []) by (intros ->; apply (Hnzq 0); [lra|reflexivity]).
  destruct (poly_of_roots s) as (cs & Hlc & Hcs).
  (* s has at least n elements *)
  assert (Hge : (n <= length s)%nat).
  { destruct (Nat.le_gt_cases n (length s)) as [|Hlt]; auto. exfalso.
    assert (H0 : pip (e ++ [1]) cs = 0) by (apply Ho; lia).
    destruct (prod_roots_nonzero (s ++ t)) as (x0 & Hx0 & Hnz0).
    rewrite prod_roots_app in Hnz0.
    assert (E : forall x, peval (e ++ [1]) x * peval cs x =
      peval q x * ((prod_roots s x * prod_roots t x) * (prod_roots s x * prod_roots t x))).
    { intros x. rewrite Hfac, Hp, Hcs. ring. }
    assert (Hsq : 0 < (prod_roots s x0 * prod_roots t x0) * (prod_roots s x0 * prod_roots t x0)) by nra.
    destruct (const_sign q Hnzq) as [Hs|Hs].
    - assert (0 < pip (e ++ [1]) cs); [|lra].
      apply (ip_pos (fun x => peval (e ++ [1]) x * peval cs x) x0); auto.
      + intros; apply pq_cont.
      + intros x Hx. rewrite E. specialize (Hs x Hx). set (z := prod_roots s x * prod_roots t x).
        assert (0 <= z * z) by nra. nra.
      + rewrite E. specialize (Hs x0 Hx0). nra.
    - assert (0 < ip (fun x => -1 * (peval (e ++ [1]) x * peval cs x))).
      2:{ rewrite (ip_scal (fun x => peval (e ++ [1]) x * peval cs x)) in H by (intros; apply pq_cont).
          change (0 < -1 * pip (e ++ [1]) cs) in H. lra. }
      apply (ip_pos (fun x => -1 * (peval (e ++ [1]) x * peval cs x)) x0); auto.
      + intros x. apply (continuous_mult (fun _ => -1) (fun x => peval (e ++ [1]) x * peval cs x)); [apply continuous_const|apply pq_cont].
      + intros x Hx. rewrite E. specialize (Hs x Hx). set (z := prod_roots s x * prod_roots t x).
        assert (0 <= z * z) by nra. nra.
      + rewrite E. specialize (Hs x0 Hx0). nra. }
  assert (Hq1 : exists k, q = [k]).
  { destruct q as [|k [|k' q]]; [congruence|eauto|cbn in Hlen; lia]. }
  destruct Hq1 as [k ->]. cbn [length] in Hlen.
  assert (Hk : k <> 0) by (specialize (Hnzq 0 ltac:(lra)); cbn in Hnzq; lra).
  assert (Hrs : length rs = n /\ length s = n) by lia.
  (* rs and s have the same length: no pairs *)
  assert (Hnd2 : NoDup rs) by (eapply NoDup_incl_NoDup; [exact Hnd|lia|exact Hin]).
  exists rs. split; [lia|]. split; [exact Hnd2|]. split.
  { rewrite List.Forall_forall in HF. exact HF. }
  intros q' Hq'. specialize (Ho q' Hq').
  rewrite (ip_ext _ (fun x => / k * (peval (e ++ [1]) x * peval q' x))).
  2:{ intros x. rewrite Hfac. cbn. field. auto. }
  rewrite (ip_scal (fun x => peval (e ++ [1]) x * peval q' x)) by (intros; apply pq_cont).
  change (/ k * pip (e ++ [1]) q' = 0). rewrite Ho. lra.
Qed.
End Weight.

(** sorting *)
Fixpoint ins (a : R) (l : list R) : list R :=
  match l with [] => [a] | b :: l' => if Rle_dec a b then a :: l else b :: ins a l' end.
Lemma ins_perm a l : Permutation (a :: l) (ins a l).
Proof.
  induction l as [|b l IH]; cbn; [auto|]. destruct (Rle_dec a b); [auto|].
  rewrite perm_swap. constructor. exact IH.
Qed.
Lemma ins_sorted a l : ~ In a l -> StronglySorted Rlt l -> StronglySorted Rlt (ins a l).
Proof.
  induction l as [|b l IH]; intros Hn Hs; cbn; [repeat constructor|].
  inversion Hs as [|? ? Hs' HF]; subst. rewrite List.Forall_forall in HF.
  destruct (Rle_dec a b) as [Hle|Hle].
  - assert (a < b) by (destruct Hle; [auto|exfalso; apply Hn; left; auto]).
    constructor; auto. constructor; auto. rewrite List.Forall_forall. intros x Hx. specialize (HF x Hx). lra.
  - constructor.
    + apply IH; auto. intros H; apply Hn; right; auto.
    + rewrite List.Forall_forall. intros x Hx. apply (Permutation_in x (Permutation_sym (ins_perm a l))) in Hx.
      destruct Hx as [<-|Hx]; [lra|apply HF; auto].
Qed.
Lemma sort_exists s : NoDup s -> exists s', Permutation s s' /\ StronglySorted Rlt s'.
Proof.
  induction s as [|a s IH]; intros Hnd; [exists []; split; [auto|constructor]|].
  inversion Hnd as [|? ? Hn Hnd']; subst. destruct (IH Hnd') as (s' & Hp & Hs).
  exists (ins a s'). split.
  - rewrite <- ins_perm. constructor. exact Hp.
  - apply ins_sorted; auto. intros H. apply Hn. eapply Permutation_in; [symmetry; exact Hp|exact H].
Qed.
Lemma sorted_increasing l : StronglySorted Rlt l -> increasing l.
Proof.
  intros H. induction H as [|a l Hs IH HF].
  - intros i j Hij. cbn in Hij. lia.
  - apply increasing_cons; auto. rewrite List.Forall_forall in HF. exact HF.
Qed.

Lemma jacobi_exists n a b : exists r, jacobi_roots n a b r.
Proof.
  pose (w := fun x : R => (1 - x) ^ a * (1 + x) ^ b).
  assert (Hc : forall x, continuous w x).
  { intros x. apply (ex_derive_continuous w). unfold w. auto_derive. auto. }
  assert (Hp : forall x, -1 < x < 1 -> 0 < w x).
  { intros x Hx. unfold w. apply Rmult_lt_0_compat; apply pow_lt; lra. }
  destruct (roots_exist w Hc Hp n) as (s & Hl & Hnd & Hin & Ho).
  destruct (sort_exists s Hnd) as (s' & Hperm & Hs').
  exists s'. split; [rewrite <- Hl; symmetry; apply Permutation_length; auto|].
  split; [apply sorted_increasing; auto|]. split.
  - intros x Hx. apply Hin. eapply Permutation_in; [symmetry; exact Hperm|exact Hx].
  - intros q Hq. rewrite <- (Ho q Hq). unfold ip, w. apply RInt_ext. intros x _.
    rewrite (prod_roots_perm s s' x Hperm).
    match goal with |- @eq _ ?u ?v => change (@eq R u v) end. ring.
Qed.

(** a library with all the assumed properties *)
Definition ideal_lib : lib Rnum :=
  Lib (N := Rnum) cos PI
    (fun n => proj1_sig (ClassicalEpsilon.constructive_indefinite_description _ (jacobi_exists n 0 0)))
    (fun n a b =>
       proj1_sig (ClassicalEpsilon.constructive_indefinite_description _
         (jacobi_exists n (if Req_EM_T a 1 then 1 else 0) (if Req_EM_T b 1 then 1 else 0))))
    (fun f a b => RInt f a b).
Lemma ideal_lib_ok : lib_ok ideal_lib.
Proof.
  constructor; cbn [ideal_lib l_cos l_pi l_leggauss l_j_roots l_integ]; auto.
  - intros n _.
    match goal with |- context [proj1_sig ?x] => destruct x as [r Hr] end. cbn [proj1_sig].
    nred. destruct (Req_EM_T 1 1); [|lra]. destruct (Req_EM_T 0 1); [lra|]. exact Hr.
  - intros n _.
    match goal with |- context [proj1_sig ?x] => destruct x as [r Hr] end. cbn [proj1_sig].
    nred. destruct (Req_EM_T 1 1); [|lra]. exact Hr.
  - intros f a b _. reflexivity.
Qed.
Lemma ideal_leggauss n : length (l_leggauss ideal_lib n) = n.
Proof.
  cbn [ideal_lib l_leggauss]. match goal with |- context [proj1_sig ?x] => destruct x as [r Hr] end.
  cbn [proj1_sig]. apply Hr.
Qed.
