(** Gauss-type exactness of the LGR and LGL quadrature weights (proofs). *)
From Coq Require Import Reals Lia Lra Bool Arith.
From Coquelicot Require Import Coquelicot.
From Coq Require Import String List.
From Verif Require Import Num PyList Mat Poly Roots Colloc Spec NumR PolyR ListR CollocR CompR.
Import ListNotations.
Open Scope R_scope.

(** divisibility by the node polynomial *)
Lemma factor_all rs : forall c, NoDup rs -> (forall r, In r rs -> peval c r = 0) ->
  exists q, length q = (length c - length rs)%nat /\ forall x, peval c x = prod_roots rs x * peval q x.
Proof.
  induction rs as [|r rs IH]; intros c Hnd Hz.
  - exists c. split; [cbn; lia|]. intros; cbn; lra.
  - destruct (synth_div c r) as (q & Hl & Hq).
    rewrite (Hz r (or_introl eq_refl)) in Hq.
    inversion Hnd as [|? ? Hni Hnd']; subst.
    destruct (IH q Hnd') as (q' & Hl' & Hq').
    + intros s Hs. specialize (Hq s). rewrite (Hz s (or_intror Hs)) in Hq.
      assert (s <> r) by (intros ->; auto).
      assert (s - r <> 0) by lra.
      assert (E : (s - r) * peval q s = 0) by lra.
      apply Rmult_integral in E. destruct E; [lra|auto].
    + exists q'. split; [cbn; lia|]. intros x. rewrite Hq, Hq'. cbn. lra.
Qed.

Lemma comp_lin c (al be : R) : exists d, length d = length c /\ forall x, peval d x = peval c (al + be * x).
Proof.
  induction c as [|a c (d & Hl & Hd)].
  - exists []. split; reflexivity.
  - pose (d' := match d with [] => [a] | _ => @padd Rnum [a] (@pmul Rnum [al; be] d) end).
    exists d'. split.
    + unfold d'. destruct d as [|b d]; [cbn in *; lia|].
      rewrite length_padd. rewrite length_pmul by discriminate. cbn [length] in *. lia.
    + intros x. unfold d'. destruct d as [|b d].
      * assert (c = []) by (destruct c; [auto|discriminate]). subst c. cbn. lra.
      * rewrite peval_padd, peval_pmul. rewrite Hd. cbn [peval]. lra.
Qed.

Lemma RInt_scale1 (f : R -> R) t0 t1 : t0 < t1 -> (forall x, continuous f x) ->
  RInt f t0 t1 = (t1 - t0) / 2 * RInt (fun u => f (scale1 t0 t1 u)) (-1) 1.
Proof.
  intros Ht Hf. set (h := (t1 - t0) / 2).
  assert (H : RInt (fun u => scal h (f (h * u + (t0 + h)))) (-1) 1 = RInt f t0 t1).
  { eapply eq_trans; [apply (RInt_comp_lin f h (t0 + h) (-1) 1)|].
    - apply (ex_RInt_continuous f). intros z _. apply Hf.
    - f_equal; unfold h; lra. }
  rewrite <- H.
  rewrite (RInt_scal (fun u => f (h * u + (t0 + h)))).
  - change (h * RInt (fun u => f (h * u + (t0 + h))) (-1) 1 = h * RInt (fun u => f (scale1 t0 t1 u)) (-1) 1).
    apply f_equal. apply RInt_ext. intros u _. f_equal. unfold scale1, h. lra.
  - apply (ex_RInt_continuous (fun u => f (h * u + (t0 + h)))). intros z _.
    apply (continuous_comp (fun u => h * u + (t0 + h)) f); [|apply Hf].
    apply (ex_derive_continuous (fun u => h * u + (t0 + h))). auto_derive. auto.
Qed.

Lemma prod_roots_scale t0 t1 s u :
  prod_roots (map (scale1 t0 t1) s) (scale1 t0 t1 u) = ((t1 - t0) / 2) ^ length s * prod_roots s u.
Proof. induction s; cbn; [lra|]. rewrite IHs. unfold scale1. lra. Qed.
Lemma prod_roots_app a b x : prod_roots (a ++ b) x = prod_roots a x * prod_roots b x.
Proof. induction a; cbn; [lra|rewrite IHa; lra]. Qed.

Lemma RInt_Rscal (f : R -> R) (k a b : R) : RInt f a b = 0 -> ex_RInt f a b -> RInt (fun x => k * f x) a b = 0.
Proof.
  intros H E. transitivity (scal k (RInt f a b)); [apply (RInt_scal f a b k E)|]. rewrite H. change (k * 0 = 0). lra.
Qed.
Lemma continuous_prod_roots rs x : continuous (prod_roots rs) x.
Proof.
  induction rs; cbn.
  - apply continuous_const.
  - apply (continuous_mult (fun x => x - a) (prod_roots rs)); [|exact IHrs].
    apply (ex_derive_continuous (fun x => x - a)). auto_derive. auto.
Qed.


(** on [-1,1]: the weighted node polynomial integrates to 0 against low degrees *)
Lemma orth_zero (a b : nat) js e k : jacobi_roots (length js) a b js -> (length e <= length js)%nat ->
  RInt (fun u => k * ((1 - u) ^ a * (1 + u) ^ b * prod_roots js u * peval e u)) (-1) 1 = 0.
Proof.
  intros (_ & _ & _ & Ho) He. apply RInt_Rscal; [apply Ho; auto|].
  apply (ex_RInt_continuous (fun u => (1 - u) ^ a * (1 + u) ^ b * prod_roots js u * peval e u)).
  intros z _.
  apply (continuous_mult (fun u => (1 - u) ^ a * (1 + u) ^ b * prod_roots js u) (peval e)); [|apply continuous_peval].
  apply (continuous_mult (fun u => (1 - u) ^ a * (1 + u) ^ b) (prod_roots js)); [|apply continuous_prod_roots].
  apply (ex_derive_continuous (fun u => (1 - u) ^ a * (1 + u) ^ b)). auto_derive. auto.
Qed.
Lemma orth_scaled (a b : nat) (t0 t1 k : R) js (f : R -> R) e : t0 < t1 -> (forall x, continuous f x) ->
  jacobi_roots (length js) a b js -> (length e <= length js)%nat ->
  (forall u, f (scale1 t0 t1 u) = k * ((1 - u) ^ a * (1 + u) ^ b * prod_roots js u * peval e u)) ->
  RInt f t0 t1 = 0.
Proof.
  intros Ht Hf Hj He H. rewrite RInt_scale1 by auto.
  erewrite RInt_ext by (intros u _; apply H). rewrite orth_zero; auto. lra.
Qed.

Lemma nodes_gauss (r c : list R) (t0 t1 : R) : NoDup r ->
  (forall q, (length q <= length c - length r)%nat -> RInt (fun x => prod_roots r x * peval q x) t0 t1 = 0) ->
  (length r <= length c)%nat ->
  Rsum (length r) (fun j => ell_int r t0 t1 j * peval c (nth j r 0)) = RInt (peval c) t0 t1.
Proof.
  intros Hnd Hz Hlc.
  destruct (interp_exists r (fun j => peval c (nth j r 0)) Hnd) as (c0 & Hl0 & Hc0).
  pose (d := @padd Rnum c (@pscale Rnum (-1) c0)).
  assert (Hd : forall x, peval d x = peval c x - peval c0 x).
  { intros x. unfold d. rewrite peval_padd, peval_pscale. nred. lra. }
  destruct (factor_all r d Hnd) as (q & Hlq & Hq).
  { intros s Hs. rewrite Hd. destruct (In_nth r s 0 Hs) as (k & Hk & <-). rewrite Hc0 by auto. lra. }
  assert (Hld : (length d <= length c)%nat).
  { unfold d. rewrite length_padd, length_pscale. lia. }
  erewrite Rsum_ext by (intros j Hj; rewrite <- (Hc0 j Hj); reflexivity).
  unfold ell_int. eapply eq_trans; [exact (weights_exact r c0 t0 t1 Hnd Hl0)|].
  assert (E : RInt (fun x => peval c0 x + prod_roots r x * peval q x) t0 t1 = RInt (peval c) t0 t1).
  { apply RInt_ext. intros x _. rewrite <- Hq, Hd. lra. }
  rewrite <- E.
  transitivity (plus (RInt (peval c0) t0 t1) (RInt (fun x => prod_roots r x * peval q x) t0 t1)).
  { rewrite Hz by (nred; lia). change (RInt (peval c0) t0 t1 = RInt (peval c0) t0 t1 + 0). lra. }
  symmetry. apply (RInt_plus (peval c0) (fun x => prod_roots r x * peval q x)).
  - apply (ex_RInt_continuous (peval c0)). intros; apply continuous_peval.
  - apply (ex_RInt_continuous (fun x => prod_roots r x * peval q x)). intros z _.
    apply (continuous_mult (prod_roots r) (peval q)); [apply continuous_prod_roots|apply continuous_peval].
Qed.

Definition ends (t0 t1 : R) (js : list R) : list R := map (scale1 t0 t1) ((-1 :: js) ++ [1]).
Lemma ends_length t0 t1 js : length (ends t0 t1 js) = (length js + 2)%nat.
Proof. unfold ends. rewrite map_length, app_length. cbn. lia. Qed.
Lemma cont_pq r q x : continuous (fun x => prod_roots r x * peval q x) x.
Proof. apply (continuous_mult (prod_roots r) (peval q)); [apply continuous_prod_roots|apply continuous_peval]. Qed.
Lemma ends_prod t0 t1 js u : prod_roots (ends t0 t1 js) (scale1 t0 t1 u) =
  - ((t1 - t0) / 2) ^ (length js + 2) * ((1 - u) * (1 + u) * prod_roots js u).
Proof.
  unfold ends. rewrite prod_roots_scale, prod_roots_app.
  replace (length ((-1 :: js) ++ [1])) with (length js + 2)%nat by (rewrite app_length; cbn; lia).
  cbn. lra.
Qed.

Lemma lobatto_gauss (t0 t1 : R) js c : t0 < t1 -> NoDup (ends t0 t1 js) ->
  jacobi_roots (length js) 1 1 js -> (length c <= 2 * length js + 2)%nat ->
  (length js + 2 <= length c)%nat ->
  Rsum (length js + 2) (fun j => ell_int (ends t0 t1 js) t0 t1 j * peval c (nth j (ends t0 t1 js) 0))
  = RInt (peval c) t0 t1.
Proof.
  intros Ht Hnd Hj Hc Hc2. rewrite <- (ends_length t0 t1 js). apply nodes_gauss; auto.
  2:{ rewrite ends_length; auto. }
  intros q Hq. rewrite ends_length in Hq.
  destruct (comp_lin q (t0 + (t1 - t0) / 2) ((t1 - t0) / 2)) as (d & Hld & Hd).
  apply (orth_scaled 1 1 t0 t1 (- ((t1 - t0) / 2) ^ (length js + 2)) js _ d); auto.
  - intros x. apply cont_pq.
  - lia.
  - intros u. rewrite ends_prod, Hd.
    replace (t0 + (t1 - t0) / 2 + (t1 - t0) / 2 * u) with (scale1 t0 t1 u) by (unfold scale1; lra). ring.
Qed.
Lemma radau_gauss (t0 t1 : R) js c : t0 < t1 -> NoDup (ends t0 t1 js) -> (1 <= length js)%nat ->
  jacobi_roots (length js) 1 0 js -> (length c <= 2 * length js + 1)%nat ->
  (length js + 2 <= length c)%nat ->
  Rsum (length js + 2) (fun j => ell_int (ends t0 t1 js) t0 t1 j * peval c (nth j (ends t0 t1 js) 0))
  = RInt (peval c) t0 t1.
Proof.
  intros Ht Hnd H1 Hj Hc Hc2. rewrite <- (ends_length t0 t1 js). apply nodes_gauss; auto.
  2:{ rewrite ends_length; auto. }
  intros q Hq. rewrite ends_length in Hq.
  destruct (comp_lin q (t0 + (t1 - t0) / 2) ((t1 - t0) / 2)) as (d & Hld & Hd).
  apply (orth_scaled 1 0 t0 t1 (- ((t1 - t0) / 2) ^ (length js + 2)) js _ (@padd Rnum d (0 :: d))); auto.
  - intros x. apply cont_pq.
  - rewrite length_padd. cbn [length]. lia.
  - intros u. rewrite ends_prod, peval_padd. cbn [peval]. rewrite Hd.
    replace (t0 + (t1 - t0) / 2 + (t1 - t0) / 2 * u) with (scale1 t0 t1 u) by (unfold scale1; lra). ring.
Qed.

(** the first weight of LGR vanishes *)
Lemma radau_w0 (t0 t1 : R) js : t0 < t1 -> NoDup (ends t0 t1 js) -> (1 <= length js)%nat ->
  jacobi_roots (length js) 1 0 js -> ell_int (ends t0 t1 js) t0 t1 0 = 0.
Proof.
  intros Ht Hnd H1 Hj. unfold ell_int.
  set (r := ends t0 t1 js) in *.
  assert (Hlr : length r = (length js + 2)%nat) by apply ends_length.
  set (l0 := @lagrange_num Rnum r 0).
  assert (Hl0 : @length R l0 = (length js + 2)%nat) by (unfold l0; rewrite length_lagrange_num; [exact Hlr|nred; rewrite Hlr; lia]).
  assert (Hr : r = scale1 t0 t1 (-1) :: map (scale1 t0 t1) (js ++ [1])) by reflexivity.
  assert (Hnd' : NoDup (map (scale1 t0 t1) (js ++ [1]))) by (rewrite Hr in Hnd; inversion Hnd; auto).
  destruct (factor_all (map (scale1 t0 t1) (js ++ [1])) l0 Hnd') as (q & Hlq & Hq).
  { intros s Hs. destruct (In_nth _ s 0 Hs) as (k & Hk & <-).
    rewrite map_length, app_length in Hk. cbn [length] in Hk.
    replace (nth k (map (scale1 t0 t1) (js ++ [1])) 0) with (nth (S k) r 0) by (rewrite Hr; reflexivity).
    unfold l0. rewrite peval_lagrange_num by (auto; nred; lia). rewrite lagv_node by (auto; nred; lia). reflexivity. }
  rewrite map_length, app_length in Hlq. cbn [length] in Hlq. nred. rewrite Hl0 in Hlq.
  destruct q as [|q0 [|q1 q]]; cbn in Hlq; try lia.
  assert (E : RInt (fun x => prod_roots (map (scale1 t0 t1) (js ++ [1])) x * peval [q0] x) t0 t1 = RInt (peval l0) t0 t1).
  { apply RInt_ext. intros x _. symmetry. apply Hq. }
  rewrite <- E.
  apply (orth_scaled 1 0 t0 t1 (- ((t1 - t0) / 2) ^ (length js + 1)) js _ [q0]); auto.
  - intros x. apply cont_pq.
  - intros u. rewrite prod_roots_scale, prod_roots_app, app_length. cbn. lra.
Qed.
