(** Polynomials over R: evaluation, uniqueness of interpolation, the Lagrange basis in
    both representations, derivatives and integrals (proofs). *)
From Coq Require Import Reals List Lia Lra Bool Arith.
From Coquelicot Require Import Coquelicot.
From Verif Require Import Num PyList Poly Spec NumR.
Import ListNotations.
Open Scope R_scope.

Local Notation pval := (@pval Rnum).
Local Notation padd := (@padd Rnum).
Local Notation pscale := (@pscale Rnum).
Local Notation pmul := (@pmul Rnum).
Local Notation pder := (@pder Rnum).
Local Notation pint := (@pint Rnum).
Local Notation pdivc := (@pdivc Rnum).

Lemma pval_R c x : pval c x = peval c x.
Proof. induction c; cbn; [reflexivity|]. rewrite <- IHc. reflexivity. Qed.

Lemma peval_padd p q x : peval (padd p q) x = peval p x + peval q x.
Proof.
  revert q; induction p as [|a p IH]; intros [|b q]; cbn; try lra.
  cbn in IH. rewrite IH. lra.
Qed.
Lemma peval_pscale c p x : peval (pscale c p) x = c * peval p x.
Proof. unfold pscale. induction p; cbn; [lra|]. cbn in IHp. rewrite IHp. lra. Qed.
Lemma peval_pmul p q x : peval (pmul p q) x = peval p x * peval q x.
Proof.
  induction p as [|a p IH]; cbn [Poly.pmul peval]; [lra|].
  rewrite peval_padd, peval_pscale. cbn [peval]. rewrite IH. nred. lra.
Qed.
Lemma peval_pdivc p c x : c <> 0 -> peval (pdivc p c) x = peval p x / c.
Proof.
  intros Hc. unfold pdivc. induction p; cbn; [field; auto|]. cbn in IHp. rewrite IHp.
  field; auto.
Qed.
Lemma length_pscale c (p : list R) : @length R (pscale c p) = length p.
Proof. unfold Poly.pscale. apply map_length. Qed.
Lemma length_padd (p q : list R) : @length R (padd p q) = max (length p) (length q).
Proof.
  revert q; induction p as [|a p IH]; intros [|b q]; cbn; auto.
Qed.
Lemma length_pmul (p q : list R) : p <> [] -> q <> [] ->
  @length R (pmul p q) = (length p + length q - 1)%nat.
Proof.
  intros Hp Hq. induction p as [|a p IH]; [easy|].
  cbn [Poly.pmul]. rewrite length_padd, length_pscale. cbn [length].
  destruct p as [|b p].
  - cbn. destruct q; [easy|cbn; lia].
  - rewrite IH by easy. destruct q; [easy|cbn; lia].
Qed.

(** ** Uniqueness *)

Lemma synth_div c r : exists q, length q = pred (length c) /\
  forall x, peval c x = peval c r + (x - r) * peval q x.
Proof.
  induction c as [|a c [q [Hl Hq]]].
  - exists []. split; [reflexivity|]. intros; cbn; lra.
  - destruct c as [|b c].
    + exists []. split; [reflexivity|]. intros; cbn; lra.
    + exists (peval (b :: c) r :: q). split; [cbn in *; lia|].
      intros x. cbn [peval] in *. rewrite (Hq x). ring.
Qed.

Lemma many_roots_zero rs : forall c, NoDup rs -> (length c <= length rs)%nat ->
  (forall r, In r rs -> peval c r = 0) -> forall x, peval c x = 0.
Proof.
  induction rs as [|r rs IH]; intros c Hnd Hl Hz x.
  - destruct c; [reflexivity|cbn in Hl; lia].
  - inversion Hnd as [|? ? Hnin Hnd']; subst.
    destruct (synth_div c r) as [q [Hlq Hq]].
    rewrite Hq, (Hz r) by (left; reflexivity).
    rewrite (IH q); [lra|assumption|cbn in Hl; lia|].
    intros r' Hr'. assert (Hne : r' - r <> 0). { intros E. apply Hnin.
      replace r with r' by lra. exact Hr'. }
    specialize (Hq r'). rewrite (Hz r') in Hq by (right; exact Hr').
    rewrite (Hz r) in Hq by (left; reflexivity).
    assert (Hm : (r' - r) * peval q r' = 0) by lra.
    apply Rmult_integral in Hm. tauto.
Qed.

Lemma interp_unique xs c d : NoDup xs ->
  (length c <= length xs)%nat -> (length d <= length xs)%nat ->
  (forall k, (k < length xs)%nat -> peval c (nth k xs 0) = peval d (nth k xs 0)) ->
  forall x, peval c x = peval d x.
Proof.
  intros Hnd Hc Hd H x.
  assert (E : peval (padd c (pscale (-1) d)) x = 0).
  { apply (many_roots_zero xs); auto.
    - rewrite length_padd, length_pscale. lia.
    - intros r Hr. apply In_nth with (d := 0) in Hr. destruct Hr as [k [Hk <-]].
      rewrite peval_padd, peval_pscale, H by assumption. nred. lra. }
  rewrite peval_padd, peval_pscale in E. nred; lra.
Qed.

(** ** Derivative and integral of coefficient lists *)

Lemma is_derive_ext_val (f : R -> R) (x l l' : R) : l = l' -> is_derive f x l -> is_derive f x l'.
Proof. intros ->; auto. Qed.

Lemma pder_from_S k p x : peval (@pder_from Rnum (S k) p) x = peval p x + peval (@pder_from Rnum k p) x.
Proof.
  revert k; induction p as [|a p IH]; intros k; cbn [pder_from peval]; [lra|].
  nred. rewrite IH, !nofnat_R, S_INR. lra.
Qed.
Lemma pder_cons a p x : peval (pder (a :: p)) x = peval p x + x * peval (pder p) x.
Proof.
  cbn [Poly.pder]. destruct p as [|b p].
  - cbn. lra.
  - cbn [pder_from Poly.pder peval]. nred. rewrite pder_from_S, nofnat_R. cbn. lra.
Qed.
Lemma is_derive_peval c x : is_derive (peval c) x (peval (pder c) x).
Proof.
  induction c as [|a c IH].
  - cbn. apply (is_derive_const 0).
  - eapply is_derive_ext_val; [symmetry; apply pder_cons|].
    apply (is_derive_ext (fun y => plus a (mult y (peval c y)))); [reflexivity|].
    eapply is_derive_ext_val; [|apply @is_derive_plus;
      [apply @is_derive_const|apply is_derive_mult; [apply is_derive_id|apply IH|exact Rmult_comm]]].
    unfold zero, plus, mult, one; cbn. lra.
Qed.
Lemma continuous_peval c x : continuous (peval c) x.
Proof.
  apply (ex_derive_continuous (peval c)). eexists. apply is_derive_peval.
Qed.

Lemma is_derive_unique2 (f : R -> R) x l l' : is_derive f x l -> is_derive f x l' -> l = l'.
Proof. intros H H'. apply is_derive_unique in H, H'. congruence. Qed.

Lemma is_derive_Rsum n (f : nat -> R -> R) (d : nat -> R) x :
  (forall k, (k < n)%nat -> is_derive (f k) x (d k)) ->
  is_derive (fun y => Rsum n (fun k => f k y)) x (Rsum n d).
Proof.
  induction n; intros H; cbn.
  - apply (is_derive_const 0).
  - apply @is_derive_plus; [apply IHn; auto|apply H; auto].
Qed.

Lemma pder_lin c n (w : nat -> R) (b : nat -> list R) :
  (forall x, peval c x = Rsum n (fun j => w j * peval (b j) x)) ->
  forall x, peval (pder c) x = Rsum n (fun j => w j * peval (pder (b j)) x).
Proof.
  intros H x. eapply is_derive_unique2; [apply is_derive_peval|].
  eapply is_derive_ext; [intros t; symmetry; apply H|].
  apply is_derive_Rsum. intros k _.
  apply (is_derive_scal (peval (b k))). apply is_derive_peval.
Qed.

Lemma pder_pext c d : (forall x, peval c x = peval d x) -> forall x, peval (pder c) x = peval (pder d) x.
Proof.
  intros H x. eapply is_derive_unique2; [apply is_derive_peval|].
  eapply is_derive_ext; [intros t; symmetry; apply H|]. apply is_derive_peval.
Qed.

Lemma pder_from_pint_from k p x : (0 < k)%nat ->
  peval (@pder_from Rnum k (@pint_from Rnum k p)) x = peval p x.
Proof.
  revert k; induction p as [|a p IH]; intros k Hk; cbn [pint_from pder_from peval]; [reflexivity|].
  rewrite IH by lia. nred. rewrite nofnat_R. field. apply not_0_INR; lia.
Qed.
Lemma pder_pint c x : peval (pder (pint c)) x = peval c x.
Proof.
  unfold Poly.pint. cbn [Poly.pder]. apply pder_from_pint_from. lia.
Qed.
Lemma is_RInt_peval c a b : is_RInt (peval c) a b (peval (pint c) b - peval (pint c) a).
Proof.
  apply (is_RInt_derive (peval (pint c)) (peval c)).
  - intros x _. eapply is_derive_ext_val; [apply pder_pint|]. apply is_derive_peval.
  - intros x _. apply continuous_peval.
Qed.
Lemma RInt_peval c a b : RInt (peval c) a b = peval (pint c) b - peval (pint c) a.
Proof. apply is_RInt_unique, is_RInt_peval. Qed.

Lemma is_RInt_Rsum n (f : nat -> R -> R) (d : nat -> R) a b :
  (forall k, (k < n)%nat -> is_RInt (f k) a b (d k)) ->
  is_RInt (fun y => Rsum n (fun k => f k y)) a b (Rsum n d).
Proof.
  induction n; intros H; cbn.
  - eapply is_RInt_ext with (f := fun _ => zero); [reflexivity|].
    replace 0 with (scal (b - a) (zero : R)); [apply (@is_RInt_const R_NormedModule)|].
    unfold scal, zero; cbn. unfold mult; cbn. lra.
  - apply @is_RInt_plus; [apply IHn; auto|apply H; auto].
Qed.

(** ** Lagrange basis *)

(** factors of the j-th Lagrange polynomial, for positions starting at k *)
Fixpoint lagfac (k j : nat) (rj : R) (l : list R) (x : R) : R :=
  match l with
  | [] => 1
  | r :: l' => (if Nat.eqb k j then 1 else (x - r) / (rj - r)) * lagfac (S k) j rj l' x
  end.
Definition lagv (roots : list R) (j : nat) (x : R) : R := lagfac 0 j (nth j roots 0) roots x.

Lemma sym_fold_gen j (rj : R) (l : list R) : forall k e x,
  eeval (fold_left (fun p '(i, ri) =>
      if Nat.eqb i j then p
      else EMul p (EDiv (ESub EVar (EConst ri)) (EConst (nsub rj ri))))
    (combine (seq k (length l)) l) e) x
  = eeval e x * lagfac k j rj l x.
Proof.
  induction l as [|r l IH]; intros k e x; cbn [length seq combine fold_left lagfac]; [lra|].
  rewrite IH. destruct (Nat.eqb k j); cbn; nred; [lra|]. unfold Rdiv. ring.
Qed.
Lemma eeval_lagrange_sym roots j x :
  eeval (@lagrange_sym Rnum roots j) x = lagv roots j x.
Proof.
  unfold lagrange_sym, enumerate, lagv. pose proof (sym_fold_gen j (nth j roots 0) roots 0 (EConst 1) x) as H.
  cbn in H. nred. rewrite Rmult_1_l in H. exact H.
Qed.

Lemma num_fold_gen j (rj : R) (l : list R) : forall k e x,
  (forall i, (i < length l)%nat -> (k + i)%nat <> j -> rj - nth i l 0 <> 0) ->
  peval (fold_left (fun p '(i, ri) =>
      if Nat.eqb i j then p
      else pmul p (pdivc [nopp ri; n1] (nsub rj ri)))
    (combine (seq k (length l)) l) e) x
  = peval e x * lagfac k j rj l x.
Proof.
  induction l as [|r l IH]; intros k e x H; cbn [length seq combine fold_left lagfac]; [lra|].
  rewrite IH.
  - destruct (Nat.eqb_spec k j); [lra|].
    rewrite peval_pmul, peval_pdivc.
    + cbn. nred. unfold Rdiv. ring.
    + apply (H 0%nat); cbn; lia.
  - intros i Hi Hne. apply (H (S i)); cbn; lia.
Qed.

Lemma nodup_diff roots i j : NoDup roots -> (i < length roots)%nat -> (j < length roots)%nat ->
  i <> j -> nth j roots 0 - nth i roots 0 <> 0.
Proof.
  intros Hnd Hi Hj Hne E. apply Hne. apply (proj1 (NoDup_nth roots 0) Hnd); auto. lra.
Qed.

Lemma peval_lagrange_num roots j x : NoDup roots -> (j < length roots)%nat ->
  peval (@lagrange_num Rnum roots j) x = lagv roots j x.
Proof.
  intros Hnd Hj. unfold lagrange_num, enumerate, lagv.
  pose proof (num_fold_gen j (nth j roots 0) roots 0 [1] x) as H.
  nred. rewrite H.
  - cbn. lra.
  - intros i Hi Hne. apply nodup_diff; auto.
Qed.

(** length of the product *)
Lemma num_fold_len j (rj : R) (l : list R) : forall k e, (0 < length e)%nat ->
  (length (fold_left (fun p '(i, ri) =>
      if Nat.eqb i j then p
      else pmul p (pdivc [nopp ri; n1] (nsub rj ri)))
    (combine (seq k (length l)) l) e)
   + (if (k <=? j) && (j <? k + length l) then 1 else 0) = length e + length l)%nat.
Proof.
  induction l as [|r l IH]; intros k e He; cbn [length seq combine fold_left].
  - replace (k + 0)%nat with k by lia.
    destruct (Nat.leb_spec k j), (Nat.ltb_spec j k); cbn; lia.
  - destruct (Nat.eqb_spec k j) as [->|Hne].
    + specialize (IH (S j) e He).
      destruct (Nat.leb_spec (S j) j); [lia|]. cbn in IH.
      destruct (Nat.leb_spec j j); [|lia]. destruct (Nat.ltb_spec j (j + S (length l))); [|lia].
      cbn. lia.
    + assert (Hl : length (pmul e (pdivc [nopp r; n1] (nsub rj r))) = S (length e)).
      { rewrite length_pmul; [cbn; lia| |discriminate].
        intros ->; cbn in He; lia. }
      specialize (IH (S k) (pmul e (pdivc [nopp r; n1] (nsub rj r)))).
      rewrite Hl in IH. specialize (IH ltac:(lia)).
      replace (S k + length l)%nat with (k + S (length l))%nat in IH by lia.
      replace ((S k <=? j)%nat) with ((k <=? j)%nat) in IH; [lia|].
      destruct (Nat.leb_spec k j), (Nat.leb_spec (S k) j); auto; lia.
Qed.
Lemma length_lagrange_num roots j : (j < length roots)%nat ->
  @length R (@lagrange_num Rnum roots j) = length roots.
Proof.
  intros Hj. unfold lagrange_num, enumerate. nred.
  pose proof (num_fold_len j (nth j roots 0) roots 0 [1]) as H. cbn [length] in H.
  specialize (H ltac:(lia)). cbn [Nat.leb andb] in H.
  destruct (Nat.ltb_spec j (0 + length roots)); [|lia]. cbn in H. cbn. lia.
Qed.

Lemma lagfac_one k j rj l : (forall i, (i < length l)%nat -> (k + i)%nat <> j -> rj - nth i l 0 <> 0) ->
  lagfac k j rj l rj = 1.
Proof.
  revert k; induction l as [|r l IH]; intros k H; cbn; [reflexivity|].
  rewrite IH; [|intros i Hi Hne; apply (H (S i)); cbn; lia].
  destruct (Nat.eqb_spec k j); [lra|].
  field. apply (H 0%nat); cbn; lia.
Qed.
Lemma lagfac_zero k j rj l i : (i < length l)%nat -> (k + i <> j)%nat ->
  lagfac k j rj l (nth i l 0) = 0.
Proof.
  revert k i; induction l as [|r l IH]; intros k i Hi Hne; cbn in Hi; [lia|].
  destruct i as [|i]; cbn.
  - destruct (Nat.eqb_spec k j); [lia|]. unfold Rdiv. ring.
  - rewrite IH; [ring|lia|lia].
Qed.
Lemma lagv_node roots i j : NoDup roots -> (i < length roots)%nat -> (j < length roots)%nat ->
  lagv roots j (nth i roots 0) = if Nat.eqb i j then 1 else 0.
Proof.
  intros Hnd Hi Hj. unfold lagv. destruct (Nat.eqb_spec i j) as [->|Hne].
  - apply lagfac_one. intros i' Hi' Hne. apply nodup_diff; auto.
  - apply lagfac_zero; auto.
Qed.

(** reproduction of polynomials *)
Lemma lag_combination roots c : NoDup roots -> (length c <= length roots)%nat ->
  forall x, peval c x =
    Rsum (length roots) (fun j => peval c (nth j roots 0) * peval (@lagrange_num Rnum roots j) x).
Proof.
  intros Hnd Hc.
  (* the combination as a coefficient list *)
  pose (comb := fun n => fold_right padd []
     (map (fun j => pscale (peval c (nth j roots 0)) (@lagrange_num Rnum roots j)) (seq 0 n))).
  assert (Hcomb : forall n, (n <= length roots)%nat ->
     (length (comb n) <= length roots)%nat /\
     forall x, peval (comb n) x = Rsum n (fun j => peval c (nth j roots 0) * peval (@lagrange_num Rnum roots j) x)).
  { intros n Hn. split.
    - unfold comb. assert (Hall : forall j, In j (seq 0 n) -> (j < length roots)%nat).
      { intros j Hj. apply in_seq in Hj. lia. }
      induction (seq 0 n) as [|j l IH]; cbn; [lia|].
      rewrite length_padd, length_pscale, length_lagrange_num by (apply Hall; left; auto).
      specialize (IH ltac:(intros; apply Hall; right; auto)). nred. lia.
    - intros x. rewrite Rsum_rsum. unfold comb. induction (seq 0 n) as [|j l IH]; [reflexivity|].
      cbn [map fold_right]. rewrite peval_padd, peval_pscale, IH. reflexivity. }
  destruct (Hcomb (length roots) (le_n _)) as [Hl He].
  intros x. rewrite <- He. apply (interp_unique roots); auto.
  intros k Hk. rewrite He.
  rewrite (Rsum_single _ _ k Hk).
  - rewrite peval_lagrange_num, lagv_node, Nat.eqb_refl by auto. lra.
  - intros i Hi Hne. rewrite peval_lagrange_num, lagv_node by auto.
    destruct (Nat.eqb_spec k i); [congruence|lra].
Qed.

(** existence of an interpolant for arbitrary data *)
Lemma interp_exists roots (ys : nat -> R) : NoDup roots -> exists c, interpolates c roots ys.
Proof.
  intros Hnd.
  pose (comb := fun n => fold_right padd []
     (map (fun j => pscale (ys j) (@lagrange_num Rnum roots j)) (seq 0 n))).
  exists (comb (length roots)). split.
  - unfold comb. assert (Hall : forall j, In j (seq 0 (length roots)) -> (j < length roots)%nat).
    { intros j Hj. apply in_seq in Hj. lia. }
    induction (seq 0 (length roots)) as [|j l IH]; cbn; [lia|].
    rewrite length_padd, length_pscale, length_lagrange_num by (apply Hall; left; auto).
    specialize (IH ltac:(intros; apply Hall; right; auto)). nred. lia.
  - intros k Hk.
    assert (He : forall n x, peval (comb n) x = Rsum n (fun j => ys j * peval (@lagrange_num Rnum roots j) x)).
    { intros n x. rewrite Rsum_rsum. unfold comb. induction (seq 0 n) as [|j l IH]; [reflexivity|].
      cbn [map fold_right]. rewrite peval_padd, peval_pscale, IH. reflexivity. }
    rewrite He. rewrite (Rsum_single _ _ k Hk).
    + rewrite peval_lagrange_num, lagv_node, Nat.eqb_refl by auto. lra.
    + intros i Hi Hne. rewrite peval_lagrange_num, lagv_node by auto.
      destruct (Nat.eqb_spec k i); [congruence|lra].
Qed.

(** ** CasADi expressions *)

Fixpoint edef (e : expr Rnum) : Prop :=
  match e with
  | EConst _ | EVar => True
  | EAdd a b | ESub a b | EMul a b => edef a /\ edef b
  | EDiv a b => edef a /\ edef b /\ forall x, eeval b x <> 0
  end.
Lemma edef_egrad e : edef e -> edef (egrad e).
Proof.
  induction e; cbn; try tauto.
  intros (Ha & Hb & Hn). repeat split; try tauto.
  intros x. specialize (Hn x). nred. apply Rmult_integral_contrapositive. auto.
Qed.
Lemma is_derive_eeval e : edef e -> forall x, is_derive (eeval e) x (eeval (egrad e) x).
Proof.
  induction e; cbn [edef egrad eeval]; intros He x.
  - nred. apply (is_derive_const c).
  - nred. apply (is_derive_id x).
  - destruct He. apply @is_derive_plus; [apply IHe1|apply IHe2]; auto.
  - destruct He. apply @is_derive_minus; [apply IHe1|apply IHe2]; auto.
  - destruct He. nred.
    eapply is_derive_ext_val; [|apply (is_derive_mult (eeval e1) (eeval e2)); [apply IHe1; auto|apply IHe2; auto|exact Rmult_comm]].
    unfold plus, mult; cbn. lra.
  - destruct He as (Ha & Hb & Hn). nred.
    eapply is_derive_ext_val; [|apply (is_derive_div (eeval e1) (eeval e2)); [apply IHe1; auto|apply IHe2; auto|apply Hn]].
    field. apply Hn.
Qed.
Lemma edef_lagrange_gen j (rj : R) (l : list R) : forall k e,
  (forall i, (i < length l)%nat -> (k + i)%nat <> j -> rj - nth i l 0 <> 0) -> edef e ->
  edef (fold_left (fun p '(i, ri) =>
      if Nat.eqb i j then p
      else EMul p (EDiv (ESub EVar (EConst ri)) (EConst (nsub rj ri))))
    (combine (seq k (length l)) l) e).
Proof.
  induction l as [|r l IH]; intros k e H He; cbn [length seq combine fold_left]; [exact He|].
  apply IH.
  - intros i Hi Hne. apply (H (S i)); cbn; lia.
  - destruct (Nat.eqb_spec k j); [exact He|]. cbn. repeat split; auto.
    intros _. nred. apply (H 0%nat); cbn; lia.
Qed.
Lemma edef_lagrange_sym roots j : NoDup roots -> (j < length roots)%nat ->
  edef (@lagrange_sym Rnum roots j).
Proof.
  intros Hnd Hj. unfold lagrange_sym, enumerate. apply edef_lagrange_gen; [|exact I].
  intros i Hi Hne. apply nodup_diff; auto.
Qed.

(** ** Uniform characterisation of the stored basis polynomials *)

Section Basis.
Variables (m : dmethod) (roots : list R) (j : nat).
Hypothesis Hnd : NoDup roots.
Hypothesis Hj : (j < length roots)%nat.

Definition basis_poly : poly Rnum :=
  match m with
  | Symbolic => PSym (@lagrange_sym Rnum roots j)
  | Numerical => PNum (@lagrange_num Rnum roots j)
  end.
Local Notation ell := (@lagrange_num Rnum roots j).

Lemma sym_num x : eeval (@lagrange_sym Rnum roots j) x = peval ell x.
Proof. rewrite eeval_lagrange_sym, peval_lagrange_num; auto. Qed.
Lemma sym_num1 x : eeval (egrad (@lagrange_sym Rnum roots j)) x = peval (pder ell) x.
Proof.
  eapply is_derive_unique2; [apply is_derive_eeval, edef_lagrange_sym; auto|].
  eapply is_derive_ext; [intros t; symmetry; apply sym_num|]. apply is_derive_peval.
Qed.
Lemma sym_num2 x : eeval (egrad (egrad (@lagrange_sym Rnum roots j))) x = peval (pder (pder ell)) x.
Proof.
  eapply is_derive_unique2; [apply is_derive_eeval, edef_egrad, edef_lagrange_sym; auto|].
  eapply is_derive_ext; [intros t; symmetry; apply sym_num1|]. apply is_derive_peval.
Qed.

Lemma basis_at x : poly_at m basis_poly x = Ok (peval ell x).
Proof.
  unfold basis_poly. destruct m; cbn; [apply f_equal, sym_num|apply f_equal, pval_R].
Qed.
Lemma basis_der1 x : poly_der_at m 1 basis_poly x = Ok (peval (pder ell) x).
Proof.
  unfold basis_poly. destruct m; cbn; [apply f_equal, sym_num1|apply f_equal, pval_R].
Qed.
Lemma basis_der2 x : poly_der_at m 2 basis_poly x = Ok (peval (pder (pder ell)) x).
Proof.
  unfold basis_poly. destruct m; cbn; [apply f_equal, sym_num2|apply f_equal, pval_R].
Qed.
Lemma basis_int ig a b : integ_exact ig ->
  poly_int m ig basis_poly a b = Ok (RInt (peval ell) a b).
Proof.
  intros Hig. unfold basis_poly. destruct m; cbn [poly_int]; apply f_equal.
  - rewrite Hig.
    + apply RInt_ext. intros; apply sym_num.
    + intros x. apply (continuous_ext (peval ell)); [intros; symmetry; apply sym_num|apply continuous_peval].
  - rewrite RInt_peval, !pval_R. reflexivity.
Qed.
End Basis.
