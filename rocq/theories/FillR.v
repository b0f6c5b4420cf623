(** One more state: values at the nodes whose segment polynomials have given derivatives (for C67). *)
From Coq Require Import Reals Lia Lra Psatz Bool Arith.
From Coquelicot Require Import Coquelicot.
From Coq Require Import List.
From Verif Require Import Num PyList Mat Poly Roots Colloc Ocp Transcribe Spec SpecOcp NumR ListR PolyR CollocR CompR CostR MeshR BalanceR DualR.
Import ListNotations.
Open Scope R_scope.

Lemma length_pint (c : list R) : length (@pint Rnum c) = S (length c).
Proof. unfold pint. cbn [length]. f_equal. generalize 1%nat. induction c as [|a c IH]; intros; cbn; auto. Qed.
Lemma is_derive_pint c x : is_derive (peval (@pint Rnum c)) x (peval c x).
Proof. eapply is_derive_ext_val; [apply pder_pint|]. apply is_derive_peval. Qed.
(** a polynomial with a given derivative and value *)
Lemma prim_exists (c : list R) (t0 v : R) : exists P : list R, (length P <= S (length c))%nat /\ peval P t0 = v /\ forall x, is_derive (peval P) x (peval c x).
Proof.
  exists (@padd Rnum (@pint Rnum c) [v - peval (@pint Rnum c) t0]). split; [|split].
  - rewrite length_padd, length_pint. cbn. nred. lia.
  - rewrite peval_padd. cbn. nred. ring.
  - intros x. apply (is_derive_ext (fun x => peval (@pint Rnum c) x + (v - peval (@pint Rnum c) t0))).
    + intros t. rewrite peval_padd. cbn. nred. ring.
    + evar_last; [apply @is_derive_plus; [apply is_derive_pint|apply @is_derive_const]|]. unfold plus, zero; cbn. ring.
Qed.

Section Fill.
Variables (orders : list nat) (rs : list (list R)) (t0 t1 : R) (rho : nat -> nat -> R) (q0 : R).
Hypothesis Hne : orders <> [].
Hypothesis Hpos : forall q, In q orders -> (1 <= q)%nat.
Hypothesis Hgood : forall k, (k < length orders)%nat -> good_nodes t0 t1 (nth k orders 0%nat) (nth k rs []).
Let tau (k j : nat) : R := nth j (nth k rs []) 0.
Definition low_degree : Prop := exists C : list R, (length C <= nth 0 orders 0)%nat /\ forall j, (j <= nth 0 orders 0)%nat -> peval C (tau 0 j) = rho 0 j.
Hypothesis Hlow : low_degree.

Definition fits_seg (k : nat) (c : list R) : Prop :=
  (length c <= S (nth k orders 0))%nat /\ forall j, (j <= nth k orders 0)%nat -> (k = 0 \/ 1 <= j)%nat -> is_derive (peval c) (tau k j) (rho k j).
Lemma seg_poly k v : (k < length orders)%nat -> exists c, fits_seg k c /\ peval c t0 = v.
Proof.
  intros Hk. set (q := nth k orders 0%nat).
  assert (HC : exists C : list R, (length C <= q)%nat /\ forall j, (j <= q)%nat -> (k = 0 \/ 1 <= j)%nat -> peval C (tau k j) = rho k j).
  { destruct k as [|k].
    - destruct Hlow as (C & A & B). exists C. split; [exact A|]. intros j Hj _. apply B. exact Hj.
    - destruct (Hgood _ Hk) as (L & I & _). fold q in L.
      assert (Nd : NoDup (tl (nth (S k) rs []))) by (pose proof (increasing_nodup _ I) as N; destruct (nth (S k) rs []); [constructor|inversion N; assumption]).
      destruct (interp_exists (tl (nth (S k) rs [])) (fun j => rho (S k) (S j)) Nd) as (C & A & B). exists C.
      assert (Lt : length (tl (nth (S k) rs [])) = q) by (destruct (nth (S k) rs []); [discriminate L|injection L as L; exact L]).
      rewrite Lt in A, B. split; [exact A|]. intros [|j] Hj [H|H]; try lia. unfold tau. specialize (B j ltac:(lia)).
      etransitivity; [|exact B]. f_equal. destruct (nth (S k) rs []); [destruct j; reflexivity|reflexivity]. }
  destruct HC as (C & LC & EC). destruct (prim_exists C t0 v) as (P & A & B & D). exists P. split; [|exact B]. split; [fold q; lia|].
  intros j Hj Hkj. rewrite <- (EC j Hj Hkj). apply D.
Qed.
Lemma polys_exist m : (m <= length orders)%nat -> exists P : nat -> list R, (forall k, (k < m)%nat -> fits_seg k (P k)) /\
  peval (P 0%nat) t0 = q0 /\ forall k, (S k < m)%nat -> peval (P (S k)) t0 = peval (P k) t1.
Proof.
  induction m as [|m IH]; intros Hm. { exists (fun _ => [q0]). split; [intros; lia|]. split; [cbn; nred; ring|intros; lia]. }
  destruct IH as (P & A & B & C); [lia|]. destruct (seg_poly m (if Nat.eqb m 0 then q0 else peval (P (m - 1)%nat) t1)) as (c & D & E); [lia|].
  exists (fun k => if Nat.eqb k m then c else P k). split; [|split].
  - intros k Hk. destruct (Nat.eqb_spec k m) as [->|]; [exact D|apply A; lia].
  - destruct (Nat.eqb_spec 0 m) as [<-|]; [exact E|exact B].
  - intros k Hk. destruct (Nat.eqb_spec k m); [lia|]. destruct (Nat.eqb_spec (S k) m) as [<-|]; [|apply C; lia].
    cbn [Nat.eqb] in E. rewrite Nat.sub_succ, Nat.sub_0_r in E. exact E.
Qed.
(** the state *)
Lemma fill_state : exists Q : nat -> R, Q 0%nat = q0 /\
  forall i k j c, owned orders i k j -> seg_interp orders k (nth k rs []) Q c -> is_derive (peval c) (tau k j) (rho k j).
Proof.
  destruct (polys_exist (length orders) (le_n _)) as (P & A & B & C).
  destruct (finite_choice (fun i v => exists k j, owned orders i k j /\ v = peval (P k) (tau k j)) 0 (total_nodes orders)) as (Q & HQ).
  { intros i Hi. destruct (owned_exists orders i Hne Hi) as (k & j & Ho). eauto. }
  assert (V : forall i k j, owned orders i k j -> Q i = peval (P k) (tau k j)).
  { intros i k j Ho. destruct (HQ i (owned_lt _ _ _ _ Ho)) as (k' & j' & Ho' & E). destruct (owned_unique _ _ _ _ _ _ Hpos Ho Ho') as [-> ->]. exact E. }
  assert (T0 : forall k, (k < length orders)%nat -> tau k 0 = t0) by (intros k Hk; destruct (Hgood k Hk) as (_ & _ & E & _); exact E).
  assert (T1 : forall k, (k < length orders)%nat -> tau k (nth k orders 0%nat) = t1) by (intros k Hk; destruct (Hgood k Hk) as (_ & _ & _ & E); exact E).
  assert (Hl : (0 < length orders)%nat) by (destruct orders; [congruence|cbn; lia]).
  exists Q. split.
  - rewrite (V 0%nat 0%nat 0%nat). { rewrite T0 by exact Hl. exact B. }
    exists (nth 0 orders 0%nat). split; [apply nth_error_nth'; exact Hl|]. split; [lia|]. split; [auto|]. unfold offset. destruct orders; reflexivity.
  - intros i k j c (q & Hq & Hj & Hkj & ->) Hc. assert (Hk : (k < length orders)%nat) by (apply nth_error_Some; congruence).
    assert (Eq : nth k orders 0%nat = q) by (apply nth_error_nth with (d := 0%nat) in Hq; exact Hq).
    destruct (Hgood k Hk) as (L & I & _). rewrite Eq in L. destruct (A k Hk) as (LP & DP). rewrite Eq in LP, DP.
    assert (Ec : forall x, peval c x = peval (P k) x).
    { destruct Hc as [Lc Ec]. apply (interp_unique (nth k rs [])); [apply increasing_nodup; exact I|exact Lc|rewrite L; exact LP|]. intros j' Hj'. rewrite L in Hj'. rewrite Ec by (rewrite L; exact Hj').
      fold (tau k j'). destruct k as [|k].
      - apply (V _ 0%nat j'). exists q. split; [exact Hq|]. split; [lia|]. auto.
      - destruct j' as [|j'].
        + rewrite T0 by exact Hk. rewrite (C k Hk). assert (Hk' : (k < length orders)%nat) by lia. rewrite (V _ k (nth k orders 0%nat)).
          * rewrite T1 by exact Hk'. reflexivity.
          * exists (nth k orders 0%nat). split; [apply nth_error_nth'; exact Hk'|]. split; [lia|]. split; [right; apply Hpos, nth_In; exact Hk'|]. rewrite (offset_S_nth orders k Hk'). lia.
        + apply (V _ (S k) (S j')). exists q. split; [exact Hq|]. split; [lia|]. split; [lia|]. reflexivity. }
    apply (is_derive_ext (peval (P k))); [intros x; symmetry; apply Ec|]. apply DP; auto.
Qed.
End Fill.
(** what such a state demands of the first segment *)
Lemma fill_needs (orders : list nat) (rs : list (list R)) t0 t1 (rho : nat -> nat -> R) (Q : nat -> R) : orders <> [] -> good_nodes t0 t1 (nth 0 orders 0%nat) (nth 0 rs []) ->
  (forall j c, (j <= nth 0 orders 0)%nat -> seg_interp orders 0 (nth 0 rs []) Q c -> is_derive (peval c) (nth j (nth 0 rs []) 0) (rho 0%nat j)) -> low_degree orders rs rho.
Proof.
  intros Hne Hg H. destruct Hg as (L & I & _). destruct (interp_exists (nth 0 rs []) (fun j => Q (offset orders 0 + j)%nat) (increasing_nodup _ I)) as (c & Hc).
  exists (@pder Rnum c). split.
  - pose proof (length_pder1 c) as X. destruct Hc as [Lc _]. rewrite L in Lc. nred. lia.
  - intros j Hj. pose proof (is_derive_unique _ _ _ (H j c Hj Hc)) as E. rewrite <- E. symmetry. apply is_derive_unique, is_derive_peval.
Qed.
