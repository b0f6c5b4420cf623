(** Positive quadrature weights (proofs for C04 and C60). *)
From Coq Require Import Reals Lia Lra Psatz Bool Arith String.
From Coquelicot Require Import Coquelicot.
From Coq Require Import List.
From Verif Require Import Num PyList Mat Poly Roots Colloc Spec NumR ListR PolyR CollocR CompR JacobiR CollocThm.
Import ListNotations.
Open Scope R_scope.

Lemma ex_RInt_peval c a b : ex_RInt (peval c) a b.
Proof. eexists. apply is_RInt_peval. Qed.
Lemma RInt_peval_pos c a b x0 : a < b -> (forall x, a <= x <= b -> 0 <= peval c x) -> a <= x0 <= b -> 0 < peval c x0 -> 0 < RInt (peval c) a b.
Proof.
  intros Hab Hc Hx0 Hp. pose proof (continuous_peval c x0) as Hcont. apply continuity_pt_filterlim in Hcont.
  destruct (Hcont (peval c x0 / 2) ltac:(lra)) as (d & Hd & HD).
  set (l := Rmax a (x0 - d / 2)). set (r := Rmin b (x0 + d / 2)).
  assert (Hl : a <= l <= x0 /\ x0 - d / 2 <= l) by (unfold l; split; [split; [apply Rmax_l|apply Rmax_lub; lra]|apply Rmax_r]).
  assert (Hr : x0 <= r <= b /\ r <= x0 + d / 2) by (unfold r; split; [split; [apply Rmin_glb; lra|apply Rmin_l]|apply Rmin_r]).
  assert (Hlr : l < r).
  { unfold l, r. apply Rmax_lub_lt; apply Rmin_glb_lt; lra. }
  assert (P : forall x, l <= x <= r -> 0 < peval c x).
  { intros x Hx. destruct (Req_dec x x0) as [->|Hne]; [exact Hp|].
    specialize (HD x). cbn in HD. unfold R_dist, D_x, no_cond in HD. assert (A : Rabs (peval c x - peval c x0) < peval c x0 / 2).
    { apply HD. split; [split; [exact I|congruence]|]. apply Rabs_def1; lra. }
    apply Rabs_def2 in A. lra. }
  rewrite <- (RInt_Chasles (peval c) a l b) by apply ex_RInt_peval. rewrite <- (RInt_Chasles (peval c) l r b) by apply ex_RInt_peval.
  assert (A1 : 0 <= RInt (peval c) a l) by (apply RInt_ge_0; [lra|apply ex_RInt_peval|intros x Hx; apply Hc; lra]).
  assert (A2 : 0 < RInt (peval c) l r) by (apply RInt_gt_0; [lra|intros x Hx; apply P; lra|intros x Hx; apply continuous_peval]).
  assert (A3 : 0 <= RInt (peval c) r b) by (apply RInt_ge_0; [lra|apply ex_RInt_peval|intros x Hx; apply Hc; lra]).
  apply Rplus_le_lt_0_compat; [exact A1|]. apply Rplus_lt_le_0_compat; assumption.
Qed.
(** a rule that integrates a suitable non-negative polynomial has a positive weight *)
Lemma weight_pos n (W x : nat -> R) c a b j : a < b -> (j < n)%nat ->
  Rsum n (fun i => W i * peval c (x i)) = RInt (peval c) a b -> (forall t, a <= t <= b -> 0 <= peval c t) -> a <= x j <= b -> 0 < peval c (x j) ->
  (forall i, (i < n)%nat -> i <> j -> W i * peval c (x i) = 0) -> 0 < W j.
Proof.
  intros Hab Hj HE Hc Hx Hp H0. pose proof (RInt_peval_pos c a b (x j) Hab Hc Hx Hp) as P. rewrite <- HE in P.
  rewrite (Rsum_single n (fun i => W i * peval c (x i)) j Hj H0) in P. destruct (Rle_or_lt (W j) 0); [nra|assumption].
Qed.

Lemma prod_in s x : In x s -> prod_roots s x = 0.
Proof. induction s as [|a s IH]; intros []; cbn; [subst; lra|rewrite IH by auto; lra]. Qed.
Lemma prod_notin s x : ~ In x s -> prod_roots s x <> 0.
Proof.
  induction s as [|a s IH]; intros H; cbn; [lra|]. apply Rmult_integral_contrapositive. split; [intros E; apply H; left; lra|]. apply IH. intros Hx. apply H. right. exact Hx.
Qed.
(** the square of the polynomial with given zeros *)
Lemma square_poly s : exists c, length c = S (2 * length s) /\ forall x, peval c x = prod_roots s x * prod_roots s x.
Proof.
  destruct (poly_of_roots s) as (q & Lq & Eq). assert (q <> []) by (intros ->; discriminate). exists (@pmul Rnum q q). split.
  - rewrite length_pmul by auto. rewrite Lq. lia.
  - intros x. rewrite peval_pmul, Eq. reflexivity.
Qed.
Lemma times_square a s : a <> [] -> exists c, length c = (length a + 2 * length s)%nat /\ forall x, peval c x = peval a x * (prod_roots s x * prod_roots s x).
Proof.
  intros Ha. destruct (square_poly s) as (q & Lq & Eq). exists (@pmul Rnum a q). split.
  - rewrite length_pmul; [rewrite Lq; lia|exact Ha|intros ->; discriminate].
  - intros x. rewrite peval_pmul, Eq. reflexivity.
Qed.

Section Nodes.
Variables (t0 t1 : R) (q : nat) (r : list R).
Hypothesis Ht : t0 < t1.
Hypothesis Hg : good_nodes t0 t1 q r.
Lemma node_lt i j : (i < j)%nat -> (j <= q)%nat -> nth i r 0 < nth j r 0.
Proof. intros Hij Hj. destruct Hg as (L & I & _). apply I. nred. lia. Qed.
Lemma node_in i : (i <= q)%nat -> t0 <= nth i r 0 <= t1.
Proof.
  intros Hi. destruct Hg as (L & _ & A & B). split.
  - rewrite <- A. destruct i as [|i]; [lra|]. apply Rlt_le, node_lt; lia.
  - rewrite <- B. destruct (Nat.eq_dec i q) as [->|]; [lra|]. apply Rlt_le, node_lt; lia.
Qed.
Lemma node_inj i j : (i <= q)%nat -> (j <= q)%nat -> nth i r 0 = nth j r 0 -> i = j.
Proof.
  intros Hi Hj E. destruct (lt_eq_lt_dec i j) as [[H|H]|H]; [|exact H|].
  - pose proof (node_lt i j H Hj). lra.
  - pose proof (node_lt j i H Hi). lra.
Qed.
(** the nodes with the indices in [is] *)
Definition picked (is : list nat) : list R := map (fun i => nth i r 0) is.
Lemma picked_in is i : In i is -> prod_roots (picked is) (nth i r 0) = 0.
Proof. intros H. apply prod_in. unfold picked. apply in_map_iff. eauto. Qed.
Lemma picked_notin is i : (forall k, In k is -> (k <= q)%nat) -> (i <= q)%nat -> ~ In i is -> 0 < prod_roots (picked is) (nth i r 0) * prod_roots (picked is) (nth i r 0).
Proof.
  intros Hb Hi Hn. apply Rsqr_pos_lt. apply prod_notin. unfold picked. intros H. apply in_map_iff in H. destruct H as (k & E & Hk).
  apply (node_inj k i (Hb k Hk) Hi) in E. subst. auto.
Qed.
Variable w : list R.
Definition exact_to (n : nat) : Prop := forall c, (length c <= n)%nat -> Rsum (S q) (fun j => nth j w 0 * peval c (nth j r 0)) = RInt (peval c) t0 t1.
Lemma pick_pos a is j n : a <> [] -> exact_to n -> (length a + 2 * length is <= n)%nat -> (forall k, In k is -> (k <= q)%nat) -> (j <= q)%nat -> ~ In j is ->
  (forall t, t0 <= t <= t1 -> 0 <= peval a t) -> 0 < peval a (nth j r 0) ->
  (forall i, (i <= q)%nat -> i <> j -> In i is \/ nth i w 0 * peval a (nth i r 0) = 0) -> 0 < nth j w 0.
Proof.
  intros Ha He Hl Hb Hj Hn Hpos Hpj Hz. destruct (times_square a (picked is) Ha) as (c & Lc & Ec). unfold picked in Lc. rewrite map_length in Lc.
  apply (weight_pos (S q) (fun j => nth j w 0) (fun j => nth j r 0) c t0 t1 j Ht ltac:(lia)).
  - apply He. lia.
  - intros t Ht'. rewrite Ec. apply Rmult_le_pos; [apply Hpos; exact Ht'|apply Rle_0_sqr].
  - apply node_in. exact Hj.
  - rewrite Ec. apply Rmult_lt_0_compat; [exact Hpj|apply picked_notin; auto].
  - intros i Hi Hij. rewrite Ec. destruct (Hz i ltac:(lia) Hij) as [H|H]; [rewrite (picked_in is i H); ring|]. rewrite <- Rmult_assoc, H. ring.
Qed.
End Nodes.
Lemma in_sides j a b i : (a <= j <= b)%nat -> In i (seq a (j - a) ++ seq (S j) (b - j)) <-> (a <= i <= b)%nat /\ i <> j.
Proof. intros H. rewrite in_app_iff, !in_seq. lia. Qed.

Lemma order1_weights cf r w : cf_tau0 cf < cf_tau1 cf -> good_nodes (cf_tau0 cf) (cf_tau1 cf) 1 r -> exact_to (cf_tau0 cf) (cf_tau1 cf) 1 r w 2 ->
  0 < nth 0 w 0 /\ 0 < nth 1 w 0.
Proof.
  intros Ht Hg He. pose proof Hg as (_ & _ & A & B). split.
  - apply (pick_pos _ _ 1 r Ht Hg w [cf_tau1 cf; -1] [] 0 2); cbn [length In peval]; auto; try lia; try discriminate; try tauto.
    + intros t H. nra.
    + rewrite A. nra.
    + intros i Hi H0. right. assert (i = 1)%nat as -> by lia. rewrite B. ring.
  - apply (pick_pos _ _ 1 r Ht Hg w [- cf_tau0 cf; 1] [] 1 2); cbn [length In peval]; auto; try lia; try discriminate; try tauto.
    + intros t H. nra.
    + rewrite B. nra.
    + intros i Hi H0. right. assert (i = 0)%nat as -> by lia. rewrite A. ring.
Qed.
Lemma weights_at cf q r : cfg_ok cf -> (1 <= q)%nat -> c_roots cf q = Ok r -> exists w, quad_weights cf q (cf_tau0 cf) (cf_tau1 cf) = Ok w /\ length w = S q /\
  exact_to (cf_tau0 cf) (cf_tau1 cf) q r w (S q).
Proof.
  intros Hcf Hq Er. destruct (c_roots_good cf q Hcf Hq) as (r' & Er' & Hg). assert (r' = r) as -> by (pose proof (eq_trans (eq_sym Er') Er) as X; injection X as X; exact X).
  pose proof (good_nodup _ _ _ _ Hg) as Hnd. destruct Hg as (L & _).
  destruct (weights_exact_thm cf r (cf_tau0 cf) (cf_tau1 cf) Hnd (lo_integ _ (co_lib _ Hcf))) as (w & Ew & Lw & HW). exists w.
  unfold quad_weights. rewrite Er. cbn [bind]. split; [exact Ew|]. nred. rewrite L in *. split; [exact Lw|]. exact HW.
Qed.
Lemma lgr_positive cf q : cfg_ok cf -> cf_scheme cf = "LGR"%string -> (1 <= q)%nat ->
  exists w, quad_weights cf q (cf_tau0 cf) (cf_tau1 cf) = Ok w /\ length w = S q /\ (if Nat.eqb q 1 then 0 < nth 0 w 0 else nth 0 w 0 = 0) /\ forall j, (1 <= j <= q)%nat -> 0 < nth j w 0.
Proof.
  intros Hcf Hs Hq. destruct (c_roots_good cf q Hcf Hq) as (r & Er & Hg). pose proof (co_taus _ Hcf) as Ht.
  destruct (weights_at cf q r Hcf Hq Er) as (w & Ew & Lw & HW). exists w. split; [exact Ew|]. split; [exact Lw|]. destruct (Nat.eqb_spec q 1) as [->|Hq1].
  - destruct (order1_weights cf r w Ht Hg HW) as [A B]. split; [exact A|]. intros j Hj. assert (j = 1)%nat as -> by lia. exact B.
  - destruct (lgr_weights cf q Hcf Hs ltac:(lia)) as (r' & w' & Er' & Ew' & H0 & HX).
    assert (r' = r) as -> by (pose proof (eq_trans (eq_sym Er') Er) as X; injection X as X; exact X).
    assert (w' = w) as -> by (pose proof (eq_trans (eq_sym Ew') Ew) as X; injection X as X; exact X).
    split; [exact H0|]. intros j Hj.
    apply (pick_pos _ _ q r Ht Hg w [1] (seq 1 (j - 1) ++ seq (S j) (q - j)) j (2 * q - 1)); cbn [length peval].
    + discriminate.
    + exact HX.
    + rewrite app_length, !seq_length. lia.
    + intros k Hk. apply in_sides in Hk; lia.
    + lia.
    + rewrite in_sides by lia. lia.
    + intros t _. lra.
    + lra.
    + intros i Hi Hij. destruct i as [|i]; [right; nred; rewrite H0; ring|left; apply in_sides; [lia|]; lia].
Qed.
Lemma lgl_positive cf q : cfg_ok cf -> cf_scheme cf = "LGL"%string -> (1 <= q)%nat ->
  exists w, quad_weights cf q (cf_tau0 cf) (cf_tau1 cf) = Ok w /\ length w = S q /\ forall j, (j <= q)%nat -> 0 < nth j w 0.
Proof.
  intros Hcf Hs Hq. destruct (c_roots_good cf q Hcf Hq) as (r & Er & Hg). pose proof (co_taus _ Hcf) as Ht.
  destruct (weights_at cf q r Hcf Hq Er) as (w & Ew & Lw & HW). exists w. split; [exact Ew|]. split; [exact Lw|]. destruct (Nat.eq_dec q 1) as [->|Hq1].
  - destruct (order1_weights cf r w Ht Hg HW) as [A B]. intros [|[|j]] Hj; [exact A|exact B|lia].
  - destruct (lgl_weights cf q Hcf Hs ltac:(lia)) as (r' & w' & Er' & Ew' & HX).
    assert (r' = r) as -> by (pose proof (eq_trans (eq_sym Er') Er) as X; injection X as X; exact X).
    assert (w' = w) as -> by (pose proof (eq_trans (eq_sym Ew') Ew) as X; injection X as X; exact X).
    set (t0 := cf_tau0 cf) in *. set (t1 := cf_tau1 cf) in *. pose proof Hg as (_ & _ & A & B).
    intros j Hj. destruct (Nat.eq_dec j 0) as [->|H0]; [|destruct (Nat.eq_dec j q) as [->|Hjq]].
    + apply (pick_pos t0 t1 q r Ht Hg w [t1; -1] (seq 1 (q - 1)) 0 (2 * q)); cbn [length peval]; try discriminate; try exact HX; try lia.
      * rewrite seq_length. lia.
      * intros k Hk. apply in_seq in Hk. lia.
      * rewrite in_seq. lia.
      * intros t H. nra.
      * rewrite A. nra.
      * intros i Hi Hi0. destruct (Nat.eq_dec i q) as [->|]; [right; rewrite B; ring|left; apply in_seq; lia].
    + apply (pick_pos t0 t1 q r Ht Hg w [- t0; 1] (seq 1 (q - 1)) q (2 * q)); cbn [length peval]; try discriminate; try exact HX; try lia.
      * rewrite seq_length. lia.
      * intros k Hk. apply in_seq in Hk. lia.
      * rewrite in_seq. lia.
      * intros t H. nra.
      * rewrite B. nra.
      * intros i Hi Hi0. destruct (Nat.eq_dec i 0) as [->|]; [right; rewrite A; ring|left; apply in_seq; lia].
    + apply (pick_pos t0 t1 q r Ht Hg w [- (t0 * t1); t0 + t1; -1] (seq 1 (j - 1) ++ seq (S j) (q - 1 - j)) j (2 * q)); cbn [length peval]; try discriminate; try exact HX; try lia.
      * rewrite app_length, !seq_length. lia.
      * intros k Hk. apply in_sides in Hk; lia.
      * rewrite in_sides by lia. lia.
      * intros t H. nra.
      * pose proof (node_lt t0 t1 q r Hg 0 j ltac:(lia) ltac:(lia)) as N0. pose proof (node_lt t0 t1 q r Hg j q ltac:(lia) ltac:(lia)) as N1. rewrite A in N0. rewrite B in N1. nra.
      * intros i Hi Hij. destruct (Nat.eq_dec i 0) as [->|]; [right; rewrite A; ring|]. destruct (Nat.eq_dec i q) as [->|]; [right; rewrite B; ring|]. left. apply in_sides; lia.
Qed.
