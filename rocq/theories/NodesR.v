(** Nodes are determined by their scheme; LGL and CGL nodes are symmetric (proofs of C83). *)
From Coq Require Import Reals Lia Lra Bool Arith.
From Coquelicot Require Import Coquelicot.
From Coq Require Import String List.
From Verif Require Import Num PyList Mat Poly Roots Colloc Ocp Transcribe Spec SpecOcp SpecReverse NumR PolyR ListR CollocR CompR GaussR JacobiR.
Import ListNotations.
Open Scope R_scope.

Lemma monic_roots (s : list R) : exists e : list R, length e = length s /\ forall x, prod_roots s x = peval e x + x ^ length s.
Proof.
  induction s as [|a s (e & Hl & He)].
  - exists []. split; [reflexivity|]. intros; cbn; lra.
  - exists (@padd Rnum (0 :: e) (@pscale Rnum (- a) (e ++ [1]))). split.
    + rewrite length_padd, length_pscale, app_length. cbn [length]. nred. lia.
    + intros x. cbn [prod_roots length pow]. rewrite He, peval_padd, peval_pscale, peval_app, Hl. cbn [peval]. nred. ring.
Qed.
Lemma root_in (s : list R) x : prod_roots s x = 0 <-> In x s.
Proof.
  induction s as [|a s IH]; cbn; [split; [lra|tauto]|]. rewrite <- IH. split.
  - intros H. apply Rmult_integral in H. destruct H; [left; lra|right; assumption].
  - intros [->|H]; [ring|rewrite H; ring].
Qed.
Lemma increasing_inv (a : R) l : increasing (a :: l) -> (forall x, In x l -> a < x) /\ increasing l.
Proof.
  intros H. split.
  - intros x Hx. destruct (In_nth l x 0 Hx) as (i & Hi & <-). apply (H 0%nat (S i)). cbn. lia.
  - intros i j Hij. apply (H (S i) (S j)). cbn. lia.
Qed.
Lemma increasing_same (r : list R) : forall r', increasing r -> increasing r' -> (forall x, In x r <-> In x r') -> r = r'.
Proof.
  induction r as [|a l IH]; intros [|a' l'] H H' E; [reflexivity| | |].
  - destruct (proj2 (E a')); cbn; auto.
  - destruct (proj1 (E a)); cbn; auto.
  - apply increasing_inv in H. apply increasing_inv in H'. destruct H as (H1 & H2), H' as (H1' & H2').
    assert (a = a').
    { destruct (proj1 (E a) (or_introl eq_refl)) as [->|X]; [reflexivity|]. destruct (proj2 (E a') (or_introl eq_refl)) as [->|Y]; [reflexivity|]. apply H1' in X. apply H1 in Y. lra. }
    subst a'. f_equal. apply IH; auto. intros x. split; intros Hx.
    + destruct (proj1 (E x) (or_intror Hx)) as [<-|]; auto. apply H1 in Hx. lra.
    + destruct (proj2 (E x) (or_intror Hx)) as [<-|]; auto. apply H1' in Hx. lra.
Qed.
Lemma jacobi_weight a b : (forall x, continuous (fun x => (1 - x) ^ a * (1 + x) ^ b) x) /\ forall x, -1 < x < 1 -> 0 < (1 - x) ^ a * (1 + x) ^ b.
Proof.
  split.
  - intros x. apply (ex_derive_continuous (fun x => (1 - x) ^ a * (1 + x) ^ b)). auto_derive. auto.
  - intros x Hx. apply Rmult_lt_0_compat; apply pow_lt; lra.
Qed.
Theorem jacobi_unique n a b r r' : jacobi_roots n a b r -> jacobi_roots n a b r' -> r = r'.
Proof.
  intros (L & I & _ & O) (L' & I' & _ & O'). apply increasing_same; [exact I|exact I'|].
  destruct (monic_roots r) as (e & Le & He). destruct (monic_roots r') as (e' & Le' & He').
  destruct (jacobi_weight a b) as (Wc & Wp). set (w := fun x : R => (1 - x) ^ a * (1 + x) ^ b) in *.
  pose (d := @padd Rnum e (@pscale Rnum (-1) e')).
  assert (Ld : (length d <= n)%nat) by (unfold d; rewrite length_padd, length_pscale; nred; lia).
  assert (Hd : forall x, peval d x = prod_roots r x - prod_roots r' x).
  { intros x. unfold d. rewrite peval_padd, peval_pscale, He, He', L, L'. nred. ring. }
  assert (C : forall s x, continuous (fun x => w x * prod_roots s x * peval d x) x).
  { intros s x. apply (continuous_mult (fun x => w x * prod_roots s x) (peval d)); [|apply continuous_peval]. apply (continuous_mult w (prod_roots s)); [apply Wc|apply continuous_prod_roots]. }
  assert (Z : ip w (fun x => peval d x * peval d x) = 0).
  { unfold ip. rewrite (RInt_ext _ (fun x => minus (w x * prod_roots r x * peval d x) (w x * prod_roots r' x * peval d x))).
    - rewrite (RInt_minus (fun x => w x * prod_roots r x * peval d x) (fun x => w x * prod_roots r' x * peval d x)); [|apply (ex_RInt_continuous (fun x => w x * prod_roots r x * peval d x)); intros; apply C|apply (ex_RInt_continuous (fun x => w x * prod_roots r' x * peval d x)); intros; apply C].
      unfold w. rewrite (O d Ld), (O' d Ld). unfold minus, plus, opp; cbn. ring.
    - intros x _. unfold minus, plus, opp; cbn. rewrite (Hd x). ring. }
  assert (D0 : forall x, -1 < x < 1 -> peval d x = 0).
  { intros x Hx. destruct (Req_dec (peval d x) 0) as [|N]; [assumption|exfalso]. pose proof (pip_self_pos w Wc Wp d x Hx N) as P. unfold pip in P. rewrite Z in P. lra. }
  assert (DD : forall x, peval d x = 0).
  { intros x. pose (rs := map (fun k => / (INR k + 2)) (seq 0 n)).
    apply (many_roots_zero rs d).
    - unfold rs. apply FinFun.Injective_map_NoDup; [|apply seq_NoDup]. intros i j E. apply INR_eq. pose proof (pos_INR i). pose proof (pos_INR j). assert (E' : / / (INR i + 2) = / / (INR j + 2)) by (rewrite E; reflexivity). rewrite !Rinv_inv in E'. lra.
    - unfold rs. rewrite map_length, seq_length. exact Ld.
    - intros k Hk. apply D0. unfold rs in Hk. apply in_map_iff in Hk. destruct Hk as (i & <- & _).
      pose proof (pos_INR i). split; [assert (0 < / (INR i + 2)) by (apply Rinv_0_lt_compat; lra); lra|]. rewrite <- Rinv_1. apply Rinv_lt_contravar; lra. }
  intros x. rewrite <- !root_in. specialize (DD x). rewrite Hd in DD. split; intros; lra.
Qed.
(** [-r], from the last to the first *)
Definition flipped (r : list R) : list R := rev (map Ropp r).
Lemma length_flipped r : length (flipped r) = length r.
Proof. unfold flipped. rewrite rev_length, map_length. reflexivity. Qed.
Lemma nth_flipped r i : (i < length r)%nat -> nth i (flipped r) 0 = - nth (length r - 1 - i) r 0.
Proof.
  intros Hi. unfold flipped. rewrite rev_nth by (rewrite map_length; exact Hi). rewrite map_length, (nth_indep _ 0 (- 0)) by (rewrite map_length; lia). rewrite map_nth. f_equal. f_equal. lia.
Qed.
Lemma prod_flipped r x : prod_roots (flipped r) x = (-1) ^ length r * prod_roots r (- x).
Proof.
  unfold flipped. induction r as [|a r IH]; [cbn; ring|]. cbn [map rev]. rewrite prod_roots_app, IH. cbn. ring.
Qed.
Lemma peval_pneg (q : list R) : exists q', length q' = length q /\ forall x, peval q' x = peval q (- x).
Proof.
  induction q as [|a q (q' & L & E)]; [exists []; split; [reflexivity|cbn; reflexivity]|].
  exists (a :: map Ropp q'). split; [cbn; rewrite map_length, L; reflexivity|]. intros y. cbn [peval]. rewrite <- E.
  assert (X : forall l, peval (map Ropp l) y = - peval l y) by (induction l as [|b l IH]; [cbn; lra|cbn [map peval]; rewrite IH; ring]). rewrite X. ring.
Qed.
Lemma RInt_mirror (g : R -> R) a b : (forall x, continuous g x) -> RInt (fun x => g (a + b - x)) a b = RInt g a b.
Proof.
  intros C. pose proof (RInt_comp_lin g (-1) (a + b) a b) as X. replace (-1 * a + (a + b)) with b in X by ring. replace (-1 * b + (a + b)) with a in X by ring.
  specialize (X (ex_RInt_continuous g b a (fun z _ => C z))). rewrite <- (opp_RInt_swap g a b) in X by (apply (ex_RInt_continuous g); intros; apply C).
  transitivity (opp (opp (RInt g a b))); [|apply opp_opp]. rewrite <- X.
  transitivity (opp (RInt (fun y => opp (g (a + b - y))) a b)).
  - rewrite (RInt_opp (fun y => g (a + b - y))); [symmetry; apply opp_opp|]. apply (ex_RInt_continuous (fun y => g (a + b - y))). intros x _.
    apply (continuous_comp (fun y => a + b - y) g); [|apply C]. apply (ex_derive_continuous (fun y => a + b - y)). auto_derive. auto.
  - f_equal. apply RInt_ext. intros x _. unfold scal, opp; cbn; unfold mult; cbn. replace (-1 * x + (a + b)) with (a + b - x) by ring. ring.
Qed.
Lemma jacobi_flipped n a b r : jacobi_roots n a b r -> jacobi_roots n b a (flipped r).
Proof.
  intros (L & I & D & O). split; [rewrite length_flipped; exact L|]. split; [|split].
  - intros i j Hij. rewrite length_flipped in Hij. rewrite !nth_flipped by lia. apply Ropp_lt_contravar. apply I. lia.
  - intros x Hx. unfold flipped in Hx. apply in_rev in Hx. apply in_map_iff in Hx. destruct Hx as (z & <- & Hz). apply D in Hz. lra.
  - intros q Hq. destruct (peval_pneg q) as (q' & Lq & Eq).
    set (g := fun x => (1 - x) ^ a * (1 + x) ^ b * prod_roots r x * peval q' x).
    assert (Cg : forall x, continuous g x).
    { intros x. apply (continuous_mult (fun x => (1 - x) ^ a * (1 + x) ^ b * prod_roots r x) (peval q')); [|apply continuous_peval].
      apply (continuous_mult (fun x => (1 - x) ^ a * (1 + x) ^ b) (prod_roots r)); [apply jacobi_weight|apply continuous_prod_roots]. }
    assert (Z : RInt g (-1) 1 = 0) by (apply O; lia).
    rewrite <- (RInt_mirror g (-1) 1 Cg) in Z.
    transitivity (RInt (fun y => scal ((-1) ^ length r) (g (-1 + 1 - y))) (-1) 1).
    + apply RInt_ext. intros x _. replace (-1 + 1 - x) with (- x) by ring. unfold scal, g; cbn; unfold mult; cbn. rewrite prod_flipped, Eq, Ropp_involutive. replace (1 - - x) with (1 + x) by ring. replace (1 + - x) with (1 - x) by ring. ring.
    + rewrite (RInt_scal (fun y => g (-1 + 1 - y))).
      * rewrite Z. unfold scal; cbn; unfold mult; cbn. ring.
      * apply (ex_RInt_continuous (fun y => g (-1 + 1 - y))). intros x _. apply (continuous_comp (fun y => -1 + 1 - y) g); [|apply Cg]. apply (ex_derive_continuous (fun y => -1 + 1 - y)). auto_derive. auto.
Qed.
Lemma jacobi_symmetric n a r : jacobi_roots n a a r -> forall i, (i < n)%nat -> nth (n - 1 - i) r 0 = - nth i r 0.
Proof.
  intros H i Hi. pose proof (proj1 H) as L. rewrite (jacobi_unique n a a r (flipped r) H (jacobi_flipped n a a r H)) at 2. rewrite nth_flipped by lia. rewrite L. ring.
Qed.

(** ** the nodes of a segment *)
Lemma roots_unique cf cf' p : cfg_ok cf -> cfg_ok cf' -> cf_scheme cf = cf_scheme cf' -> cf_tau0 cf = cf_tau0 cf' -> cf_tau1 cf = cf_tau1 cf' -> c_roots cf p = c_roots cf' p.
Proof.
  intros H H' Es E0 E1. unfold c_roots, taus_fn. rewrite Es, E0, E1. destruct (co_lib _ H) as [C P Ra Lo _]. destruct (co_lib _ H') as [C' P' Ra' Lo' _].
  pose proof (co_scheme _ H') as S. cbn in S. destruct S as [S|[S|[S|[]]]]; rewrite <- S; cbn [String.eqb Ascii.eqb Bool.eqb].
  - unfold lgr_roots. destruct (Nat.ltb_spec 1 p) as [Hp|Hp]; [|reflexivity]. assert (Hp' : (1 <= p - 1)%nat) by lia.
    pose proof (jacobi_unique (p - 1) 1 0 _ _ (Ra (p - 1)%nat Hp') (Ra' (p - 1)%nat Hp')) as X. nred. do 4 f_equal. exact X.
  - unfold lgl_roots. destruct (Nat.ltb_spec 1 p) as [Hp|Hp]; [|reflexivity]. assert (Hp' : (1 <= p - 1)%nat) by lia.
    pose proof (jacobi_unique (p - 1) 1 1 _ _ (Lo (p - 1)%nat Hp') (Lo' (p - 1)%nat Hp')) as X. nred. do 4 f_equal. exact X.
  - unfold cgl_roots. destruct (Nat.eqb p 0); [reflexivity|]. do 3 f_equal. apply map_ext. intros j. rewrite C, C', P, P'. reflexivity.
Qed.
Lemma scale1_sym a b x : scale1 a b (- x) = a + b - scale1 a b x.
Proof. unfold scale1. field. Qed.
Lemma lobatto_symmetric (a b : R) p (js : list R) : (1 < p)%nat -> jacobi_roots (p - 1) 1 1 js -> symmetric a b p (map (scale1 a b) ((-1 :: js) ++ [1])).
Proof.
  intros H1 Lo. pose proof (proj1 Lo) as L.
  assert (N : forall j, (j <= p)%nat -> nth j ((-1 :: js) ++ [1]) 0 = if Nat.eqb j 0 then -1 else if Nat.eqb j p then 1 else nth (j - 1) js 0).
  { intros [|j] Hj; [reflexivity|]. change (Nat.eqb (S j) 0) with false. cbv iota. cbn [app nth]. replace (S j - 1)%nat with j by lia. destruct (Nat.eqb_spec (S j) p) as [Ep|Ep]; [rewrite app_nth2 by lia; replace (j - length js)%nat with 0%nat by lia; reflexivity|apply app_nth1; lia]. }
  intros j Hj. assert (Ln : length ((-1 :: js) ++ [1]) = S p) by (rewrite app_length; cbn [length]; lia).
  rewrite !(nth_indep (map (scale1 a b) _) 0 (scale1 a b 0)) by (rewrite map_length, Ln; lia). rewrite !map_nth, <- scale1_sym. f_equal.
  rewrite !N by lia. destruct (Nat.eqb_spec j 0) as [->|J0]; [rewrite Nat.sub_0_r; destruct (Nat.eqb_spec p 0); [lia|]; rewrite Nat.eqb_refl; lra|].
  destruct (Nat.eqb_spec j p) as [->|Jp]; [rewrite Nat.sub_diag; cbn; lra|]. destruct (Nat.eqb_spec (p - j) 0); [lia|]. destruct (Nat.eqb_spec (p - j) p); [lia|].
  rewrite <- (jacobi_symmetric (p - 1) 1 js Lo (j - 1)) by lia. f_equal. lia.
Qed.
Lemma cgl_symmetric (a b : R) p : (1 <= p)%nat -> symmetric a b p (map (scale1 a b) (rev (map (fun j => cos (PI * INR j / INR p)) (seq 0 (p + 1))))).
Proof.
  intros Hp j Hj.
  assert (N : forall j, (j <= p)%nat -> nth j (rev (map (fun j => cos (PI * INR j / INR p)) (seq 0 (p + 1)))) 0 = cos (PI * INR (p - j) / INR p)).
  { clear j Hj. intros j Hj. rewrite rev_nth by (rewrite map_length, seq_length; lia). rewrite map_length, seq_length.
    rewrite (nth_indep _ 0 ((fun j => cos (PI * INR j / INR p)) 0%nat)) by (rewrite map_length, seq_length; lia).
    rewrite (map_nth (fun j => cos (PI * INR j / INR p))), seq_nth by lia. replace (0 + (p + 1 - S j))%nat with (p - j)%nat by lia. reflexivity. }
  rewrite !(nth_indep (map (scale1 a b) _) 0 (scale1 a b 0)) by (rewrite map_length, rev_length, map_length, seq_length; lia). rewrite !map_nth, <- scale1_sym. f_equal.
  rewrite !N by lia. replace (p - (p - j))%nat with j by lia. assert (0 < INR p) by (apply lt_0_INR; lia). rewrite minus_INR by lia.
  rewrite <- Rtrigo_facts.cos_pi_minus. f_equal. field. lra.
Qed.
Theorem nodes_symmetric cf p r : cfg_ok cf -> In (cf_scheme cf) ["LGL"; "CGL"]%string -> (1 <= p)%nat -> c_roots cf p = Ok r -> symmetric (cf_tau0 cf) (cf_tau1 cf) p r.
Proof.
  intros H Sch Hp. destruct (co_lib _ H) as [C P _ Lo _]. unfold c_roots, taus_fn. set (a := cf_tau0 cf). set (b := cf_tau1 cf).
  cbn in Sch. destruct Sch as [Sch|[Sch|[]]]; rewrite <- Sch; cbn [String.eqb Ascii.eqb Bool.eqb].
  - unfold lgl_roots. destruct (Nat.ltb_spec 1 p) as [H1|H1].
    + rewrite scale_roots_R. intros E. injection E as <-. exact (lobatto_symmetric a b p _ H1 (Lo (p - 1)%nat ltac:(lia))).
    + destruct (Nat.eqb_spec p 1) as [->|]; [|lia]. intros E. injection E as <-. intros [|[|j]] Hj; [| |lia]; cbn; lra.
  - unfold cgl_roots. destruct (Nat.eqb_spec p 0); [lia|]. rewrite scale_roots_R.
    erewrite map_ext_in with (l := seq 0 (p + 1)); [intros E; injection E as <-; exact (cgl_symmetric a b p Hp)|].
    intros j _. rewrite C, P, !nofnat_R. reflexivity.
Qed.
(** LGR nodes are not, except for order 1 *)
Lemma radau_not_symmetric n r : (1 <= n)%nat -> jacobi_roots n 1 0 r -> ~ (forall i, (i < n)%nat -> nth (n - 1 - i) r 0 = - nth i r 0).
Proof.
  intros Hn H Sy. assert (Ef : flipped r = r).
  { apply (nth_ext _ _ 0 0); [apply length_flipped|]. intros i Hi. rewrite length_flipped in Hi. pose proof (proj1 H) as L. rewrite nth_flipped by exact Hi. rewrite L in *. rewrite Sy by exact Hi. ring. }
  pose proof (jacobi_flipped n 1 0 r H) as H'. rewrite Ef in H'. destruct H as (L & _ & _ & O). destruct H' as (_ & _ & _ & O').
  assert (C : forall a b q x, continuous (fun x => (1 - x) ^ a * (1 + x) ^ b * prod_roots r x * peval q x) x).
  { intros a b q x. apply (continuous_mult (fun x => (1 - x) ^ a * (1 + x) ^ b * prod_roots r x) (peval q)); [|apply continuous_peval].
    apply (continuous_mult (fun x => (1 - x) ^ a * (1 + x) ^ b) (prod_roots r)); [apply jacobi_weight|apply continuous_prod_roots]. }
  assert (E : forall a b q, ex_RInt (fun x => (1 - x) ^ a * (1 + x) ^ b * prod_roots r x * peval q x) (-1) 1).
  { intros a b q. apply (ex_RInt_continuous (fun x => (1 - x) ^ a * (1 + x) ^ b * prod_roots r x * peval q x)). intros; apply C. }
  assert (Z : forall (k : R) q, (length q <= n)%nat -> RInt (fun x => (1 + k * x) * prod_roots r x * peval q x) (-1) 1 = 0).
  { intros k q Hq. specialize (O q Hq). specialize (O' q Hq).
    transitivity (RInt (fun x => plus (scal ((1 - k) / 2) ((1 - x) ^ 1 * (1 + x) ^ 0 * prod_roots r x * peval q x)) (scal ((1 + k) / 2) ((1 - x) ^ 0 * (1 + x) ^ 1 * prod_roots r x * peval q x))) (-1) 1).
    - apply RInt_ext. intros x _. unfold plus, scal; cbn; unfold mult; cbn. field.
    - rewrite (RInt_plus (fun x => scal ((1 - k) / 2) ((1 - x) ^ 1 * (1 + x) ^ 0 * prod_roots r x * peval q x)) (fun x => scal ((1 + k) / 2) ((1 - x) ^ 0 * (1 + x) ^ 1 * prod_roots r x * peval q x))).
      + rewrite (RInt_scal (fun x => (1 - x) ^ 1 * (1 + x) ^ 0 * prod_roots r x * peval q x)), (RInt_scal (fun x => (1 - x) ^ 0 * (1 + x) ^ 1 * prod_roots r x * peval q x)), O, O' by apply E.
        unfold plus, scal; cbn; unfold mult; cbn. ring.
      + apply (ex_RInt_scal (fun x => (1 - x) ^ 1 * (1 + x) ^ 0 * prod_roots r x * peval q x)). apply E.
      + apply (ex_RInt_scal (fun x => (1 - x) ^ 0 * (1 + x) ^ 1 * prod_roots r x * peval q x)). apply E. }
  destruct (poly_of_roots r) as (c & Lc & Hc). destruct c as [|c0 c]; [discriminate Lc|]. cbn [length] in Lc. injection Lc as Lc.
  assert (P : ip (fun _ => 1) (fun x => peval (c0 :: c) x * peval (c0 :: c) x) = 0).
  { unfold ip. transitivity (RInt (fun x => plus (minus ((1 + 1 * x) * prod_roots r x * peval c x) ((1 + 0 * x) * prod_roots r x * peval c x)) ((1 + 0 * x) * prod_roots r x * peval [c0] x)) (-1) 1).
    - apply RInt_ext. intros x _. unfold plus, minus, plus, opp; cbn [R_AbelianGroup AbelianGroup.plus]; cbn. specialize (Hc x). cbn [peval] in Hc. rewrite <- Hc. ring.
    - assert (E' : forall k q, ex_RInt (fun x => (1 + k * x) * prod_roots r x * peval q x) (-1) 1).
      { intros k q. apply (ex_RInt_continuous (fun x => (1 + k * x) * prod_roots r x * peval q x)). intros x _. apply (continuous_mult (fun x => (1 + k * x) * prod_roots r x) (peval q)); [|apply continuous_peval].
        apply (continuous_mult (fun x => 1 + k * x) (prod_roots r)); [|apply continuous_prod_roots]. apply (ex_derive_continuous (fun x => 1 + k * x)). auto_derive. auto. }
      rewrite (RInt_plus (fun x => minus ((1 + 1 * x) * prod_roots r x * peval c x) ((1 + 0 * x) * prod_roots r x * peval c x)) (fun x => (1 + 0 * x) * prod_roots r x * peval [c0] x)).
      + rewrite (RInt_minus (fun x => (1 + 1 * x) * prod_roots r x * peval c x) (fun x => (1 + 0 * x) * prod_roots r x * peval c x)) by apply E'. rewrite !Z by (cbn [length]; lia). unfold plus, minus, opp, plus; cbn. ring.
      + apply (ex_RInt_minus (fun x => (1 + 1 * x) * prod_roots r x * peval c x) (fun x => (1 + 0 * x) * prod_roots r x * peval c x)); apply E'.
      + apply E'. }
  destruct (prod_roots_nonzero r) as (x & Hx & Hz). rewrite <- Hc in Hz.
  pose proof (pip_self_pos (fun _ => 1) (fun x => continuous_const 1 x) (fun _ _ => Rlt_0_1) (c0 :: c) x Hx Hz) as X. unfold pip in X. rewrite P in X. lra.
Qed.
Lemma radau_ends (a b : R) p (js : list R) : a < b -> (1 < p)%nat -> jacobi_roots (p - 1) 1 0 js -> ~ symmetric a b p (map (scale1 a b) ((-1 :: js) ++ [1])).
Proof.
  intros Hab H1 Lo Sy. pose proof (proj1 Lo) as L. apply (radau_not_symmetric (p - 1) js ltac:(lia) Lo). intros i Hi.
  specialize (Sy (S i) ltac:(lia)). assert (Ln : length ((-1 :: js) ++ [1]) = S p) by (rewrite app_length; cbn [length]; lia).
  rewrite !(nth_indep (map (scale1 a b) _) 0 (scale1 a b 0)) in Sy by (rewrite map_length, Ln; lia). rewrite !map_nth in Sy. replace (p - S i)%nat with (S (p - 1 - 1 - i)) in Sy by lia. cbn [app nth] in Sy. rewrite !app_nth1 in Sy by lia.
  rewrite <- scale1_sym in Sy. unfold scale1 in Sy. apply Rplus_eq_reg_l in Sy. apply Rmult_eq_reg_l in Sy; lra.
Qed.
Theorem radau_nodes cf p r : cfg_ok cf -> cf_scheme cf = "LGR"%string -> (2 <= p)%nat -> c_roots cf p = Ok r -> ~ symmetric (cf_tau0 cf) (cf_tau1 cf) p r.
Proof.
  intros H Sch Hp. destruct (co_lib _ H) as [_ _ Ra _ _]. pose proof (co_taus _ H) as Ht. unfold c_roots, taus_fn. rewrite Sch. cbn [String.eqb Ascii.eqb Bool.eqb]. unfold lgr_roots. destruct (Nat.ltb_spec 1 p) as [H1|H1]; [|lia].
  rewrite scale_roots_R. intros E. injection E as <-. exact (radau_ends (cf_tau0 cf) (cf_tau1 cf) p _ Ht H1 (Ra (p - 1)%nat ltac:(lia))).
Qed.
