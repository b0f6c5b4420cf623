(** Polynomials of feasible points of linear problems (C76). *)
From Coq Require Import Reals Lia Lra Bool Arith String.
From Coquelicot Require Import Coquelicot.
From Coq Require Import List.
From Verif Require Import Num PyList Mat Poly Roots Colloc Ocp Transcribe Spec SpecOcp SpecHadapt SpecResid SpecExact SpecLinear SpecCoord NumR ListR PolyR CompR MeshR BlockR DiscR NlpR NlpThm CostR ScaleR ExactR TransR TrackR.
Import ListNotations.
Open Scope R_scope.

(** [f] is a polynomial with at most [m] coefficients *)
Definition poly_in (m : nat) (f : R -> R) : Prop := exists d : list R, (length d <= m)%nat /\ forall x, f x = peval d x.
Lemma poly_in_ext m f g : (forall x, f x = g x) -> poly_in m f -> poly_in m g.
Proof. intros E (d & L & H). exists d. split; [exact L|]. intros x. rewrite <- E. apply H. Qed.
Lemma poly_in_of m (c : list R) : (length c <= m)%nat -> poly_in m (peval c).
Proof. intros L. exists c. auto. Qed.
Lemma poly_in_add m f g : poly_in m f -> poly_in m g -> poly_in m (fun x => f x + g x).
Proof.
  intros (d & L & H) (e & L' & H'). exists (padd d e). split; [rewrite length_padd; lia|]. intros x. rewrite peval_padd, H, H'. reflexivity.
Qed.
Lemma poly_in_scal m c f : poly_in m f -> poly_in m (fun x => c * f x).
Proof. intros (d & L & H). exists (pscale c d). split; [rewrite length_pscale; lia|]. intros x. rewrite peval_pscale, H. reflexivity. Qed.
Lemma poly_in_const m c : (1 <= m)%nat -> poly_in m (fun _ => c).
Proof. intros Hm. exists [c]. split; [cbn; lia|]. intros x. cbn. ring. Qed.
Lemma poly_in_line m c d : (2 <= m)%nat -> poly_in m (fun x => c * x + d).
Proof. intros Hm. exists [d; c]. split; [cbn; lia|]. intros x. cbn. ring. Qed.
Lemma poly_in_sum m n (f : nat -> R -> R) : (forall r, (r < n)%nat -> poly_in m (f r)) -> poly_in m (fun x => Rsum n (fun r => f r x)).
Proof.
  induction n as [|n IH]; intros H.
  - exists []. split; [cbn; lia|]. reflexivity.
  - apply poly_in_ext with (f := fun x => Rsum n (fun r => f r x) + f n x); [reflexivity|]. apply poly_in_add; [apply IH; intros r Hr; apply H; lia|apply H; lia].
Qed.
Lemma poly_in_vanish (r : list R) : poly_in (S (length r)) (vanish r).
Proof.
  induction r as [|a r (d & L & H)]; [apply (poly_in_ext _ (fun _ => 1)); [reflexivity|apply poly_in_const; cbn; lia]|].
  exists (padd (pscale (- a) d) (0 :: d)). split; [rewrite length_padd, length_pscale; cbn [length]; lia|].
  intros x. rewrite peval_padd, peval_pscale. cbn [vanish]. rewrite H. transitivity ((- a) * peval d x + (0 + x * peval d x)); [ring|reflexivity].
Qed.
Lemma vanish_zero r x : vanish r x = 0 <-> In x r.
Proof.
  induction r as [|a r IH]; cbn [vanish In]; [split; [lra|intros []]|]. split.
  - intros H. destruct (Rmult_integral _ _ H) as [E|E]; [left; lra|right; apply IH; exact E].
  - intros [->|H]; [|apply IH in H; rewrite H]; ring.
Qed.
Lemma poly_in_zero m f (r : list R) : NoDup r -> (m <= length r)%nat -> poly_in m f -> (forall x, In x r -> f x = 0) -> forall x, f x = 0.
Proof. intros ND L (d & Ld & H) Z x. rewrite H. apply (many_roots_zero r d ND ltac:(lia)). intros y Hy. rewrite <- H. apply Z, Hy. Qed.

(** ** values of linear functions along polynomials *)
Lemma affine_poly (o : ocp Rnum) A B C D m (X U : nat -> R -> R) (T : R -> R) : (2 <= m)%nat ->
  (forall s, (s < o_nx o)%nat -> poly_in m (X s)) -> (forall c, (c < o_nu o)%nat -> poly_in m (U c)) -> poly_in m T ->
  poly_in m (fun t => affine o A B C D (vec (o_nx o) (fun s => X s t)) (vec (o_nu o) (fun c => U c t)) (T t)).
Proof.
  intros Hm HX HU HT. unfold affine. apply poly_in_add; [|apply poly_in_const; lia]. apply poly_in_add; [|apply poly_in_scal; exact HT]. apply poly_in_add.
  - apply (poly_in_ext m (fun t => Rsum (o_nx o) (fun r => A r * X r t))).
    + intros t. apply Rsum_ext. intros r Hr. rewrite (BlockR.nth_vec _ _ _ 0 Hr). reflexivity.
    + apply poly_in_sum. intros r Hr. apply poly_in_scal, HX, Hr.
  - apply (poly_in_ext m (fun t => Rsum (o_nu o) (fun r => B r * U r t))).
    + intros t. apply Rsum_ext. intros r Hr. rewrite (BlockR.nth_vec _ _ _ 0 Hr). reflexivity.
    + apply poly_in_sum. intros r Hr. apply poly_in_scal, HU, Hr.
Qed.
Lemma a_of_ok (o : ocp Rnum) y : arg_ok o (a_of o y).
Proof. unfold arg_ok, a_of. destruct (Nat.eqb (o_na o) 0); [reflexivity|]. eexists. split; [reflexivity|]. apply BlockR.length_vec. Qed.

Section Seg.
Variables (mp : mpo Rnum) (rs : list (list R)) (w : nat -> R) (ph : nat) (y : utraj) (npath nterm : nat -> option nat).
Let o := mp_ocp mp.
Let cf := mp_cf mp.
Let orders := mp_orders mp.
Hypothesis Hok : ocp_ok o npath nterm.
Hypothesis Hph : (ph < o_nph o)%nat.
Hypothesis Hpos : forall q, In q orders -> (1 <= q)%nat.
Hypothesis Hg : forall k q r, nth_error orders k = Some q -> nth_error rs k = Some r -> good_nodes (cf_tau0 cf) (cf_tau1 cf) q r.
Hypothesis Hrs : length rs = length orders.
Hypothesis Hlin : linear_dyn o ph.
Hypothesis Hdyn : dynamics_ok mp rs w ph y.

Lemma lin_nodes k q : nth_error orders k = Some q -> good_nodes (cf_tau0 cf) (cf_tau1 cf) q (nth k rs []).
Proof.
  intros Eq. destruct (nth_error rs k) as [r|] eqn:Er; [|apply nth_error_None in Er; pose proof (nth_error_lt _ _ _ Eq); lia].
  rewrite (nth_error_nth _ _ [] Er). exact (Hg k q r Eq Er).
Qed.
Lemma lin_dyn_poly k q cx cu s : nth_error orders k = Some q -> SpecResid.seg_polys mp rs y k cx cu -> (s < o_nx o)%nat ->
  poly_in (S q) (fun tau => nth s (dyn_along o ph y cx cu tau (seg_time cf w y k tau)) 0).
Proof.
  intros Eq [HX HU] Hs. destruct (lin_nodes k q Eq) as (Ln & _). assert (Hq : (1 <= q)%nat) by (apply Hpos; exact (nth_error_In _ _ Eq)).
  assert (Xf : exists f, nth_error (o_dyn o) ph = Some f) by (destruct (nth_error (o_dyn o) ph) as [f|] eqn:Ef; [eauto|apply nth_error_None in Ef; pose proof (sh_dyn _ (ok_shapes _ _ _ Hok)) as Ld; clear - Ef Ld Hph; nred; lia]). destruct Xf as [f Ef].
  destruct (Hlin (a_of o y) (a_of_ok o y)) as (A & B & C & D & H).
  apply (poly_in_ext _ (fun tau => affine o (A s) (B s) (C s) (D s) (vec (o_nx o) (fun r => peval (cx r) tau)) (vec (o_nu o) (fun c => peval (cu c) tau)) (seg_time cf w y k tau))).
  - intros tau. destruct (ok_dyn _ _ _ Hok ph f (vec (o_nx o) (fun r => peval (cx r) tau)) (vec (o_nu o) (fun c => peval (cu c) tau)) (seg_time cf w y k tau) (a_of o y) Ef (BlockR.length_vec _ _) (BlockR.length_vec _ _) (a_of_ok o y)) as (d & Ed & _).
    unfold dyn_along. rewrite Ef. rewrite Ed. symmetry. exact (H f _ _ _ d Ef (BlockR.length_vec _ _) (BlockR.length_vec _ _) Ed s Hs).
  - apply (affine_poly o (A s) (B s) (C s) (D s) (S q) (fun r => peval (cx r)) (fun c => peval (cu c)) (seg_time cf w y k)); [lia| | |].
    + intros r Hr. apply poly_in_of. rewrite <- Ln. exact (proj1 (HX r Hr)).
    + intros r Hr. apply poly_in_of. rewrite <- Ln. exact (proj1 (HU r Hr)).
    + apply (poly_in_ext _ (fun x => seg_h cf w y k * x + (seg_start w y k - seg_h cf w y k * cf_tau0 cf))); [intros x; unfold seg_time; ring|apply poly_in_line; lia].
Qed.
Lemma lin_defect_poly k q cx cu s : nth_error orders k = Some q -> SpecResid.seg_polys mp rs y k cx cu -> (s < o_nx o)%nat ->
  poly_in (S q) (defect mp w ph y k cx cu s).
Proof.
  intros Eq HP Hs. pose proof (lin_dyn_poly k q cx cu s Eq HP Hs) as HD. destruct HP as [HX HU]. destruct (lin_nodes k q Eq) as (Ln & _).
  apply (poly_in_ext _ (fun tau => peval (@pder Rnum (cx s)) tau + (- seg_h cf w y k) * nth s (dyn_along o ph y cx cu tau (seg_time cf w y k tau)) 0)).
  - intros tau. unfold defect, rate. rewrite (is_derive_unique _ _ _ (is_derive_peval (cx s) tau)). fold o cf. ring.
  - apply poly_in_add; [|apply poly_in_scal; exact HD]. apply poly_in_of. pose proof (proj1 (HX s Hs)) as L. pose proof (TrackR.length_pder (cx s) q ltac:(clear - L Ln; nred; lia)) as L'. clear - L'. nred. lia.
Qed.
Lemma lin_defect_node k q cx cu s j : nth_error orders k = Some q -> SpecResid.seg_polys mp rs y k cx cu -> (s < o_nx o)%nat -> (j <= q)%nat -> (k = 0 \/ 1 <= j)%nat ->
  defect mp w ph y k cx cu s (nth j (nth k rs []) 0) = 0.
Proof.
  intros Eq [HX HU] Hs Hj Hkj. destruct (lin_nodes k q Eq) as (Ln & _).
  pose proof (Hdyn (offset orders k + j)%nat k j s (cx s) ltac:(exists q; auto) Hs (HX s Hs)) as Hd.
  unfold defect, rate. rewrite (is_derive_unique _ _ _ Hd). fold o cf.
  replace (dyn_along o ph y cx cu (nth j (nth k rs []) 0) (seg_time cf w y k (nth j (nth k rs []) 0))) with (dyn_val o ph y (offset orders k + j) (seg_time cf w y k (nth j (nth k rs []) 0))); [fold cf o orders; ring|].
  unfold dyn_val, dyn_along. destruct (nth_error (o_dyn o) ph) as [f|]; [|reflexivity].
  assert (Hjl : (j < length (nth k rs []))%nat) by (clear - Ln Hj; nred; lia).
  rewrite (vec_eq _ (y_x y (offset orders k + j)) (fun s => peval (cx s) (nth j (nth k rs []) 0))) by (intros i Hi; symmetry; exact (proj2 (HX i Hi) j Hjl)).
  rewrite (vec_eq _ (y_u y (offset orders k + j)) (fun s => peval (cu s) (nth j (nth k rs []) 0))) by (intros i Hi; symmetry; exact (proj2 (HU i Hi) j Hjl)).
  reflexivity.
Qed.
(** the defect of a segment is a multiple of the polynomial that vanishes at its nodes but the first; on the first segment it is zero *)
Lemma lin_defect k cx cu s : (k < length orders)%nat -> SpecResid.seg_polys mp rs y k cx cu -> (s < o_nx o)%nat ->
  exists C, (k = 0%nat -> C = 0) /\ forall tau, defect mp w ph y k cx cu s tau = C * vanish (tl (nth k rs [])) tau.
Proof.
  intros Hk HP Hs. destruct (nth_error orders k) as [q|] eqn:Eq; [|apply nth_error_None in Eq; lia].
  pose proof (lin_nodes k q Eq) as G. pose proof (good_nodup _ _ _ _ G) as ND. destruct G as (Ln & _).
  pose proof (lin_defect_poly k q cx cu s Eq HP Hs) as HD. pose proof (fun j => lin_defect_node k q cx cu s j Eq HP Hs) as HN.
  set (r := nth k rs []) in *. destruct r as [|r0 r]; [cbn in Ln; lia|]. cbn [tl]. inversion ND as [|? ? Hn0 ND']; subst.
  assert (V : vanish r r0 <> 0) by (intros E; apply vanish_zero in E; exact (Hn0 E)).
  exists (defect mp w ph y k cx cu s r0 / vanish r r0). split.
  - intros ->. pose proof (HN 0%nat ltac:(lia) ltac:(lia)) as E. cbn [nth] in E. rewrite E. field. exact V.
  - intros tau. set (C := defect mp w ph y k cx cu s r0 / vanish r r0). apply Rminus_diag_uniq. revert tau.
    apply (poly_in_zero (S q) (fun tau => defect mp w ph y k cx cu s tau - C * vanish r tau) (r0 :: r) ND); [clear - Ln; nred; lia| |].
    + apply (poly_in_ext _ (fun tau => defect mp w ph y k cx cu s tau + (- C) * vanish r tau)); [intros x; ring|]. apply poly_in_add; [exact HD|]. apply poly_in_scal.
      destruct (poly_in_vanish r) as (d & Ld & Ed). exists d. split; [|exact Ed]. cbn in Ln. clear - Ld Ln. nred. lia.
    + intros x [<-|Hx].
      * unfold C. field. exact V.
      * assert (vanish r x = 0) as -> by (apply vanish_zero; exact Hx). destruct (In_nth _ _ 0 Hx) as (j & Hj & <-).
        pose proof (HN (S j) ltac:(cbn in Ln; clear - Ln Hj; nred; lia) ltac:(lia)) as E. cbn [nth] in E. rewrite E. ring.
Qed.
End Seg.
Theorem defect_thm (mp : mpo Rnum) npath nterm (z p : list R) : input_ok mp npath nterm z p -> (forall ph, (ph < o_nph (mp_ocp mp))%nat -> linear_dyn (mp_ocp mp) ph) ->
  exists rs n, mapM (c_roots (mp_cf mp)) (mp_orders mp) = Ok rs /\ nlp_at mp z p = Ok n /\
    (feasible n -> forall ph k cx cu s, (ph < o_nph (mp_ocp mp))%nat -> (k < length (mp_orders mp))%nat -> (s < o_nx (mp_ocp mp))%nat -> SpecResid.seg_polys mp rs (user_traj mp z ph) k cx cu ->
       exists C, (k = 0%nat -> C = 0) /\ forall tau, defect mp (width mp p ph) ph (user_traj mp z ph) k cx cu s tau = C * vanish (tl (nth k rs [])) tau).
Proof.
  intros [Hmp Hok Hsc Hz Hp] Hlin. destruct (nlp_at_ok mp Hmp npath nterm Hok Hsc z p Hz Hp) as (rs & n & Er & En & Hrs & Hg & _ & _ & _ & _ & Hb & Hsat & _).
  exists rs, n. split; [exact Er|]. split; [exact En|]. intros [_ F] ph k cx cu s Hph Hk Hs HP. apply Hsat in F. destruct F as [F _].
  exact (lin_defect mp rs (width mp p ph) ph (user_traj mp z ph) npath nterm Hok Hph (mo_pos _ Hmp) Hg Hrs (Hlin ph Hph) (proj1 (F ph Hph)) k cx cu s Hk HP Hs).
Qed.

Section OnePhase.
Variables (o : ocp Rnum) (q : nat) (cf : ccfg Rnum) (npath nterm : nat -> option nat) (rs : list (list R)) (w : nat -> R) (ph : nat) (y : utraj).
Let mp := Mpo o 1 [q] cf.
Hypothesis Ht : cf_tau0 cf < cf_tau1 cf.
Hypothesis Hq : (1 <= q)%nat.
Hypothesis Hok : ocp_ok o npath nterm.
Hypothesis Hph : (ph < o_nph o)%nat.
Hypothesis Hg : forall k q' r, nth_error [q] k = Some q' -> nth_error rs k = Some r -> good_nodes (cf_tau0 cf) (cf_tau1 cf) q' r.
Hypothesis Hrs : length rs = 1%nat.
Hypothesis Hw : w 0%nat = 1.
Hypothesis Hlin : linear_dyn o ph.
Hypothesis Hb : bounds_ok mp ph y.
Hypothesis Hp : phase_ok mp rs w ph y.
Hypothesis Hyt : y_t0 y < y_tf y.

Lemma one_pos : forall q', In q' (mp_orders mp) -> (1 <= q')%nat.
Proof. intros q' [<-|[]]. exact Hq. Qed.
Lemma one_h : 0 < seg_h cf w y 0.
Proof. unfold seg_h. rewrite Hw, Rmult_1_r. apply Rdiv_lt_0_compat; lra. Qed.
Lemma one_sum : Rsum (length (mp_orders mp)) w = 1.
Proof. cbn. rewrite Hw. ring. Qed.
Lemma one_wpos k : (k < length (mp_orders mp))%nat -> 0 < w k.
Proof. intros Hk. cbn in Hk. assert (k = 0)%nat as -> by lia. rewrite Hw. lra. Qed.
Lemma one_phase : exists P, samples mp rs w P y /\ resolved mp P /\ satisfies o ph P /\ (inside o ph P -> solves o ph P).
Proof.
  pose proof one_h as Hh. set (h := seg_h cf w y 0) in *. pose proof (Hg 0%nat q (nth 0 rs []) eq_refl ltac:(destruct rs; [discriminate|reflexivity])) as G.
  pose proof (good_nodup _ _ _ _ G) as ND. destruct G as (Ln & _). set (r := nth 0 rs []) in *.
  assert (HI : forall f : nat -> R, exists c X : list R, interpolates c r f /\ (length X <= S q)%nat /\ forall t, peval X t = peval c ((cf_tau0 cf - y_t0 y / h) + / h * t)).
  { intros f. destruct (interp_exists r f ND) as [c Hc]. destruct (poly_affine c (cf_tau0 cf - y_t0 y / h) (/ h)) as (X & LX & EX). exists c, X. split; [exact Hc|]. split; [|exact EX].
    pose proof (proj1 Hc) as L. clear - L Ln LX. nred. lia. }
  destruct (finite_choice (fun s cX => interpolates (fst cX) r (fun j => y_x y j s) /\ (length (snd cX) <= S q)%nat /\ forall t, peval (snd cX) t = peval (fst cX) ((cf_tau0 cf - y_t0 y / h) + / h * t)) (@pair (list R) (list R) [] []) (o_nx o)) as [X HX].
  { intros s _. destruct (HI (fun j => y_x y j s)) as (c & X & H). exists (c, X). exact H. }
  destruct (finite_choice (fun s cX => interpolates (fst cX) r (fun j => y_u y j s) /\ (length (snd cX) <= S q)%nat /\ forall t, peval (snd cX) t = peval (fst cX) ((cf_tau0 cf - y_t0 y / h) + / h * t)) (@pair (list R) (list R) [] []) (o_nu o)) as [U HU].
  { intros s _. destruct (HI (fun j => y_u y j s)) as (c & U & H). exists (c, U). exact H. }
  set (P := Ptraj (fun s => snd (X s)) (fun c => snd (U c)) (y_t0 y) (y_tf y) (y_a y)).
  assert (Tt : forall tau, seg_time cf w y 0 tau = y_t0 y + h * (tau - cf_tau0 cf)) by (intros tau; unfold seg_time, seg_start; cbn [Rsum]; fold h; cbn; ring).
  assert (Inv : forall tau, (cf_tau0 cf - y_t0 y / h) + / h * seg_time cf w y 0 tau = tau) by (intros tau; rewrite Tt; field; lra).
  assert (HP : SpecResid.seg_polys mp rs y 0 (fun s => fst (X s)) (fun c => fst (U c))).
  { split; intros s Hs; [exact (proj1 (HX s Hs))|exact (proj1 (HU s Hs))]. }
  assert (HS : samples mp rs w P y).
  { split; [reflexivity|]. split; [reflexivity|]. split; [reflexivity|]. intros i k j Ho. cbv zeta.
    assert (Hk : (k < 1)%nat) by (destruct Ho as (q' & Eq & _); exact (nth_error_lt _ _ _ Eq)). assert (k = 0)%nat as -> by lia.
    destruct Ho as (q' & Eq & Hj & _ & ->). injection Eq as <-. change (offset [q] 0 + j)%nat with j. rewrite (T_node mp w y Ht 0). fold r.
    assert (Hjl : (j < length r)%nat) by (clear - Ln Hj; nred; lia). split; intros s Hs; cbn [p_x p_u P].
    - destruct (HX s Hs) as (A & _ & B). rewrite B. change (mp_cf mp) with cf. rewrite Inv. symmetry. exact (proj2 A j Hjl).
    - destruct (HU s Hs) as (A & _ & B). rewrite B. change (mp_cf mp) with cf. rewrite Inv. symmetry. exact (proj2 A j Hjl). }
  assert (HSat : satisfies o ph P).
  { intros t s Hs. set (tau := (cf_tau0 cf - y_t0 y / h) + / h * t). assert (Et : seg_time cf w y 0 tau = t) by (rewrite Tt; unfold tau; field; lra).
    destruct (lin_defect mp rs w ph y npath nterm Hok Hph one_pos Hg Hrs Hlin (proj1 Hp) 0%nat _ _ s ltac:(cbn; lia) HP Hs) as (C & HC & E). specialize (E tau). rewrite (HC eq_refl), Rmult_0_l in E.
    unfold defect, rate in E. apply Rminus_diag_uniq in E. change (mp_cf mp) with cf in E. change (mp_ocp mp) with o in E. rewrite Et in E. fold h in E.
    destruct (HX s Hs) as (_ & _ & B). apply is_derive_ext with (f := fun t => peval (fst (X s)) ((cf_tau0 cf - y_t0 y / h) + / h * t)); [intros x; symmetry; apply B|].
    evar_last.
    - apply (is_derive_comp (peval (fst (X s))) (fun t => (cf_tau0 cf - y_t0 y / h) + / h * t)).
      + apply Derive_correct, ex_derive_peval.
      + auto_derive; [exact I|reflexivity].
    - fold tau. rewrite E. unfold scal; cbn; unfold mult; cbn.
      replace (dyn_val o ph (at_time P t) 0 t) with (dyn_along o ph y (fun s => fst (X s)) (fun c => fst (U c)) tau t); [field; lra|].
      unfold dyn_val, dyn_along. destruct (nth_error (o_dyn o) ph) as [f|]; [|reflexivity].
      rewrite (vec_eq (o_nx o) (y_x (at_time P t) 0) (fun s => peval (fst (X s)) tau)) by (intros i Hi; exact (proj2 (proj2 (HX i Hi)) t)).
      rewrite (vec_eq (o_nu o) (y_u (at_time P t) 0) (fun s => peval (fst (U s)) tau)) by (intros i Hi; exact (proj2 (proj2 (HU i Hi)) t)). reflexivity. }
  assert (HR : resolved mp P).
  { intros q' [<-|[]]. split; intros s Hs; [exact (proj1 (proj2 (HX s Hs)))|exact (proj1 (proj2 (HU s Hs)))]. }
  exists P. split; [exact HS|]. split; [exact HR|]. split; [exact HSat|]. intros HIn.
  pose proof (ends_eq mp rs w P y Ht ltac:(cbn; lia) one_pos Hrs Hg one_wpos one_sum HS) as (E1 & E2 & E3 & E4 & E5).
  destruct Hb as (B1 & B2 & B3 & B4 & B5). destruct Hp as (_ & _ & _ & _ & _ & Htm). constructor.
  - exact Hyt.
  - intros t s _ Hs. exact (HSat t s Hs).
  - intros t c Htt. apply HIn. exact Htt.
  - intros c Hc. apply Htm. unfold term_val in *. change (mp_ocp mp) with o in *. rewrite <- E1, <- E2, <- E3, <- E4, <- E5 in Hc. exact Hc.
  - intros s E0 Hs. destruct (at_first mp rs w P y Ht ltac:(cbn; lia) one_pos Hrs Hg one_wpos one_sum HS) as [A _]. rewrite <- (A s Hs). pose proof (B1 0%nat s ltac:(cbn; lia) Hs) as X0. rewrite E0 in X0. exact X0.
  - intros t s Htt. apply HIn. exact Htt.
  - intros t s Htt. apply HIn. exact Htt.
  - exact B3.
  - exact B4.
  - exact B5.
Qed.
End OnePhase.
Theorem one_thm (o : ocp Rnum) (q : nat) (cf : ccfg Rnum) npath nterm (p : list R) : let mp := Mpo o 1 [q] cf in
  mpo_ok mp -> ocp_ok o npath nterm -> scales_pos o -> widths_ok 1 (o_nph o) p -> (forall ph, (ph < o_nph o)%nat -> linear_dyn o ph) ->
  forall (z : list R) n, length z = (o_nph o * nvars mp)%nat -> nlp_at mp z p = Ok n -> feasible n ->
  (forall ph, (ph < o_nph o)%nat -> y_t0 (user_traj mp z ph) < y_tf (user_traj mp z ph)) ->
  exists rs Ps, mapM (c_roots cf) [q] = Ok rs /\
    (forall ph, (ph < o_nph o)%nat -> samples mp rs (width mp p ph) (Ps ph) (user_traj mp z ph) /\ resolved mp (Ps ph) /\ satisfies o ph (Ps ph)) /\
    (no_slopes o -> (forall ph, (ph < o_nph o)%nat -> inside o ph (Ps ph)) ->
     forall K orders cf' (p' : list R), let mp' := Mpo o K orders cf' in mpo_ok mp' -> widths_ok K (o_nph o) p' -> (forall q', In q' orders -> (q <= q')%nat) ->
     exists rs' (z' : list R) n', mapM (c_roots cf') orders = Ok rs' /\ length z' = (o_nph o * nvars mp')%nat /\
       (forall ph, (ph < o_nph o)%nat -> samples mp' rs' (width mp' p' ph) (Ps ph) (user_traj mp' z' ph)) /\
       nlp_at mp' z' p' = Ok n' /\ feasible n' /\
       ((forall ph, (ph < o_nph o)%nat -> linear_run o ph) ->
        cf_scheme cf' = "LGR"%string /\ (forall q', In q' orders -> (2 <= q')%nat) \/ length orders = 1%nat -> n_f n' = n_f n)).
Proof.
  intros mp Hmp Hok Hsc Hwd Hlin z n Hz En Hf Hty. assert (Hlp : length p = (o_nph o * mp_nseg mp)%nat) by (destruct Hwd as [L _]; rewrite L; apply Nat.mul_comm).
  assert (Hq : (1 <= q)%nat) by (apply (mo_pos _ Hmp); left; reflexivity). pose proof (co_taus _ (mo_cfg _ Hmp)) as Ht. change (mp_cf mp) with cf in Ht.
  destruct (nlp_at_ok mp Hmp npath nterm Hok Hsc z p Hz Hlp) as (rs & n1 & Er & En1 & Hrs & Hg & _ & _ & _ & _ & Hb & Hsat & _).
  assert (n1 = n) as -> by (pose proof (eq_trans (eq_sym En1) En) as X; injection X as X; exact X).
  destruct Hf as [Fb Fs]. rewrite Hb in Fb. apply Hsat in Fs. destruct Fs as [Fs Fl].
  assert (HW : forall ph, (ph < o_nph o)%nat -> width mp p ph 0%nat = 1).
  { intros ph Hph. destruct (part_widths mp p Hmp Hwd ph Hph) as [_ W]. cbn in W. rewrite <- W. cbn. ring. }
  destruct (finite_choice (fun ph P => samples mp rs (width mp p ph) P (user_traj mp z ph) /\ resolved mp P /\ satisfies o ph P /\ (inside o ph P -> solves o ph P)) (Ptraj (fun _ => []) (fun _ => []) 0 0 (fun _ => 0)) (o_nph o)) as [Ps HPs].
  { intros ph Hph. exact (one_phase o q cf npath nterm rs (width mp p ph) ph (user_traj mp z ph) Ht Hq Hok Hph Hg Hrs (HW ph Hph) (Hlin ph Hph) (Fb ph Hph) (Fs ph Hph) (Hty ph Hph)). }
  exists rs, Ps. split; [exact Er|]. split; [intros ph Hph; destruct (HPs ph Hph) as (A & B & C & _); auto|]. intros Hn Hin K orders cf' p' mp' Hmp' Hwd' Hqq.
  assert (Hlk : linked o Ps).
  { intros k i j Ek. assert (Hnp : (1 < o_nph o)%nat) by (pose proof (nth_error_lt _ _ _ Ek) as X; pose proof (ok_links_len _ _ _ Hok); lia).
    destruct (ok_links _ _ _ Hok i j (nth_error_In _ _ Ek)) as [Hi Hj]. destruct (Fl Hnp k i j Ek) as (A & B & C).
    assert (WP : forall ph k, (ph < o_nph o)%nat -> (k < 1)%nat -> 0 < width mp p ph k) by (intros ph' k' H1 H2; assert (k' = 0)%nat as -> by lia; rewrite (HW ph' H1); lra).
    assert (WS : forall ph, (ph < o_nph o)%nat -> Rsum 1 (width mp p ph) = 1) by (intros ph' H1; cbn; rewrite (HW ph' H1); ring).
    pose proof (proj1 (HPs i Hi)) as Si. pose proof (proj1 (HPs j Hj)) as Sj.
    destruct (at_last mp rs (width mp p i) (Ps i) (user_traj mp z i) Ht ltac:(cbn; lia) (mo_pos _ Hmp) Hrs Hg (WS i Hi) Si) as [Lx Lu].
    destruct (at_first mp rs (width mp p j) (Ps j) (user_traj mp z j) Ht ltac:(cbn; lia) (mo_pos _ Hmp) Hrs Hg (fun k => WP j k Hj) (WS j Hj) Sj) as [Fx Fu].
    destruct Si as (_ & Ei & _). destruct Sj as (Ej & _). split; [|split].
    - intros s Hs'. pose proof (A s Hs') as X. rewrite (Lx s Hs'), (Fx s Hs') in X. exact X.
    - intros c Hc. pose proof (B c Hc) as X. rewrite (Lu c Hc), (Fu c Hc) in X. exact X.
    - rewrite <- Ei, <- Ej. exact C. }
  assert (Hsol : forall ph, (ph < o_nph o)%nat -> solves o ph (Ps ph)) by (intros ph Hph; destruct (HPs ph Hph) as (_ & _ & _ & X); exact (X (Hin ph Hph))).
  assert (Hres : forall ph, (ph < o_nph o)%nat -> resolved mp (Ps ph)) by (intros ph Hph; apply (HPs ph Hph)).
  assert (Hres' : forall ph, (ph < o_nph o)%nat -> resolved mp' (Ps ph)).
  { intros ph Hph q' Hq'. destruct (Hres ph Hph q (or_introl eq_refl)) as [A B]. pose proof (Hqq q' Hq'). split; intros s Hs; [pose proof (A s Hs)|pose proof (B s Hs)]; lia. }
  destruct (exact_thm mp npath nterm p Ps Hmp Hok Hsc Hwd Hn Hsol Hlk Hres) as (rs1 & Er1 & _ & H1).
  assert (rs1 = rs) as -> by (pose proof (eq_trans (eq_sym Er1) Er) as X; injection X as X; exact X).
  destruct (exact_thm mp' npath nterm p' Ps Hmp' Hok Hsc Hwd' Hn Hsol Hlk Hres') as (rs' & Er' & (z' & Hz' & Hs') & H2).
  destruct (H2 z' Hz' Hs') as (n' & En' & F' & C'). exists rs', z', n'. split; [exact Er'|]. split; [exact Hz'|]. split; [exact Hs'|]. split; [exact En'|]. split; [exact F'|].
  intros HL Hcase. destruct (H1 z Hz (fun ph Hph => proj1 (HPs ph Hph))) as (n2 & En2 & _ & C).
  assert (n2 = n) as -> by (pose proof (eq_trans (eq_sym En2) En) as X; injection X as X; exact X).
  assert (XL : exists Ls : nat -> list R, forall ph, (ph < o_nph o)%nat -> run_poly o ph (Ps ph) (Ls ph) /\ (length (Ls ph) <= S q)%nat).
  { apply (finite_choice (fun ph L => run_poly o ph (Ps ph) L /\ (length L <= S q)%nat) []). intros ph Hph.
    destruct (HL ph Hph (a_of o (at_time (Ps ph) 0)) (a_of_ok _ _)) as (A & B & C0 & D & H).
    assert (Xf : exists f, nth_error (o_run o) ph = Some f) by (destruct (nth_error (o_run o) ph) as [f|] eqn:Ef; [eauto|apply nth_error_None in Ef; pose proof (sh_run _ (ok_shapes _ _ _ Hok)) as Ld; clear - Ef Ld Hph; nred; lia]). destruct Xf as [f Ef].
    destruct (Hres ph Hph q (or_introl eq_refl)) as [RX RU].
    destruct (affine_poly o A B C0 D (S q) (fun s => peval (p_x (Ps ph) s)) (fun c => peval (p_u (Ps ph) c)) (fun t => t)) as (L & LL & EL); [lia| | | |].
    - intros s Hs. apply poly_in_of. exact (RX s Hs).
    - intros s Hs. apply poly_in_of. exact (RU s Hs).
    - apply (poly_in_ext _ (fun x => 1 * x + 0)); [intros x; ring|apply poly_in_line; lia].
    - exists L. split; [|exact LL]. intros t _. rewrite <- EL.
      destruct (ok_run _ _ _ Hok ph f (vec (o_nx o) (fun s => peval (p_x (Ps ph) s) t)) (vec (o_nu o) (fun c => peval (p_u (Ps ph) c) t)) t (a_of o (at_time (Ps ph) t)) Ef (BlockR.length_vec _ _) (BlockR.length_vec _ _) (a_of_ok _ _)) as (l & El).
      unfold run_val. rewrite Ef. cbn [at_time y_x y_u]. rewrite El. exact (H f _ _ _ l Ef (BlockR.length_vec _ _) (BlockR.length_vec _ _) El). }
  destruct XL as [Ls HLs]. rewrite (C' Ls), (C Ls); [reflexivity| | | |].
  - intros ph Hph. apply (HLs ph Hph).
  - right. split; [reflexivity|]. intros ph q' Hph [<-|[]]. apply (HLs ph Hph).
  - intros ph Hph. apply (HLs ph Hph).
  - destruct Hcase as [[E1 E2]|E1]; [left|right]; (split; [exact E1|]); intros ph q' Hph Hq'; pose proof (proj2 (HLs ph Hph)); pose proof (Hqq q' Hq'); [pose proof (E2 q' Hq'); split; [assumption|lia]|lia].
Qed.
Lemma unbounded_inside (o : ocp Rnum) npath nterm ph P : ocp_ok o npath nterm -> unbounded o npath -> (ph < o_nph o)%nat -> inside o ph P.
Proof.
  intros Hok Hu Hph t _. destruct (Hu ph Hph) as (Hn & Hx & Hc). split; [|split].
  - intros c. unfold path_val. destruct (nth_error (o_path o) ph) as [f|] eqn:Ef; [|intros []].
    pose proof (ok_path _ _ _ Hok ph f (vec (o_nx o) (y_x (at_time P t) 0)) (vec (o_nu o) (y_u (at_time P t) 0)) t (a_of o (at_time P t)) Ef (BlockR.length_vec _ _) (BlockR.length_vec _ _) (a_of_ok _ _)) as E.
    rewrite Hn in E. rewrite E. intros [].
  - intros s Hs. destruct (Hx s Hs) as [-> ->]. split; exact I.
  - intros s Hs. destruct (Hc s Hs) as [-> ->]. split; exact I.
Qed.
(** a finer mesh is no worse *)
Theorem finer_thm (o : ocp Rnum) (q : nat) (cf : ccfg Rnum) npath nterm (p : list R) K orders cf' (p' : list R) :
  let mp := Mpo o 1 [q] cf in let mp' := Mpo o K orders cf' in
  mpo_ok mp -> mpo_ok mp' -> ocp_ok o npath nterm -> scales_pos o -> widths_ok 1 (o_nph o) p -> widths_ok K (o_nph o) p' ->
  (forall ph, (ph < o_nph o)%nat -> linear_dyn o ph /\ linear_run o ph) -> unbounded o npath -> no_slopes o ->
  (forall q', In q' orders -> (q <= q')%nat) -> cf_scheme cf' = "LGR"%string /\ (forall q', In q' orders -> (2 <= q')%nat) \/ length orders = 1%nat ->
  forall z z' : list R, length z = (o_nph o * nvars mp)%nat -> length z' = (o_nph o * nvars mp')%nat ->
  (forall ph, (ph < o_nph o)%nat -> y_t0 (user_traj mp z ph) < y_tf (user_traj mp z ph)) -> best mp p z -> best mp' p' z' ->
  exists n n', nlp_at mp z p = Ok n /\ nlp_at mp' z' p' = Ok n' /\ n_f n' <= n_f n.
Proof.
  intros mp mp' Hmp Hmp' Hok Hsc Hwd Hwd' Hlin Hu Hn Hqq Hcase z z' Hz Hz' Hty (n & En & Hf & _) (n' & En' & _ & Hbest).
  destruct (one_thm o q cf npath nterm p Hmp Hok Hsc Hwd (fun ph H => proj1 (Hlin ph H)) z n Hz En Hf Hty) as (rs & Ps & _ & _ & H).
  destruct (H Hn (fun ph Hph => unbounded_inside o npath nterm ph (Ps ph) Hok Hu Hph) K orders cf' p' Hmp' Hwd' Hqq) as (rs' & z1 & n1 & _ & Hz1 & _ & En1 & F1 & C).
  exists n, n'. split; [exact En|]. split; [exact En'|]. rewrite <- (C (fun ph Hph => proj2 (Hlin ph Hph)) Hcase).
  exact (Hbest z1 n1 (eq_trans Hz1 (eq_sym Hz')) En1 F1).
Qed.
