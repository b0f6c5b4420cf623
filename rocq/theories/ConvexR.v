(** Convex problems (proofs of C60). *)
From Coq Require Import Reals Lia Lra Psatz Bool Arith String.
From Coquelicot Require Import Coquelicot.
From Coq Require Import List.
From Verif Require Import Num PyList Mat Poly Roots Colloc Ocp Transcribe Spec SpecOcp SpecHadapt SpecConvex NumR ListR PolyR CollocR CompR CollocThm MeshR BlockR DiscR NlpR OcpR NlpThm CostR WeightR ChebR ExactR.
Import ListNotations.
Open Scope R_scope.

Lemma mix_div lam a b s : mix lam a b / s = mix lam (a / s) (b / s).
Proof. unfold mix, Rdiv. ring. Qed.
Lemma mix_same lam a : mix lam a a = a.
Proof. unfold mix. ring. Qed.
Lemma mix_le lam a b c : 0 <= lam <= 1 -> a <= c -> b <= c -> mix lam a b <= c.
Proof. intros. unfold mix. nra. Qed.
Lemma mix_ge lam a b c : 0 <= lam <= 1 -> c <= a -> c <= b -> c <= mix lam a b.
Proof. intros. unfold mix. nra. Qed.
Lemma mix_within lam lo hi a b : 0 <= lam <= 1 -> within lo hi a -> within lo hi b -> within lo hi (mix lam a b).
Proof.
  intros Hl [A1 A2] [B1 B2]. split.
  - destruct lo; cbn in *; auto. apply mix_ge; auto.
  - destruct hi; cbn in *; auto. apply mix_le; auto.
Qed.
Lemma length_mixl lam l m : length l = length m -> length (mixl lam l m) = length l.
Proof. intros H. unfold mixl. rewrite map_length, combine_length. lia. Qed.
Lemma nth_mixl lam l m i : length l = length m -> nth i (mixl lam l m) 0 = mix lam (nth i l 0) (nth i m 0).
Proof.
  revert m i. induction l as [|a l IH]; intros [|b m] i H; try discriminate H.
  - destruct i; cbn; unfold mix; ring.
  - destruct i as [|i]; [reflexivity|]. cbn [nth]. rewrite <- IH by (cbn in H; lia). reflexivity.
Qed.
Lemma vec_mix lam n f g h : (forall i, (i < n)%nat -> h i = mix lam (f i) (g i)) -> vec n h = mixl lam (vec n f) (vec n g).
Proof.
  intros H. rewrite (vec_eq n h (fun i => mix lam (f i) (g i)) H). unfold vec, mixl. generalize (seq 0 n). intros l. induction l as [|a l IH]; cbn; [reflexivity|]. f_equal. exact IH.
Qed.
Lemma length_vec n f : length (vec n f) = n.
Proof. unfold vec. rewrite map_length, seq_length. reflexivity. Qed.

Section Phase.
Variables (mp : mpo Rnum) (npath nterm : nat -> option nat) (rs : list (list R)) (w : nat -> R) (ph : nat) (lam : R) (y y' ym : utraj).
Let o := mp_ocp mp.
Let cf := mp_cf mp.
Let orders := mp_orders mp.
Hypothesis Hok : ocp_ok o npath nterm.
Hypothesis Hcv : convex_phase o ph.
Hypothesis Hlam : 0 <= lam <= 1.
Hypothesis Mx : forall i s, y_x ym i s = mix lam (y_x y i s) (y_x y' i s).
Hypothesis Mu : forall i c, y_u ym i c = mix lam (y_u y i c) (y_u y' i c).
Hypothesis Ma : forall i, y_a ym i = mix lam (y_a y i) (y_a y' i).
Hypothesis T0 : y_t0 y' = y_t0 y.
Hypothesis T1 : y_tf y' = y_tf y.
Hypothesis T0m : y_t0 ym = y_t0 y.
Hypothesis T1m : y_tf ym = y_tf y.
Hypothesis Hgood : forall k q r, nth_error orders k = Some q -> nth_error rs k = Some r -> good_nodes (cf_tau0 cf) (cf_tau1 cf) q r.
Hypothesis Hrs : length rs = length orders.

Lemma a_mix : a_of o ym = mixo lam (a_of o y) (a_of o y').
Proof. unfold a_of. destruct (Nat.eqb (o_na o) 0); [reflexivity|]. cbn [mixo]. f_equal. apply vec_mix. intros i _. apply Ma. Qed.
Lemma a_arg v : arg_ok o (a_of o v).
Proof. unfold arg_ok, a_of. destruct (Nat.eqb (o_na o) 0); [reflexivity|]. eexists. split; [reflexivity|]. apply length_vec. Qed.
Lemma x_mix i : vec (o_nx o) (y_x ym i) = mixl lam (vec (o_nx o) (y_x y i)) (vec (o_nx o) (y_x y' i)).
Proof. apply vec_mix. intros s _. apply Mx. Qed.
Lemma u_mix i : vec (o_nu o) (y_u ym i) = mixl lam (vec (o_nu o) (y_u y i)) (vec (o_nu o) (y_u y' i)).
Proof. apply vec_mix. intros s _. apply Mu. Qed.
Lemma t_same k x : seg_time cf w y' k x = seg_time cf w y k x /\ seg_time cf w ym k x = seg_time cf w y k x.
Proof. unfold seg_time, seg_start, seg_h. rewrite T0, T1, T0m, T1m. auto. Qed.
Lemma h_same k : seg_h cf w y' k = seg_h cf w y k /\ seg_h cf w ym k = seg_h cf w y k.
Proof. unfold seg_h. rewrite T0, T1, T0m, T1m. auto. Qed.
Lemma dyn_mix i t s : nth s (dyn_val o ph ym i t) 0 = mix lam (nth s (dyn_val o ph y i t) 0) (nth s (dyn_val o ph y' i t) 0).
Proof.
  unfold dyn_val. destruct (nth_error (o_dyn o) ph) as [f|] eqn:Ef; [|destruct s; cbn; unfold mix; ring].
  destruct (ok_dyn _ _ _ Hok ph f (vec (o_nx o) (y_x y i)) (vec (o_nu o) (y_u y i)) t (a_of o y) Ef (length_vec _ _) (length_vec _ _) (a_arg y)) as (d & Ed & Ld).
  destruct (ok_dyn _ _ _ Hok ph f (vec (o_nx o) (y_x y' i)) (vec (o_nu o) (y_u y' i)) t (a_of o y') Ef (length_vec _ _) (length_vec _ _) (a_arg y')) as (d' & Ed' & Ld').
  pose proof (cv_dyn _ _ Hcv f lam _ _ _ _ t _ _ d d' Ef Hlam (length_vec _ _) (length_vec _ _) (length_vec _ _) (length_vec _ _) (a_arg y) (a_arg y') Ed Ed') as Em.
  nred. rewrite Ed, Ed', x_mix, u_mix, a_mix, Em. apply nth_mixl. nred. lia.
Qed.
Lemma poly_mix k q ys ys' ym' c c1 c2 : nth_error orders k = Some q -> (forall i, ym' i = mix lam (ys i) (ys' i)) ->
  seg_interp orders k (nth k rs []) ym' c -> seg_interp orders k (nth k rs []) ys c1 -> seg_interp orders k (nth k rs []) ys' c2 ->
  forall x, peval c x = mix lam (peval c1 x) (peval c2 x).
Proof.
  intros Eq Hy [L E] [L1 E1] [L2 E2] x. assert (G : good_nodes (cf_tau0 cf) (cf_tau1 cf) q (nth k rs [])).
  { apply (Hgood k q _ Eq). apply nth_error_nth'. rewrite Hrs. exact (MeshR.nth_error_lt _ _ _ Eq). }
  transitivity (peval (@padd Rnum (@pscale Rnum (1 - lam) c1) (@pscale Rnum lam c2)) x); [|rewrite peval_padd, !peval_pscale; reflexivity].
  apply (interp_unique (nth k rs [])); [exact (good_nodup _ _ _ _ G)|exact L|rewrite length_padd, !length_pscale; nred; lia|].
  intros j Hj. rewrite peval_padd, !peval_pscale, (E j Hj), (E1 j Hj), (E2 j Hj), Hy. reflexivity.
Qed.
Lemma seg_polys k q ys : nth_error orders k = Some q -> exists c, seg_interp orders k (nth k rs []) ys c.
Proof.
  intros Eq. apply interp_exists. assert (G : good_nodes (cf_tau0 cf) (cf_tau1 cf) q (nth k rs [])).
  { apply (Hgood k q _ Eq). apply nth_error_nth'. rewrite Hrs. exact (MeshR.nth_error_lt _ _ _ Eq). }
  exact (good_nodup _ _ _ _ G).
Qed.
Lemma mix_derive (f g h : R -> R) x a b : (forall x, h x = mix lam (f x) (g x)) -> is_derive f x a -> is_derive g x b -> is_derive h x (mix lam a b).
Proof.
  intros E Hf Hg. apply is_derive_ext with (f := fun x => (1 - lam) * f x + lam * g x); [intros t; symmetry; apply E|].
  apply (is_derive_plus (fun x => (1 - lam) * f x) (fun x => lam * g x)); apply is_derive_scal; assumption.
Qed.
Lemma mix_Derive (c c1 c2 : list R) x : (forall x, peval c x = mix lam (peval c1 x) (peval c2 x)) -> Derive (peval c) x = mix lam (Derive (peval c1) x) (Derive (peval c2) x).
Proof. intros E. apply is_derive_unique. apply (mix_derive (peval c1) (peval c2)); [exact E|apply Derive_correct; eexists; apply is_derive_peval..]. Qed.

Lemma cv_dynamics : dynamics_ok mp rs w ph y -> dynamics_ok mp rs w ph y' -> dynamics_ok mp rs w ph ym.
Proof.
  intros H H' i k j s c Ho Hs Hc. pose proof Ho as (q & Eq & _). fold orders in Eq.
  destruct (seg_polys k q (fun i => y_x y i s) Eq) as (c1 & Hc1). destruct (seg_polys k q (fun i => y_x y' i s) Eq) as (c2 & Hc2).
  pose proof (poly_mix k q (fun i => y_x y i s) (fun i => y_x y' i s) (fun i => y_x ym i s) c c1 c2 Eq (fun i => Mx i s) Hc Hc1 Hc2) as E.
  pose proof (mix_derive _ _ (peval c) _ _ _ E (H i k j s c1 Ho Hs Hc1) (H' i k j s c2 Ho Hs Hc2)) as D. fold o cf in D |- *.
  destruct (t_same k (nth j (nth k rs []) 0)) as [E1 E2]. destruct (h_same k) as [E3 E4]. evar_last; [exact D|]. nred. rewrite E1, E2, E3, E4, dyn_mix.
  unfold mix. match goal with |- @eq _ ?a ?b => change (@eq R a b) end. ring.
Qed.
Lemma cv_slope : slope_ok mp rs ph y -> slope_ok mp rs ph y' -> slope_ok mp rs ph ym.
Proof.
  intros H H' Hd i k j q c Ho Hq Hc. pose proof Ho as (p & Eq & _). fold orders in Eq.
  destruct (seg_polys k p (fun i => y_u y i q) Eq) as (c1 & Hc1). destruct (seg_polys k p (fun i => y_u y' i q) Eq) as (c2 & Hc2).
  pose proof (poly_mix k p (fun i => y_u y i q) (fun i => y_u y' i q) (fun i => y_u ym i q) c c1 c2 Eq (fun i => Mu i q) Hc Hc1 Hc2) as E.
  rewrite (mix_Derive c c1 c2 _ E). pose proof (mix_within lam _ _ _ _ Hlam (H Hd i k j q c1 Ho Hq Hc1) (H' Hd i k j q c2 Ho Hq Hc2)) as W.
  match goal with |- within _ _ ?v => match type of W with within _ _ ?u => replace v with u; [exact W|unfold mix; ring] end end.
Qed.
Lemma cv_midu : midu_ok mp rs ph y -> midu_ok mp rs ph y' -> midu_ok mp rs ph ym.
Proof.
  intros H H' Hd k p j q c Eq Hj Hq Hc. fold orders in Eq.
  destruct (seg_polys k p (fun i => y_u y i q) Eq) as (c1 & Hc1). destruct (seg_polys k p (fun i => y_u y' i q) Eq) as (c2 & Hc2).
  pose proof (poly_mix k p (fun i => y_u y i q) (fun i => y_u y' i q) (fun i => y_u ym i q) c c1 c2 Eq (fun i => Mu i q) Hc Hc1 Hc2) as E.
  rewrite E. apply mix_within; [exact Hlam|exact (H Hd k p j q c1 Eq Hj Hq Hc1)|exact (H' Hd k p j q c2 Eq Hj Hq Hc2)].
Qed.
Lemma cv_ducont : ducont_ok mp rs ph y -> ducont_ok mp rs ph y' -> ducont_ok mp rs ph ym.
Proof.
  intros H H' Hd k q c c' Hk Hq Hc Hc'. fold orders in Hk.
  destruct (nth_error orders k) as [p|] eqn:Ep; [|apply nth_error_None in Ep; lia]. destruct (nth_error orders (S k)) as [p'|] eqn:Ep'; [|apply nth_error_None in Ep'; lia].
  destruct (seg_polys k p (fun i => y_u y i q) Ep) as (c1 & Hc1). destruct (seg_polys k p (fun i => y_u y' i q) Ep) as (c2 & Hc2).
  destruct (seg_polys (S k) p' (fun i => y_u y i q) Ep') as (d1 & Hd1). destruct (seg_polys (S k) p' (fun i => y_u y' i q) Ep') as (d2 & Hd2).
  pose proof (poly_mix k p (fun i => y_u y i q) (fun i => y_u y' i q) (fun i => y_u ym i q) c c1 c2 Ep (fun i => Mu i q) Hc Hc1 Hc2) as E.
  pose proof (poly_mix (S k) p' (fun i => y_u y i q) (fun i => y_u y' i q) (fun i => y_u ym i q) c' d1 d2 Ep' (fun i => Mu i q) Hc' Hd1 Hd2) as E'.
  rewrite (mix_Derive c c1 c2 _ E), (mix_Derive c' d1 d2 _ E'). rewrite (H Hd k q c1 d1 Hk Hq Hc1 Hd1), (H' Hd k q c2 d2 Hk Hq Hc2 Hd2). reflexivity.
Qed.
Lemma cv_paths : path_ok mp rs w ph y -> path_ok mp rs w ph y' -> path_ok mp rs w ph ym.
Proof.
  intros H H' i k j c Ho Hc. fold o cf in Hc. specialize (H i k j). specialize (H' i k j). fold o cf in H, H'.
  destruct (t_same k (nth j (nth k rs []) 0)) as [E1 E2]. nred. rewrite E2 in Hc. rewrite E1 in H'. set (t := seg_time cf w y k (nth j (nth k rs []) 0)) in *.
  unfold path_val in *. destruct (nth_error (o_path o) ph) as [f|] eqn:Ef; [|destruct Hc].
  pose proof (ok_path _ _ _ Hok ph f (vec (o_nx o) (y_x y i)) (vec (o_nu o) (y_u y i)) t (a_of o y) Ef (length_vec _ _) (length_vec _ _) (a_arg y)) as P.
  pose proof (ok_path _ _ _ Hok ph f (vec (o_nx o) (y_x y' i)) (vec (o_nu o) (y_u y' i)) t (a_of o y') Ef (length_vec _ _) (length_vec _ _) (a_arg y')) as P'.
  pose proof (ok_path _ _ _ Hok ph f (vec (o_nx o) (y_x ym i)) (vec (o_nu o) (y_u ym i)) t (a_of o ym) Ef (length_vec _ _) (length_vec _ _) (a_arg ym)) as Pm.
  destruct (npath ph) as [n|]; [|nred; rewrite Pm in Hc; destruct Hc].
  destruct P as (l & El & Ll). destruct P' as (l' & El' & Ll'). destruct Pm as (m & Em & Lm). nred. rewrite El in H. rewrite El' in H'. rewrite Em in Hc.
  rewrite x_mix, u_mix, a_mix in Em.
  pose proof (cv_path _ _ Hcv f lam _ _ _ _ t _ _ l l' m Ef Hlam (length_vec _ _) (length_vec _ _) (length_vec _ _) (length_vec _ _) (a_arg y) (a_arg y') El El' Em) as D.
  destruct (In_nth _ _ 0 Hc) as (b & Hb & <-). eapply Rle_trans; [apply D|]. nred. apply mix_le; [exact Hlam|apply (H _ Ho), nth_In; lia|apply (H' _ Ho), nth_In; lia].
Qed.
Lemma cv_terminal : terminal_ok mp ph y -> terminal_ok mp ph y' -> terminal_ok mp ph ym.
Proof.
  intros H H' c Hc. unfold terminal_ok in H, H'. fold o orders in H, H', Hc. set (la := (total_nodes orders - 1)%nat) in *.
  unfold term_val in *. destruct (nth_error (o_term o) ph) as [f|] eqn:Ef; [|destruct Hc]. nred. rewrite T0, T1 in H'. rewrite T0m, T1m in Hc.
  pose proof (ok_term _ _ _ Hok ph f (vec (o_nx o) (y_x y la)) (y_tf y) (vec (o_nx o) (y_x y 0)) (y_t0 y) (a_of o y) Ef (length_vec _ _) (length_vec _ _) (a_arg y)) as P.
  pose proof (ok_term _ _ _ Hok ph f (vec (o_nx o) (y_x y' la)) (y_tf y) (vec (o_nx o) (y_x y' 0)) (y_t0 y) (a_of o y') Ef (length_vec _ _) (length_vec _ _) (a_arg y')) as P'.
  pose proof (ok_term _ _ _ Hok ph f (vec (o_nx o) (y_x ym la)) (y_tf y) (vec (o_nx o) (y_x ym 0)) (y_t0 y) (a_of o ym) Ef (length_vec _ _) (length_vec _ _) (a_arg ym)) as Pm.
  destruct (nterm ph) as [n|]; [|nred; rewrite Pm in Hc; destruct Hc].
  destruct P as (l & El & Ll). destruct P' as (l' & El' & Ll'). nred. rewrite El in H. rewrite El' in H'.
  pose proof (cv_term _ _ Hcv f lam _ _ (y_tf y) _ _ (y_t0 y) _ _ l l' Ef Hlam (length_vec _ _) (length_vec _ _) (length_vec _ _) (length_vec _ _) (a_arg y) (a_arg y') El El') as D.
  nred. rewrite !x_mix, a_mix, D in Hc. destruct (In_nth _ _ 0 Hc) as (b & Hb & <-). rewrite length_mixl in Hb by lia. rewrite nth_mixl by lia.
  rewrite (H (nth b l 0)), (H' (nth b l' 0)) by (apply nth_In; lia). apply mix_same.
Qed.
Lemma cv_bounds : bounds_ok mp ph y -> bounds_ok mp ph y' -> bounds_ok mp ph ym.
Proof.
  intros (A & B & C & D & E) (A' & B' & C' & D' & E'). fold o orders in A, B, C, D, E, A', B', C', D', E'. split; [|split; [|split; [|split]]]; fold o orders.
  - intros i s Hi Hs. specialize (A i s Hi Hs). specialize (A' i s Hi Hs). rewrite Mx. destruct (Nat.eqb ph 0 && Nat.eqb i 0); [rewrite A, A'; apply mix_same|apply mix_within; auto].
  - intros i c Hi Hc. rewrite Mu. apply mix_within; auto.
  - nred. rewrite T0m. exact C.
  - nred. rewrite T1m. exact D.
  - intros i Hi. rewrite Ma. apply mix_within; auto.
Qed.
Lemma cv_phase : phase_ok mp rs w ph y -> phase_ok mp rs w ph y' -> phase_ok mp rs w ph ym.
Proof.
  intros (A & B & C & D & E & F) (A' & B' & C' & D' & E' & F'). split; [apply cv_dynamics; auto|]. split; [apply cv_paths; auto|]. split; [apply cv_slope; auto|].
  split; [apply cv_midu; auto|]. split; [apply cv_ducont; auto|apply cv_terminal; auto].
Qed.
(** ** cost *)
Lemma run_mix i t : run_val o ph ym i t <= mix lam (run_val o ph y i t) (run_val o ph y' i t).
Proof.
  unfold run_val. destruct (nth_error (o_run o) ph) as [f|] eqn:Ef; [|unfold mix; lra].
  destruct (ok_run _ _ _ Hok ph f (vec (o_nx o) (y_x y i)) (vec (o_nu o) (y_u y i)) t (a_of o y) Ef (length_vec _ _) (length_vec _ _) (a_arg y)) as (l & El).
  destruct (ok_run _ _ _ Hok ph f (vec (o_nx o) (y_x y' i)) (vec (o_nu o) (y_u y' i)) t (a_of o y') Ef (length_vec _ _) (length_vec _ _) (a_arg y')) as (l' & El').
  destruct (ok_run _ _ _ Hok ph f (vec (o_nx o) (y_x ym i)) (vec (o_nu o) (y_u ym i)) t (a_of o ym) Ef (length_vec _ _) (length_vec _ _) (a_arg ym)) as (m & Em).
  nred. rewrite El, El', Em. rewrite x_mix, u_mix, a_mix in Em.
  exact (cv_run _ _ Hcv f lam _ _ _ _ t _ _ l l' m Ef Hlam (length_vec _ _) (length_vec _ _) (length_vec _ _) (length_vec _ _) (a_arg y) (a_arg y') El El' Em).
Qed.
Lemma mayer_mix la : mayer_val o ph ym la <= mix lam (mayer_val o ph y la) (mayer_val o ph y' la).
Proof.
  unfold mayer_val. destruct (nth_error (o_mayer o) ph) as [f|] eqn:Ef; [|unfold mix; lra]. nred. rewrite T0, T1, T0m, T1m.
  destruct (ok_mayer _ _ _ Hok ph f (vec (o_nx o) (y_x y la)) (y_tf y) (vec (o_nx o) (y_x y 0)) (y_t0 y) (a_of o y) Ef (length_vec _ _) (length_vec _ _) (a_arg y)) as (l & El).
  destruct (ok_mayer _ _ _ Hok ph f (vec (o_nx o) (y_x y' la)) (y_tf y) (vec (o_nx o) (y_x y' 0)) (y_t0 y) (a_of o y') Ef (length_vec _ _) (length_vec _ _) (a_arg y')) as (l' & El').
  destruct (ok_mayer _ _ _ Hok ph f (vec (o_nx o) (y_x ym la)) (y_tf y) (vec (o_nx o) (y_x ym 0)) (y_t0 y) (a_of o ym) Ef (length_vec _ _) (length_vec _ _) (a_arg ym)) as (m & Em).
  nred. rewrite El, El', Em. rewrite !x_mix, a_mix in Em.
  exact (cv_mayer _ _ Hcv f lam _ _ _ _ _ _ _ _ l l' m Ef Hlam (length_vec _ _) (length_vec _ _) (length_vec _ _) (length_vec _ _) (a_arg y) (a_arg y') El El' Em).
Qed.
End Phase.

(** the cost of a phase as a weighted sum over the nodes *)
Section Weighted.
Variables (mp : mpo Rnum) (rs : list (list R)) (w : nat -> R) (ph : nat) (y : utraj) (W : nat -> list R).
Let cf := mp_cf mp.
Let orders := mp_orders mp.
Hypothesis Hgood : forall k q r, nth_error orders k = Some q -> nth_error rs k = Some r -> good_nodes (cf_tau0 cf) (cf_tau1 cf) q r.
Hypothesis Hrs : length rs = length orders.
Hypothesis HW : forall k q, nth_error orders k = Some q -> exact_to (cf_tau0 cf) (cf_tau1 cf) q (nth k rs []) (W k) (S q).
Hypothesis HK : (1 <= length orders)%nat.
Definition omega (k j : nat) : R := if Nat.leb 1 k && Nat.eqb j 0 then 0 else nth j (W k) 0.
Definition seg_cost (k : nat) : R := seg_h cf w y k * Rsum (S (nth k orders 0%nat)) (fun j => omega k j * run_at mp rs w ph y k j).
Lemma cost_nodes C B : cost_interp mp rs w ph y C -> start_basis mp rs B ->
  phase_cost mp w ph y C - start_cost mp rs w ph y B = mayer_val (mp_ocp mp) ph y (total_nodes orders - 1) + Rsum (length orders) seg_cost.
Proof.
  intros HC HB. assert (Hq : forall k, (k < length orders)%nat -> nth_error orders k = Some (nth k orders 0%nat)) by (intros k Hk; apply nth_error_nth'; exact Hk).
  assert (Hlr : forall k, (k < length orders)%nat -> length (nth k rs []) = S (nth k orders 0%nat)).
  { intros k Hk. apply (Hgood k _ _ (Hq k Hk)). apply nth_error_nth'. lia. }
  assert (E1 : forall k, (k < length orders)%nat -> RInt (peval (C k)) (cf_tau0 cf) (cf_tau1 cf) = Rsum (S (nth k orders 0%nat)) (fun j => nth j (W k) 0 * run_at mp rs w ph y k j)).
  { intros k Hk. destruct (HC k Hk) as [L E]. rewrite <- (HW k _ (Hq k Hk)) by (rewrite <- (Hlr k Hk); exact L). apply Rsum_ext. intros j Hj. rewrite E by (rewrite (Hlr k Hk); exact Hj). reflexivity. }
  assert (E2 : forall k, (k < length orders)%nat -> RInt (peval (B k)) (cf_tau0 cf) (cf_tau1 cf) = nth 0 (W k) 0).
  { intros k Hk. destruct (HB k Hk) as [L E]. rewrite <- (HW k _ (Hq k Hk)) by (rewrite <- (Hlr k Hk); exact L).
    rewrite (Rsum_single _ _ 0%nat); [rewrite E by (rewrite (Hlr k Hk); lia); cbn; ring|lia|]. intros i Hi Hi0. rewrite E by (rewrite (Hlr k Hk); exact Hi).
    destruct (Nat.eqb_spec i 0); [lia|ring]. }
  unfold phase_cost, start_cost. fold cf orders. destruct (length orders) as [|m] eqn:Em; [lia|]. replace (S m - 1)%nat with m by lia.
  rewrite !Rsum_S_l. rewrite (E1 0%nat) by lia.
  rewrite (Rsum_ext m (fun k => seg_h cf w y (S k) * RInt (peval (C (S k))) (cf_tau0 cf) (cf_tau1 cf)) (fun k => seg_cost (S k) + seg_h cf w y (S k) * RInt (peval (B (S k))) (cf_tau0 cf) (cf_tau1 cf) * run_at mp rs w ph y (S k) 0)).
  - rewrite Rsum_plus. unfold seg_cost at 2. unfold omega at 1. cbn [Nat.leb andb]. match goal with |- @eq _ ?a ?b => change (@eq R a b) end. ring.
  - intros k Hk. rewrite (E1 (S k)), (E2 (S k)) by lia. unfold seg_cost. rewrite !(Rsum_S_l (nth (S k) orders 0%nat)). unfold omega. cbn [Nat.leb Nat.eqb andb].
    match goal with |- @eq _ ?a ?b => change (@eq R a b) end. ring.
Qed.
End Weighted.

Lemma Rsum_le n f g : (forall k, (k < n)%nat -> f k <= g k) -> Rsum n f <= Rsum n g.
Proof. intros H. induction n as [|n IH]; cbn [Rsum]; [lra|]. specialize (H n ltac:(lia)) as Hn. specialize (IH (fun k Hk => H k ltac:(lia))). lra. Qed.

Lemma weights_nonneg_ok mp : mpo_ok mp -> weights_nonneg mp.
Proof.
  intros Hmp q w Hq Ew j. pose proof (mo_pos _ Hmp q Hq) as H1. pose proof (mo_cfg _ Hmp) as Hcf.
  destruct (le_lt_dec (length w) j) as [L|L]; [rewrite nth_overflow by exact L; lra|]. destruct (co_scheme _ Hcf) as [Hs|[Hs|[Hs|[]]]]; symmetry in Hs.
  - destruct (lgr_positive (mp_cf mp) q Hcf Hs H1) as (w' & Ew' & Lw & H0 & HX). assert (w' = w) as -> by (pose proof (eq_trans (eq_sym Ew') Ew) as X; injection X as X; exact X).
    destruct j as [|j]; [destruct (Nat.eqb q 1); nred; lra|]. apply Rlt_le, HX. nred. lia.
  - destruct (lgl_positive (mp_cf mp) q Hcf Hs H1) as (w' & Ew' & Lw & HX). assert (w' = w) as -> by (pose proof (eq_trans (eq_sym Ew') Ew) as X; injection X as X; exact X).
    apply Rlt_le, HX. nred. lia.
  - destruct (cgl_positive (mp_cf mp) q Hcf Hs H1) as (w' & Ew' & Lw & HX). assert (w' = w) as -> by (pose proof (eq_trans (eq_sym Ew') Ew) as X; injection X as X; exact X).
    apply Rlt_le, HX. nred. lia.
Qed.
Section Program.
Variables (mp : mpo Rnum) (npath nterm : nat -> option nat) (p : list R).
Let o := mp_ocp mp.
Let cf := mp_cf mp.
Let orders := mp_orders mp.
Hypothesis Hmp : mpo_ok mp.
Hypothesis Hok : ocp_ok o npath nterm.
Hypothesis Hsc : scales_pos o.
Hypothesis Hp : widths_ok (mp_nseg mp) (o_nph o) p.
Hypothesis Hcv : forall ph, (ph < o_nph o)%nat -> convex_phase o ph.
Hypothesis Hft : forall ph, (ph < o_nph o)%nat -> fixed_times o ph.

Lemma fixed_eq ph y : fixed_times o ph -> bounds_ok mp ph y -> exists a b, a <= b /\ y_t0 y = a /\ y_tf y = b /\ bnd ph (o_lbt0 o) 0 = Fin a /\ bnd ph (o_lbtf o) 0 = Fin b.
Proof.
  intros (a & b & Hab & E1 & E2 & E3 & E4) (_ & _ & [A1 A2] & [B1 B2] & _). fold o in A1, A2, B1, B2. rewrite E1 in A1. rewrite E2 in A2. rewrite E3 in B1. rewrite E4 in B2. cbn in *.
  exists a, b. repeat split; auto; lra.
Qed.
Theorem convex_thm lam (z z' : list R) : 0 <= lam <= 1 -> length z = (o_nph o * nvars mp)%nat -> length z' = (o_nph o * nvars mp)%nat ->
  exists n n' m, nlp_at mp z p = Ok n /\ nlp_at mp z' p = Ok n' /\ nlp_at mp (mixl lam z z') p = Ok m /\
    (feasible n -> feasible n' -> feasible m /\ n_f m <= mix lam (n_f n) (n_f n')).
Proof.
  intros Hlam Hz Hz'. assert (Hlp : length p = (o_nph o * mp_nseg mp)%nat) by (destruct Hp as [L _]; rewrite L; lia).
  assert (Hlo : (1 <= length orders)%nat) by (unfold orders; rewrite (mo_len _ Hmp); exact (mo_nseg _ Hmp)).
  assert (Hzz : length z = length z') by (exact (eq_trans Hz (eq_sym Hz'))).
  assert (Hzm : length (mixl lam z z') = (o_nph o * nvars mp)%nat) by (rewrite (length_mixl lam z z' Hzz); exact Hz).
  destruct (nlp_at_ok mp Hmp npath nterm Hok Hsc z p Hz Hlp) as (rs & n & Er & En & Hrs & Hg & _ & _ & _ & _ & Hb & Hsat & Hf).
  destruct (nlp_at_ok mp Hmp npath nterm Hok Hsc z' p Hz' Hlp) as (rs1 & n' & Er1 & En' & _ & _ & _ & _ & _ & _ & Hb' & Hsat' & Hf').
  destruct (nlp_at_ok mp Hmp npath nterm Hok Hsc (mixl lam z z') p Hzm Hlp) as (rs2 & m & Er2 & Em & _ & _ & _ & _ & _ & _ & Hbm & Hsatm & Hfm).
  assert (rs1 = rs) as -> by (pose proof (eq_trans (eq_sym Er1) Er) as X; injection X as X; exact X).
  assert (rs2 = rs) as -> by (pose proof (eq_trans (eq_sym Er2) Er) as X; injection X as X; exact X).
  fold o in Hb, Hb', Hbm, Hsat, Hsat', Hsatm, Hf, Hf', Hfm. fold orders cf in Hg.
  exists n, n', m. split; [exact En|]. split; [exact En'|]. split; [exact Em|]. intros [F1 F2] [F1' F2'].
  pose proof (proj1 Hb F1) as B. pose proof (proj1 Hb' F1') as B'. destruct (proj1 Hsat F2) as [P L]. destruct (proj1 Hsat' F2') as [P' L'].
  assert (Mx : forall ph i s, y_x (user_traj mp (mixl lam z z') ph) i s = mix lam (y_x (user_traj mp z ph) i s) (y_x (user_traj mp z' ph) i s)).
  { intros ph i s. unfold user_traj; cbn [y_x]. rewrite (nth_mixl lam z z' _ Hzz). apply mix_div. }
  assert (Mu : forall ph i s, y_u (user_traj mp (mixl lam z z') ph) i s = mix lam (y_u (user_traj mp z ph) i s) (y_u (user_traj mp z' ph) i s)).
  { intros ph i s. unfold user_traj; cbn [y_u]. rewrite (nth_mixl lam z z' _ Hzz). apply mix_div. }
  assert (Ma : forall ph i, y_a (user_traj mp (mixl lam z z') ph) i = mix lam (y_a (user_traj mp z ph) i) (y_a (user_traj mp z' ph) i)).
  { intros ph i. unfold user_traj; cbn [y_a]. rewrite (nth_mixl lam z z' _ Hzz). apply mix_div. }
  assert (M0 : forall ph, y_t0 (user_traj mp (mixl lam z z') ph) = mix lam (y_t0 (user_traj mp z ph)) (y_t0 (user_traj mp z' ph))).
  { intros ph. unfold user_traj; cbn [y_t0]. rewrite (nth_mixl lam z z' _ Hzz). apply mix_div. }
  assert (M1 : forall ph, y_tf (user_traj mp (mixl lam z z') ph) = mix lam (y_tf (user_traj mp z ph)) (y_tf (user_traj mp z' ph))).
  { intros ph. unfold user_traj; cbn [y_tf]. rewrite (nth_mixl lam z z' _ Hzz). apply mix_div. }
  assert (HT : forall ph, (ph < o_nph o)%nat -> y_t0 (user_traj mp z' ph) = y_t0 (user_traj mp z ph) /\ y_tf (user_traj mp z' ph) = y_tf (user_traj mp z ph) /\
     y_t0 (user_traj mp (mixl lam z z') ph) = y_t0 (user_traj mp z ph) /\ y_tf (user_traj mp (mixl lam z z') ph) = y_tf (user_traj mp z ph) /\ y_t0 (user_traj mp z ph) <= y_tf (user_traj mp z ph)).
  { intros ph Hph. destruct (fixed_eq ph _ (Hft ph Hph) (B ph Hph)) as (a & b & Hab & E1 & E2 & E3 & E4). destruct (fixed_eq ph _ (Hft ph Hph) (B' ph Hph)) as (a' & b' & _ & E1' & E2' & E3' & E4').
    assert (a' = a) as -> by congruence. assert (b' = b) as -> by congruence. rewrite M0, M1, E1, E1', E2, E2', !mix_same. auto. }
  split.
  - split; [apply Hbm|apply Hsatm; split].
    + intros ph Hph. destruct (HT ph Hph) as (H1 & H2 & H3 & H4 & _). apply (cv_bounds mp ph lam (user_traj mp z ph) (user_traj mp z' ph)); auto.
    + intros ph Hph. destruct (HT ph Hph) as (H1 & H2 & H3 & H4 & _).
      apply (cv_phase mp npath nterm rs (width mp p ph) ph lam (user_traj mp z ph) (user_traj mp z' ph)); auto.
    + intros Hn k i j Ek. destruct (L Hn k i j Ek) as (A1 & A2 & A3). destruct (L' Hn k i j Ek) as (A1' & A2' & A3'). split; [|split].
      * intros s Hs. rewrite !Mx. pose proof (mix_within lam _ _ _ _ Hlam (A1 s Hs) (A1' s Hs)) as X.
        match goal with |- within _ _ ?v => match type of X with within _ _ ?u => replace v with u; [exact X|unfold mix; ring] end end.
      * intros c Hc. rewrite !Mu, (A2 c Hc), (A2' c Hc). reflexivity.
      * rewrite M0, M1, A3, A3'. reflexivity.
  - pose proof (weights_nonneg_ok mp Hmp) as Hwn.
    assert (HWs : exists W, forall k, (k < length orders)%nat -> exact_to (cf_tau0 cf) (cf_tau1 cf) (nth k orders 0%nat) (nth k rs []) (W k) (S (nth k orders 0%nat)) /\ forall j, 0 <= nth j (W k) 0).
    { apply (finite_choice (fun k w => exact_to (cf_tau0 cf) (cf_tau1 cf) (nth k orders 0%nat) (nth k rs []) w (S (nth k orders 0%nat)) /\ forall j, 0 <= nth j w 0) []).
      intros k Hk. pose proof (nth_error_nth' orders 0%nat Hk) as Eq. destruct (mapM_inv _ _ _ Er) as [_ HI]. destruct (HI k _ Eq) as (r & E1 & E2). rewrite (nth_error_nth _ _ _ E1).
      destruct (weights_at cf (nth k orders 0%nat) r (mo_cfg _ Hmp) (mo_pos _ Hmp _ (nth_In _ _ Hk)) E2) as (W & EW & _ & HX). exists W. split; [exact HX|].
      exact (Hwn _ W (nth_In _ _ Hk) EW). }
    destruct HWs as (W & HWs).
    assert (HW1 : forall k q, nth_error orders k = Some q -> exact_to (cf_tau0 cf) (cf_tau1 cf) q (nth k rs []) (W k) (S q)).
    { intros k q Eq. pose proof (MeshR.nth_error_lt _ _ _ Eq) as Hk. destruct (HWs k Hk) as [X _]. rewrite (nth_error_nth _ _ _ Eq) in X. exact X. }
    assert (EX : forall zz, length zz = (o_nph o * nvars mp)%nat -> exists C B, (forall ph, (ph < o_nph o)%nat -> cost_interp mp rs (width mp p ph) ph (user_traj mp zz ph) (C ph)) /\ start_basis mp rs B).
    { intros zz Hl. exact (cost_polys_exist mp npath nterm zz p (Build_input_ok _ _ _ _ _ Hmp Hok Hsc Hl Hlp) rs Er). }
    destruct (EX z Hz) as (C & Bz & HC & HB). destruct (EX z' Hz') as (C' & _ & HC' & _). destruct (EX _ Hzm) as (Cm & _ & HCm & _).
    nred. rewrite (Hf C Bz HC HB), (Hf' C' Bz HC' HB), (Hfm Cm Bz HCm HB).
    unfold mix. rewrite <- !Rsum_scal, <- Rsum_plus. apply Rsum_le. intros ph Hph.
    rewrite (cost_nodes mp rs (width mp p ph) ph (user_traj mp z ph) W Hg Hrs HW1 Hlo (C ph) Bz (HC ph Hph) HB).
    rewrite (cost_nodes mp rs (width mp p ph) ph (user_traj mp z' ph) W Hg Hrs HW1 Hlo (C' ph) Bz (HC' ph Hph) HB).
    rewrite (cost_nodes mp rs (width mp p ph) ph (user_traj mp (mixl lam z z') ph) W Hg Hrs HW1 Hlo (Cm ph) Bz (HCm ph Hph) HB).
    destruct (HT ph Hph) as (H1 & H2 & H3 & H4 & H5). fold orders o.
    pose proof (mayer_mix mp npath nterm ph lam (user_traj mp z ph) (user_traj mp z' ph) (user_traj mp (mixl lam z z') ph) Hok (Hcv ph Hph) Hlam (Mx ph) (Ma ph) H1 H2 H3 H4 (total_nodes orders - 1)) as MM.
    fold o in MM. unfold mix in MM.
    assert (SS : Rsum (length orders) (seg_cost mp rs (width mp p ph) ph (user_traj mp (mixl lam z z') ph) W) <=
      (1 - lam) * Rsum (length orders) (seg_cost mp rs (width mp p ph) ph (user_traj mp z ph) W) + lam * Rsum (length orders) (seg_cost mp rs (width mp p ph) ph (user_traj mp z' ph) W)).
    { rewrite <- !Rsum_scal, <- Rsum_plus. apply Rsum_le. intros k Hk. unfold seg_cost. fold cf orders.
      destruct (h_same mp (width mp p ph) (user_traj mp z ph) (user_traj mp z' ph) (user_traj mp (mixl lam z z') ph) H1 H2 H3 H4 k) as [E1 E2]. fold cf in E1, E2. rewrite E1, E2.
      destruct (part_widths mp p Hmp Hp ph Hph) as [W1 _].
      assert (Hh : 0 <= seg_h cf (width mp p ph) (user_traj mp z ph) k).
      { unfold seg_h. pose proof (co_taus _ (mo_cfg _ Hmp)) as Ht. fold cf in Ht. specialize (W1 k Hk). apply Rmult_le_pos; [apply Rmult_le_pos; lra|apply Rlt_le, Rinv_0_lt_compat; lra]. }
      match goal with |- ?h * ?a <= (1 - lam) * (?h * ?b) + lam * (?h * ?c) => replace ((1 - lam) * (h * b) + lam * (h * c)) with (h * ((1 - lam) * b + lam * c)) by ring end.
      apply Rmult_le_compat_l; [exact Hh|]. rewrite <- !Rsum_scal, <- Rsum_plus. apply Rsum_le. intros j Hj.
      destruct (HWs k Hk) as [_ Wp]. assert (Ho : 0 <= omega W k j) by (unfold omega; destruct (Nat.leb 1 k && Nat.eqb j 0); [lra|apply Wp]).
      pose proof (run_mix mp npath nterm ph lam (user_traj mp z ph) (user_traj mp z' ph) (user_traj mp (mixl lam z z') ph) Hok (Hcv ph Hph) Hlam (Mx ph) (Mu ph) (Ma ph) (offset orders k + j) (seg_time cf (width mp p ph) (user_traj mp z ph) k (nth j (nth k rs []) 0))) as RM.
      destruct (t_same mp (width mp p ph) (user_traj mp z ph) (user_traj mp z' ph) (user_traj mp (mixl lam z z') ph) H1 H2 H3 H4 k (nth j (nth k rs []) 0)) as [E3 E4]. fold cf in E3, E4.
      unfold run_at. fold cf orders o. nred. rewrite E3, E4. fold o in RM. unfold mix in RM. nra. }
    nra.
Qed.

(** ** a local minimum is a global one *)
Theorem local_global (z : list R) n eps : length z = (o_nph o * nvars mp)%nat -> nlp_at mp z p = Ok n -> feasible n -> 0 < eps ->
  (forall (z1 : list R) n1, close eps z z1 -> nlp_at mp z1 p = Ok n1 -> feasible n1 -> n_f n <= n_f n1) ->
  forall (z' : list R) n', length z' = (o_nph o * nvars mp)%nat -> nlp_at mp z' p = Ok n' -> feasible n' -> n_f n <= n_f n'.
Proof.
  intros Hz En Hf He Hloc z' n' Hz' En' Hf'.
  set (M := Rsum (length z) (fun i => Rabs (nth i z' 0 - nth i z 0))).
  assert (HM : 0 <= M) by (apply Rsum_nonneg; intros; apply Rabs_pos).
  assert (Hi : forall i, (i < length z)%nat -> Rabs (nth i z' 0 - nth i z 0) <= M).
  { intros i Hi. unfold M. revert Hi. generalize (length z). intros k. induction k as [|k IH]; intros Hi; [lia|]. cbn [Rsum].
    pose proof (Rabs_pos (nth k z' 0 - nth k z 0)). assert (0 <= Rsum k (fun i => Rabs (nth i z' 0 - nth i z 0))) by (apply Rsum_nonneg; intros; apply Rabs_pos).
    destruct (Nat.eq_dec i k) as [->|Hne]; [lra|]. specialize (IH ltac:(lia)). lra. }
  set (lam := eps / (eps + M)). assert (HD : 0 < eps + M) by lra.
  assert (Hlam : 0 < lam <= 1).
  { split; [apply Rmult_lt_0_compat; [lra|apply Rinv_0_lt_compat; lra]|]. apply Rmult_le_reg_r with (eps + M); [lra|]. unfold lam, Rdiv. rewrite Rmult_assoc, Rinv_l by lra. lra. }
  destruct (convex_thm lam z z' ltac:(lra) Hz Hz') as (n1 & n2 & m & E1 & E2 & Em & HH).
  assert (n1 = n) as -> by (pose proof (eq_trans (eq_sym E1) En) as X; injection X as X; exact X).
  assert (n2 = n') as -> by (pose proof (eq_trans (eq_sym E2) En') as X; injection X as X; exact X).
  destruct (HH Hf Hf') as [Fm Cm].
  assert (Hzz : length z = length z') by (exact (eq_trans Hz (eq_sym Hz'))).
  assert (Hc : close eps z (mixl lam z z')).
  { split; [exact (length_mixl lam z z' Hzz)|]. intros i Hil. rewrite (nth_mixl lam z z' i Hzz). replace (mix lam (nth i z 0) (nth i z' 0) - nth i z 0) with (lam * (nth i z' 0 - nth i z 0)) by (unfold mix; ring).
    rewrite Rabs_mult, (Rabs_right lam) by lra. specialize (Hi i Hil). apply Rle_lt_trans with (lam * M); [apply Rmult_le_compat_l; lra|].
    apply Rmult_lt_reg_r with (eps + M); [lra|]. unfold lam, Rdiv. replace (eps * / (eps + M) * M * (eps + M)) with (eps * M) by (field; lra). nra. }
  pose proof (Hloc _ m Hc Em Fm) as H. nred. unfold mix in Cm. nra.
Qed.
End Program.
