(** Solutions of convex problems: their set is convex; where it is one point (proofs of C72). *)
From Coq Require Import Reals Lia Lra Bool Arith String.
From Coquelicot Require Import Coquelicot.
From Coq Require Import List.
From Verif Require Import Num PyList Mat Poly Roots Colloc Ocp Transcribe Spec SpecOcp SpecHadapt SpecConvex SpecCoord SpecUnique NumR ListR PolyR CompR CollocR MeshR BlockR DiscR NlpR NlpThm CostR ScaleR ExactR WeightR ChebR ConvexR DualR TransR.
Import ListNotations.
Open Scope R_scope.

Lemma Rsum_lt n f g k : (k < n)%nat -> (forall i, (i < n)%nat -> f i <= g i) -> f k < g k -> Rsum n f < Rsum n g.
Proof.
  intros Hk H Hl. induction n as [|n IH]; [lia|]. cbn [Rsum]. destruct (Nat.eq_dec k n) as [-> |Hn].
  - pose proof (Rsum_le n f g (fun i Hi => H i ltac:(lia))). lra.
  - pose proof (H n ltac:(lia)). specialize (IH ltac:(lia) (fun i Hi => H i ltac:(lia))). lra.
Qed.
Lemma Rsum_mix n lam f g : Rsum n (fun k => mix lam (f k) (g k)) = mix lam (Rsum n f) (Rsum n g).
Proof. unfold mix. rewrite <- !Rsum_scal, <- Rsum_plus. reflexivity. Qed.
Lemma mix_scal lam h a b : h * mix lam a b = mix lam (h * a) (h * b).
Proof. unfold mix. ring. Qed.

Section Phase.
Variables (mp : mpo Rnum) (npath nterm : nat -> option nat) (rs : list (list R)) (w : nat -> R) (ph : nat) (lam : R) (y y' ym : utraj).
Let o := mp_ocp mp.
Let cf := mp_cf mp.
Let orders := mp_orders mp.
Let W := wts cf orders.
Hypothesis Hmp : mpo_ok mp.
Hypothesis Hok : ocp_ok o npath nterm.
Hypothesis Hcv : convex_phase o ph.
Hypothesis Hlam : 0 <= lam <= 1.
Hypothesis Mx : forall i s, y_x ym i s = mix lam (y_x y i s) (y_x y' i s).
Hypothesis Mu : forall i c, y_u ym i c = mix lam (y_u y i c) (y_u y' i c).
Hypothesis Ma : forall i, y_a ym i = mix lam (y_a y i) (y_a y' i).
Hypothesis T0 : y_t0 y' = y_t0 y.
Hypothesis T1 : y_tf y' = y_tf y.
Hypothesis T0m : y_t0 ym = y_t0 y.
Hypothesis T1m : y_tf ym = y_tf y.
Hypothesis Hh : forall k, (k < length orders)%nat -> 0 <= seg_h cf w y k.

Lemma omega_nonneg k j : (k < length orders)%nat -> 0 <= omega W k j.
Proof.
  intros Hk. unfold omega. destruct (Nat.leb 1 k && Nat.eqb j 0); [lra|]. unfold W, wts.
  destruct (quad_weights cf (nth k orders 0%nat) (cf_tau0 cf) (cf_tau1 cf)) as [V|] eqn:EV; [|destruct j; cbn; lra].
  exact (weights_nonneg_ok _ Hmp _ V (nth_In _ _ Hk) EV j).
Qed.
Lemma term_le k j : (k < length orders)%nat -> omega W k j * run_at mp rs w ph ym k j <= mix lam (omega W k j * run_at mp rs w ph y k j) (omega W k j * run_at mp rs w ph y' k j).
Proof.
  intros Hk. rewrite <- mix_scal. apply Rmult_le_compat_l; [apply omega_nonneg; exact Hk|].
  pose proof (run_mix mp npath nterm ph lam y y' ym Hok Hcv Hlam Mx Mu Ma (offset orders k + j) (seg_time cf w y k (nth j (nth k rs []) 0))) as RM.
  destruct (t_same mp w y y' ym T0 T1 T0m T1m k (nth j (nth k rs []) 0)) as [E3 E4]. unfold run_at. change (mp_ocp mp) with o; change (mp_orders mp) with orders; change (mp_cf mp) with cf. fold cf in E3, E4. fold o in RM. nred. rewrite E3, E4. exact RM.
Qed.
Lemma seg_le k : (k < length orders)%nat -> seg_cost mp rs w ph ym W k <= mix lam (seg_cost mp rs w ph y W k) (seg_cost mp rs w ph y' W k).
Proof.
  intros Hk. unfold seg_cost. fold cf orders. destruct (h_same mp w y y' ym T0 T1 T0m T1m k) as [E1 E2]. fold cf in E1, E2. rewrite E1, E2.
  rewrite <- mix_scal, <- Rsum_mix. apply Rmult_le_compat_l; [apply Hh; exact Hk|]. apply Rsum_le. intros j _. apply term_le. exact Hk.
Qed.
Lemma phase_le : node_cost mp rs w ph ym <= mix lam (node_cost mp rs w ph y) (node_cost mp rs w ph y').
Proof.
  unfold node_cost. fold o orders cf W. pose proof (mayer_mix mp npath nterm ph lam y y' ym Hok Hcv Hlam Mx Ma T0 T1 T0m T1m (total_nodes orders - 1)) as MM. fold o in MM.
  pose proof (Rsum_le (length orders) _ _ (fun k Hk => seg_le k Hk)) as SS. rewrite Rsum_mix in SS. unfold mix in *. nra.
Qed.
(** strictly at one node *)
Lemma phase_lt k j : (k < length orders)%nat -> (j <= nth k orders 0%nat)%nat -> 0 < seg_h cf w y k -> 0 < omega W k j ->
  run_val o ph ym (offset orders k + j) (seg_time cf w y k (nth j (nth k rs []) 0)) <
    mix lam (run_val o ph y (offset orders k + j) (seg_time cf w y k (nth j (nth k rs []) 0))) (run_val o ph y' (offset orders k + j) (seg_time cf w y k (nth j (nth k rs []) 0))) ->
  node_cost mp rs w ph ym < mix lam (node_cost mp rs w ph y) (node_cost mp rs w ph y').
Proof.
  intros Hk Hj Hhk Hom Hlt. unfold node_cost. fold o orders cf W. pose proof (mayer_mix mp npath nterm ph lam y y' ym Hok Hcv Hlam Mx Ma T0 T1 T0m T1m (total_nodes orders - 1)) as MM. fold o in MM.
  assert (SS : Rsum (length orders) (seg_cost mp rs w ph ym W) < Rsum (length orders) (fun k => mix lam (seg_cost mp rs w ph y W k) (seg_cost mp rs w ph y' W k))).
  { apply (Rsum_lt _ _ _ k Hk); [intros i Hi; apply seg_le; exact Hi|]. unfold seg_cost. fold cf orders. destruct (h_same mp w y y' ym T0 T1 T0m T1m k) as [E1 E2]. fold cf in E1, E2. rewrite E1, E2.
    rewrite <- mix_scal, <- Rsum_mix. apply Rmult_lt_compat_l; [exact Hhk|]. apply (Rsum_lt _ _ _ j); [lia|intros i _; apply term_le; exact Hk|]. rewrite <- mix_scal.
    apply Rmult_lt_compat_l; [exact Hom|]. destruct (t_same mp w y y' ym T0 T1 T0m T1m k (nth j (nth k rs []) 0)) as [E3 E4]. unfold run_at. change (mp_ocp mp) with o; change (mp_orders mp) with orders; change (mp_cf mp) with cf. fold cf in E3, E4. nred. rewrite E3, E4. exact Hlt. }
  rewrite Rsum_mix in SS. unfold mix in *. nra.
Qed.
End Phase.

(** the nodes with a positive weight *)
Lemma omega_pos mp k j : mpo_ok mp -> owned (mp_orders mp) (offset (mp_orders mp) k + j) k j -> weighted mp (offset (mp_orders mp) k + j) -> 0 < omega (wts (mp_cf mp) (mp_orders mp)) k j.
Proof.
  intros Hmp (q & Eq & Hj & H1 & _) Hw. pose proof (mo_cfg _ Hmp) as Hcf. pose proof (mo_pos _ Hmp q (nth_error_In _ _ Eq)) as Hq.
  unfold omega. replace (Nat.leb 1 k && Nat.eqb j 0) with false by (destruct k; [reflexivity|]; destruct j; [lia|reflexivity]).
  unfold wts. rewrite (nth_error_nth _ _ _ Eq). destruct (co_scheme _ Hcf) as [Hs|[Hs|[Hs|[]]]]; symmetry in Hs.
  - destruct (lgr_positive (mp_cf mp) q Hcf Hs Hq) as (V & EV & LV & H0 & HX). rewrite EV. destruct j as [|j]; [|apply HX; lia].
    assert (k = 0)%nat as -> by lia. destruct Hw as [Hw|[Hw|Hw]]; [rewrite offset_0 in Hw; lia|contradiction|]. rewrite (nth_error_nth _ _ _ Eq) in Hw. subst q. exact H0.
  - destruct (lgl_positive (mp_cf mp) q Hcf Hs Hq) as (V & EV & LV & HX). rewrite EV. apply HX. exact Hj.
  - destruct (cgl_positive (mp_cf mp) q Hcf Hs Hq) as (V & EV & LV & HX). rewrite EV. apply HX. exact Hj.
Qed.

Section Program.
Variables (mp : mpo Rnum) (npath nterm : nat -> option nat) (p : list R).
Let o := mp_ocp mp.
Let cf := mp_cf mp.
Let orders := mp_orders mp.
Hypothesis Hmp : mpo_ok mp.
Hypothesis Hok : ocp_ok o npath nterm.
Hypothesis Hsc : scales_pos o.
Hypothesis Hp : widths_ok (mp_nseg mp) (o_nph o) p.
Hypothesis Hcv : forall ph, (ph < o_nph o)%nat -> convex_phase o ph.
Hypothesis Hft : forall ph, (ph < o_nph o)%nat -> fixed_times o ph.

(** best points have the same objective *)
Lemma best_same (z z' : list R) n n' : length z = length z' -> best mp p z -> best mp p z' -> nlp_at mp z p = Ok n -> nlp_at mp z' p = Ok n' -> feasible n /\ feasible n' /\ n_f n = n_f n'.
Proof.
  intros L (m & Em & Fm & Bm) (m' & Em' & Fm' & Bm') En En'.
  assert (m = n) as -> by (pose proof (eq_trans (eq_sym Em) En) as X; injection X as X; exact X).
  assert (m' = n') as -> by (pose proof (eq_trans (eq_sym Em') En') as X; injection X as X; exact X).
  split; [exact Fm|]. split; [exact Fm'|]. apply Rle_antisym; [exact (Bm z' n' (eq_sym L) En' Fm')|exact (Bm' z n L En Fm)].
Qed.
Theorem best_convex lam (z z' : list R) : 0 <= lam <= 1 -> length z = (o_nph o * nvars mp)%nat -> length z' = (o_nph o * nvars mp)%nat ->
  best mp p z -> best mp p z' -> best mp p (mixl lam z z').
Proof.
  intros Hlam Hz Hz' B B'. assert (Hzz : length z = length z') by exact (eq_trans Hz (eq_sym Hz')).
  destruct (convex_thm mp npath nterm p Hmp Hok Hsc Hp Hcv Hft lam z z' Hlam Hz Hz') as (n & n' & m & En & En' & Em & HF).
  destruct (best_same z z' n n' Hzz B B' En En') as (F & F' & E). destruct (HF F F') as [Fm V]. exists m. split; [exact Em|]. split; [exact Fm|].
  intros z1 n1 L1 E1 F1. rewrite (length_mixl lam z z' Hzz) in L1. destruct B as (n0 & En0 & _ & Bn).
  assert (n0 = n) as -> by (pose proof (eq_trans (eq_sym En0) En) as X; injection X as X; exact X). specialize (Bn z1 n1 L1 E1 F1).
  apply Rle_trans with (2 := Bn). apply (Rle_trans _ _ _ V). rewrite <- E, mix_same. apply Rle_refl.
Qed.
Theorem nodes_thm (z z' : list R) ph D : length z = (o_nph o * nvars mp)%nat -> length z' = (o_nph o * nvars mp)%nat -> best mp p z -> best mp p z' ->
  (ph < o_nph o)%nat -> lasting o ph -> strict_run o ph D -> forall i, (i < total_nodes orders)%nat -> weighted mp i ->
  let y := user_traj mp z ph in let y' := user_traj mp z' ph in
  ~ D (vec (o_nx o) (y_x y i)) (vec (o_nu o) (y_u y i)) (vec (o_nx o) (y_x y' i)) (vec (o_nu o) (y_u y' i)).
Proof.
  intros Hz Hz' B B' Hph Hla Hst i Hi Hwi y0 y0' HD. assert (Hzz : length z = length z') by exact (eq_trans Hz (eq_sym Hz')). set (lam := 1 / 2). assert (Hlam : 0 <= lam <= 1) by (unfold lam; lra).
  destruct (convex_thm mp npath nterm p Hmp Hok Hsc Hp Hcv Hft lam z z' Hlam Hz Hz') as (n & n' & m & En & En' & Em & HF).
  destruct (best_same z z' n n' Hzz B B' En En') as (F & F' & E). destruct (HF F F') as [Fm _]. clear HF.
  assert (Hzm : length (mixl lam z z') = length z) by (apply length_mixl; exact Hzz).
  assert (Hlp : length p = (o_nph o * mp_nseg mp)%nat) by (destruct Hp as [L _]; rewrite L; lia).
  assert (IN : forall v : list R, length v = length z -> input_ok mp npath nterm v p) by (intros v Lv; constructor; auto; exact (eq_trans Lv Hz)).
  destruct (nlp_like mp _ _ z p (user_traj mp z) (IN z eq_refl) (fun ph _ => same_refl _ _)) as (rs & n1 & Er & En1 & Hlen & H1 & C1).
  destruct (nlp_like mp _ _ z' p (user_traj mp z') (IN z' (eq_sym Hzz)) (fun ph _ => same_refl _ _)) as (rs2 & n2 & Er2 & En2 & _ & H2 & C2).
  destruct (nlp_like mp _ _ _ p (user_traj mp (mixl lam z z')) (IN _ Hzm) (fun ph _ => same_refl _ _)) as (rs3 & n3 & Er3 & En3 & _ & H3 & C3).
  assert (rs2 = rs) as -> by (pose proof (eq_trans (eq_sym Er2) Er) as X; injection X as X; exact X).
  assert (rs3 = rs) as -> by (pose proof (eq_trans (eq_sym Er3) Er) as X; injection X as X; exact X).
  assert (n1 = n) as -> by (pose proof (eq_trans (eq_sym En1) En) as X; injection X as X; exact X).
  assert (n2 = n') as -> by (pose proof (eq_trans (eq_sym En2) En') as X; injection X as X; exact X).
  assert (n3 = m) as -> by (pose proof (eq_trans (eq_sym En3) Em) as X; injection X as X; exact X).
  destruct (proj1 H1 F) as [Bd _]. destruct (proj1 H2 F') as [Bd' _]. clear H1 H2 H3.
  fold o in Bd, Bd', C1, C2, C3.
  assert (Mx : forall ph i s, y_x (user_traj mp (mixl lam z z') ph) i s = mix lam (y_x (user_traj mp z ph) i s) (y_x (user_traj mp z' ph) i s)).
  { intros q j s. unfold user_traj; cbn [y_x]. rewrite (nth_mixl lam z z' _ Hzz). apply mix_div. }
  assert (Mu : forall ph i s, y_u (user_traj mp (mixl lam z z') ph) i s = mix lam (y_u (user_traj mp z ph) i s) (y_u (user_traj mp z' ph) i s)).
  { intros q j s. unfold user_traj; cbn [y_u]. rewrite (nth_mixl lam z z' _ Hzz). apply mix_div. }
  assert (Ma : forall ph i, y_a (user_traj mp (mixl lam z z') ph) i = mix lam (y_a (user_traj mp z ph) i) (y_a (user_traj mp z' ph) i)).
  { intros q j. unfold user_traj; cbn [y_a]. rewrite (nth_mixl lam z z' _ Hzz). apply mix_div. }
  assert (M0 : forall ph, y_t0 (user_traj mp (mixl lam z z') ph) = mix lam (y_t0 (user_traj mp z ph)) (y_t0 (user_traj mp z' ph))).
  { intros q. unfold user_traj; cbn [y_t0]. rewrite (nth_mixl lam z z' _ Hzz). apply mix_div. }
  assert (M1 : forall ph, y_tf (user_traj mp (mixl lam z z') ph) = mix lam (y_tf (user_traj mp z ph)) (y_tf (user_traj mp z' ph))).
  { intros q. unfold user_traj; cbn [y_tf]. rewrite (nth_mixl lam z z' _ Hzz). apply mix_div. }
  assert (HT : forall ph, (ph < o_nph o)%nat -> y_t0 (user_traj mp z' ph) = y_t0 (user_traj mp z ph) /\ y_tf (user_traj mp z' ph) = y_tf (user_traj mp z ph) /\
     y_t0 (user_traj mp (mixl lam z z') ph) = y_t0 (user_traj mp z ph) /\ y_tf (user_traj mp (mixl lam z z') ph) = y_tf (user_traj mp z ph) /\ y_t0 (user_traj mp z ph) <= y_tf (user_traj mp z ph)).
  { intros q Hq. destruct (fixed_eq mp q _ (Hft q Hq) (Bd q Hq)) as (a & b & Hab & E1 & E2 & E3 & E4). destruct (fixed_eq mp q _ (Hft q Hq) (Bd' q Hq)) as (a' & b' & _ & E1' & E2' & E3' & E4').
    assert (a' = a) as -> by congruence. assert (b' = b) as -> by congruence. rewrite M0, M1, E1, E1', E2, E2', !mix_same. auto. }
  assert (HH : forall ph, (ph < o_nph o)%nat -> forall k, (k < length orders)%nat -> 0 <= seg_h cf (width mp p ph) (user_traj mp z ph) k /\ (y_t0 (user_traj mp z ph) < y_tf (user_traj mp z ph) -> 0 < seg_h cf (width mp p ph) (user_traj mp z ph) k)).
  { intros q Hq k Hk. destruct (part_widths mp p Hmp Hp q Hq) as [W1 _]. unfold seg_h. pose proof (co_taus _ (mo_cfg _ Hmp)) as Ht. fold cf in Ht. specialize (W1 k Hk). destruct (HT q Hq) as (_ & _ & _ & _ & H5). split.
    - apply Rmult_le_pos; [apply Rmult_le_pos; lra|apply Rlt_le, Rinv_0_lt_compat; lra].
    - intros Hl. apply Rmult_lt_0_compat; [apply Rmult_lt_0_compat; lra|apply Rinv_0_lt_compat; lra]. }
  assert (V : n_f m < n_f n).
  { nred. rewrite C3. replace (n_f n) with (mix lam (n_f n) (n_f n')) by (rewrite <- E; apply mix_same). rewrite C1, C2, <- Rsum_mix. apply (Rsum_lt _ _ _ ph Hph).
    - intros q Hq. destruct (HT q Hq) as (A1 & A2 & A3 & A4 & _). apply (phase_le mp npath nterm); auto. intros k Hk. apply (HH q Hq k Hk).
    - destruct (HT ph Hph) as (A1 & A2 & A3 & A4 & _).
      destruct (owned_exists orders i) as (k & j & Ho); [unfold orders; pose proof (mo_len _ Hmp) as X; pose proof (mo_nseg _ Hmp); intros X'; rewrite X' in X; cbn in X; lia|exact Hi|].
      pose proof Ho as (q & Eq & Hj & _ & Ei). pose proof (nth_error_lt _ _ _ Eq) as Hk. subst i.
      apply (phase_lt mp npath nterm rs (width mp p ph) ph lam) with (k := k) (j := j); auto.
      + intros k' Hk'. apply (HH ph Hph k' Hk').
      + fold orders. rewrite (nth_error_nth _ _ _ Eq). exact Hj.
      + apply (HH ph Hph k Hk). destruct Hla as (a & b & Hab & La & Lb).
        destruct (fixed_eq mp ph _ (Hft ph Hph) (Bd ph Hph)) as (a' & b' & _ & Y1 & Y2 & Y3 & Y4). fold o in Y3, Y4.
        assert (Ha : a' = a) by congruence. assert (Hb : b' = b) by congruence. rewrite Y1, Y2, Ha, Hb. exact Hab.
      + apply omega_pos; assumption.
      + fold o orders cf. set (t := seg_time cf (width mp p ph) (user_traj mp z ph) k (nth j (nth k rs []) 0)). unfold run_val.
        destruct (nth_error (o_run o) ph) as [f|] eqn:Ef.
        2: { exfalso. apply nth_error_None in Ef. pose proof (sh_run _ (ok_shapes _ _ _ Hok)) as X. fold o in X. clear - X Ef Hph. nred. lia. }
        set (i := (offset orders k + j)%nat) in *. set (ym := user_traj mp (mixl lam z z') ph).
        destruct (ok_run _ _ _ Hok ph f (vec (o_nx o) (y_x y0 i)) (vec (o_nu o) (y_u y0 i)) t (a_of o y0) Ef (length_vec _ _) (length_vec _ _) (a_arg mp y0)) as (l & El).
        destruct (ok_run _ _ _ Hok ph f (vec (o_nx o) (y_x y0' i)) (vec (o_nu o) (y_u y0' i)) t (a_of o y0') Ef (length_vec _ _) (length_vec _ _) (a_arg mp y0')) as (l' & El').
        destruct (ok_run _ _ _ Hok ph f (vec (o_nx o) (y_x ym i)) (vec (o_nu o) (y_u ym i)) t (a_of o ym) Ef (length_vec _ _) (length_vec _ _) (a_arg mp ym)) as (l2 & El2).
        change (user_traj mp z ph) with y0. change (user_traj mp z' ph) with y0'. nred. rewrite El, El', El2.
        apply (Hst f (vec (o_nx o) (y_x y0 i)) (vec (o_nx o) (y_x y0' i)) (vec (o_nu o) (y_u y0 i)) (vec (o_nu o) (y_u y0' i)) t (a_of o y0) (a_of o y0') l l' l2 Ef (length_vec _ _) (length_vec _ _) (length_vec _ _) (length_vec _ _) (a_arg mp y0) (a_arg mp y0') HD El El').
        rewrite <- El2. f_equal.
        * symmetry. exact (x_mix mp lam y0 y0' ym (Mx ph) i).
        * symmetry. exact (u_mix mp lam y0 y0' ym (Mu ph) i).
        * symmetry. exact (a_mix mp lam y0 y0' ym (Ma ph)). }
  destruct B as (n0 & En0 & _ & Bn). assert (n0 = n) as -> by (pose proof (eq_trans (eq_sym En0) En) as X; injection X as X; exact X).
  specialize (Bn _ m Hzm Em Fm). apply (Rlt_irrefl (n_f m)). apply (Rlt_le_trans _ _ _ V Bn).
Qed.
End Program.

(** ** a state is given by its start and by its rates at the nodes but the first *)
Lemma same_rates roots c c' : NoDup roots -> (1 <= length roots)%nat -> (length c <= length roots)%nat -> (length c' <= length roots)%nat ->
  (forall j, (1 <= j < length roots)%nat -> Derive (peval c) (nth j roots 0) = Derive (peval c') (nth j roots 0)) ->
  peval c (nth 0 roots 0) = peval c' (nth 0 roots 0) -> forall x, peval c x = peval c' x.
Proof.
  intros Hnd Hl Lc Lc' HD H0 x. destruct roots as [|a l]; [cbn in Hl; lia|]. cbn [length] in *. inversion Hnd as [|? ? _ Hnd']; subst.
  assert (E : forall x, peval (@pder Rnum c) x = peval (@pder Rnum c') x).
  { apply (interp_unique l); [exact Hnd'|pose proof (length_pder1 c) as X; clear - X Lc; nred; lia|pose proof (length_pder1 c') as X; clear - X Lc'; nred; lia|].
    intros k Hk. specialize (HD (S k) ltac:(lia)). cbn [nth] in HD. rewrite (is_derive_unique _ _ _ (is_derive_peval c _)) in HD. rewrite (is_derive_unique _ _ _ (is_derive_peval c' _)) in HD. exact HD. }
  cbn [nth] in H0. pose proof (fun u v => eq_is_derive (fun x => peval c x - peval c' x) u v) as EQ.
  assert (Z : forall t, is_derive (fun x => peval c x - peval c' x) t zero).
  { intros t. replace (@zero R_NormedModule) with (minus (peval (@pder Rnum c) t) (peval (@pder Rnum c') t)); [apply (is_derive_minus (peval c) (peval c')); apply is_derive_peval|].
    rewrite E. unfold minus, plus, opp, zero; cbn. ring. }
  destruct (Rtotal_order a x) as [L|[<-|L]]; [specialize (EQ a x (fun t _ => Z t) L)|exact H0|specialize (EQ x a (fun t _ => Z t) L)]; cbn in EQ; lra.
Qed.
Lemma same_state (orders : list nat) (rs : list (list R)) (g g' : nat -> R) :
  (forall q, In q orders -> (1 <= q)%nat) -> (forall k q, nth_error orders k = Some q -> length (nth k rs []) = S q /\ NoDup (nth k rs [])) ->
  g 0%nat = g' 0%nat ->
  (forall i k j c c', owned orders i k j -> (1 <= j)%nat -> seg_interp orders k (nth k rs []) g c -> seg_interp orders k (nth k rs []) g' c' ->
     Derive (peval c) (nth j (nth k rs []) 0) = Derive (peval c') (nth j (nth k rs []) 0)) ->
  forall i, (i < total_nodes orders)%nat -> g i = g' i.
Proof.
  intros Hpos Hrs H0 HD. assert (G : forall k, (k <= length orders)%nat -> forall i, (i <= offset orders k)%nat -> g i = g' i).
  { induction k as [|k IH]; intros Hk i Hi; [rewrite offset_0 in Hi; assert (i = 0)%nat as -> by lia; exact H0|].
    assert (Hk' : (k < length orders)%nat) by lia. specialize (IH ltac:(lia)). pose proof (nth_error_nth' orders 0%nat Hk') as Eq. set (q := nth k orders 0%nat) in *.
    destruct (Hrs k q Eq) as [Lr Hnd]. rewrite (offset_S _ _ _ Eq) in Hi. destruct (le_lt_dec i (offset orders k)) as [L|L]; [exact (IH i L)|].
    destruct (interp_exists (nth k rs []) (fun j => g (offset orders k + j)%nat) Hnd) as (c & Hc). destruct (interp_exists (nth k rs []) (fun j => g' (offset orders k + j)%nat) Hnd) as (c' & Hc').
    pose proof Hc as [Lc Nc]. pose proof Hc' as [Lc' Nc'].
    assert (E : forall x, peval c x = peval c' x).
    { apply (same_rates (nth k rs [])); [exact Hnd|lia|exact Lc|exact Lc'| |].
      - intros j Hj. apply (HD (offset orders k + j)%nat k j c c'); [|lia|exact Hc|exact Hc']. exists q. repeat split; [exact Eq|lia|right; lia].
      - rewrite (Nc 0%nat ltac:(lia)), (Nc' 0%nat ltac:(lia)). apply IH. lia. }
    replace i with (offset orders k + (i - offset orders k))%nat by lia. rewrite <- (Nc (i - offset orders k)%nat ltac:(lia)), <- (Nc' (i - offset orders k)%nat ltac:(lia)). apply E. }
  intros i Hi. apply (G (length orders)); [lia|]. unfold total_nodes in Hi. lia.
Qed.

(** ** the vector of variables is given by the trajectories *)
Lemma in_block a n i : (0 < n)%nat -> (i < a * n)%nat -> exists s j, (s < a)%nat /\ (j < n)%nat /\ i = (s * n + j)%nat.
Proof.
  intros Hn Hi. exists (i / n)%nat, (i mod n)%nat. split; [apply Nat.div_lt_upper_bound; lia|]. split; [apply Nat.mod_upper_bound; lia|]. pose proof (Nat.div_mod i n ltac:(lia)). lia.
Qed.
Lemma div_same a b c : 0 < c -> a / c = b / c -> a = b.
Proof. intros Hc E. apply (f_equal (fun v => v * c)) in E. unfold Rdiv in E. rewrite !Rmult_assoc, Rinv_l in E by lra. lra. Qed.
Lemma traj_inj mp (z z' : list R) : shapes_ok (mp_ocp mp) -> scales_pos (mp_ocp mp) -> length z = (o_nph (mp_ocp mp) * nvars mp)%nat -> length z' = (o_nph (mp_ocp mp) * nvars mp)%nat ->
  (forall ph, (ph < o_nph (mp_ocp mp))%nat -> same_traj mp (user_traj mp z ph) (user_traj mp z' ph)) -> z = z'.
Proof.
  intros Hsh [S1 S2 S3 S4] Hz Hz' HS. set (o := mp_ocp mp) in *. set (n := total_nodes (mp_orders mp)).
  assert (Hn : (0 < n)%nat) by (unfold n, total_nodes; lia). assert (Hv : nvars mp = (n * o_nx o + n * o_nu o + 2 + o_na o)%nat) by reflexivity.
  apply (nth_ext z z' 0 0); [exact (eq_trans Hz (eq_sym Hz'))|]. intros i Hi.
  assert (Hi' : (i < o_nph o * nvars mp)%nat) by (clear - Hi Hz; nred; lia). destruct (in_block (o_nph o) (nvars mp) i ltac:(rewrite Hv; lia) Hi') as (ph & r & Hph & Hr & ->).
  destruct (HS ph Hph) as (X & U & T0 & T1 & A). unfold user_traj in X, U, T0, T1, A. cbn [y_x y_u y_t0 y_tf y_a] in X, U, T0, T1, A. fold n o in X, U, T0, T1, A.
  set (b := (ph * nvars mp)%nat) in *.
  destruct (le_lt_dec (n * o_nx o) r) as [L1|L1].
  2: { destruct (in_block (o_nx o) n r Hn ltac:(lia)) as (s & j & Hs & Hj & ->). specialize (X j s Hj Hs). rewrite !Nat.add_assoc. apply (div_same _ _ _ (S1 _ (nth_In _ 0 (eq_ind_r (fun m => (_ < m)%nat) Hs (sh_sx _ Hsh)))) X). }
  destruct (le_lt_dec (n * o_nx o + n * o_nu o) r) as [L2|L2].
  2: { destruct (in_block (o_nu o) n (r - n * o_nx o) Hn ltac:(lia)) as (s & j & Hs & Hj & E). specialize (U j s Hj Hs). replace (b + r)%nat with (b + n * o_nx o + s * n + j)%nat by lia.
       apply (div_same _ _ _ (S2 _ (nth_In _ 0 (eq_ind_r (fun m => (_ < m)%nat) Hs (sh_su _ Hsh)))) U). }
  destruct (Nat.eq_dec r (n * o_nx o + n * o_nu o)) as [-> |N1]; [rewrite !Nat.add_assoc; exact (div_same _ _ _ S4 T0)|].
  destruct (Nat.eq_dec r (n * o_nx o + n * o_nu o + 1)) as [-> |N2]; [rewrite !Nat.add_assoc; exact (div_same _ _ _ S4 T1)|].
  set (j := (r - (n * o_nx o + n * o_nu o + 2))%nat). assert (Hj : (j < o_na o)%nat) by (unfold j; lia). specialize (A j Hj).
  replace (b + r)%nat with (b + n * o_nx o + n * o_nu o + 2 + j)%nat by (unfold j; lia).
  apply (div_same _ _ _ (S3 _ (nth_In _ 0 (eq_ind_r (fun m => (_ < m)%nat) Hj (sh_sa _ Hsh)))) A).
Qed.
Lemma vec_same n f g : vec n f = vec n g -> forall s, (s < n)%nat -> f s = g s.
Proof. intros E s Hs. pose proof (nth_vec n f s 0 Hs) as A. pose proof (nth_vec n g s 0 Hs) as C. rewrite E in A. congruence. Qed.

(** ** one solution *)
Lemma times_same mp npath nterm (z z' p : list R) n n' : input_ok mp npath nterm z p -> input_ok mp npath nterm z' p -> nlp_at mp z p = Ok n -> nlp_at mp z' p = Ok n' -> feasible n -> feasible n' ->
  forall ph, (ph < o_nph (mp_ocp mp))%nat -> fixed_times (mp_ocp mp) ph -> y_t0 (user_traj mp z ph) = y_t0 (user_traj mp z' ph) /\ y_tf (user_traj mp z ph) = y_tf (user_traj mp z' ph).
Proof.
  intros I I' En En' F F' ph Hph Hf.
  destruct (nlp_like mp _ _ z p (user_traj mp z) I (fun ph _ => same_refl _ _)) as (rs & n1 & _ & En1 & _ & H1 & _). destruct (nlp_like mp _ _ z' p (user_traj mp z') I' (fun ph _ => same_refl _ _)) as (rs2 & n2 & _ & En2 & _ & H2 & _).
  assert (n1 = n) as -> by (pose proof (eq_trans (eq_sym En1) En) as X; injection X as X; exact X).
  assert (n2 = n') as -> by (pose proof (eq_trans (eq_sym En2) En') as X; injection X as X; exact X).
  destruct (proj1 H1 F) as [Bd _]. destruct (proj1 H2 F') as [Bd' _].
  destruct (fixed_eq mp ph _ Hf (Bd ph Hph)) as (a & b & _ & E1 & E2 & E3 & E4). destruct (fixed_eq mp ph _ Hf (Bd' ph Hph)) as (a' & b' & _ & E1' & E2' & E3' & E4'). split; congruence.
Qed.
Theorem unique_thm mp npath nterm p : mpo_ok mp -> ocp_ok (mp_ocp mp) npath nterm -> scales_pos (mp_ocp mp) -> widths_ok (mp_nseg mp) (o_nph (mp_ocp mp)) p ->
  (forall ph, (ph < o_nph (mp_ocp mp))%nat -> convex_phase (mp_ocp mp) ph) -> (forall ph, (ph < o_nph (mp_ocp mp))%nat -> fixed_times (mp_ocp mp) ph) ->
  o_na (mp_ocp mp) = 0%nat -> (forall ph, (ph < o_nph (mp_ocp mp))%nat -> lasting (mp_ocp mp) ph /\ strict_both (mp_ocp mp) ph) -> weighted mp 0 ->
  forall z z' : list R, length z = (o_nph (mp_ocp mp) * nvars mp)%nat -> length z' = (o_nph (mp_ocp mp) * nvars mp)%nat -> best mp p z -> best mp p z' -> z = z'.
Proof.
  intros Hmp Hok Hsc Hp Hcv Hft Hna Hst Hw0 z z' Hz Hz' B B'. apply (traj_inj mp z z' (ok_shapes _ _ _ Hok) Hsc Hz Hz'). intros ph Hph. destruct (Hst ph Hph) as [Hl Hs].
  assert (HN : forall i, (i < total_nodes (mp_orders mp))%nat -> weighted mp i) by (intros i Hi; destruct i as [|i]; [exact Hw0|left; lia]).
  assert (Hlp : length p = (o_nph (mp_ocp mp) * mp_nseg mp)%nat) by (destruct Hp as [L _]; rewrite L; lia).
  assert (I : input_ok mp npath nterm z p) by (constructor; auto). assert (I' : input_ok mp npath nterm z' p) by (constructor; auto).
  pose proof B as (n & En & F & _). pose proof B' as (n' & En' & F' & _).
  destruct (times_same mp npath nterm z z' p n n' I I' En En' F F' ph Hph (Hft ph Hph)) as [T0 T1].
  assert (V : forall i, (i < total_nodes (mp_orders mp))%nat -> vec (o_nx (mp_ocp mp)) (y_x (user_traj mp z ph) i) = vec (o_nx (mp_ocp mp)) (y_x (user_traj mp z' ph) i) /\
     vec (o_nu (mp_ocp mp)) (y_u (user_traj mp z ph) i) = vec (o_nu (mp_ocp mp)) (y_u (user_traj mp z' ph) i)).
  { intros i Hi. pose proof (nodes_thm mp npath nterm p Hmp Hok Hsc Hp Hcv Hft z z' ph _ Hz Hz' B B' Hph Hl Hs i Hi (HN i Hi)) as H. cbn beta zeta in H.
    destruct (list_eq_dec Req_EM_T (vec (o_nx (mp_ocp mp)) (y_x (user_traj mp z ph) i)) (vec (o_nx (mp_ocp mp)) (y_x (user_traj mp z' ph) i))) as [E1|E1]; [|destruct (H (or_introl E1))].
    destruct (list_eq_dec Req_EM_T (vec (o_nu (mp_ocp mp)) (y_u (user_traj mp z ph) i)) (vec (o_nu (mp_ocp mp)) (y_u (user_traj mp z' ph) i))) as [E2|E2]; [|destruct (H (or_intror E2))]. split; assumption. }
  split; [|split; [|split; [exact T0|split; [exact T1|]]]].
  - intros i s Hi Hsx. exact (vec_same _ _ _ (proj1 (V i Hi)) s Hsx).
  - intros i c Hi Hc. exact (vec_same _ _ _ (proj2 (V i Hi)) c Hc).
  - intros i Hi. lia.
Qed.
