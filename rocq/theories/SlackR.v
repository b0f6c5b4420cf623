(** Bounds that a solution of a convex problem does not touch can be changed (property C74). *)
From Coq Require Import Reals Lia Lra Psatz Bool Arith String.
From Coquelicot Require Import Coquelicot.
From Coq Require Import List.
From Verif Require Import Num PyList Mat Poly Roots Colloc Ocp Transcribe Spec SpecOcp SpecHadapt SpecExact SpecConvex SpecCoord SpecValue SpecSlack NumR ListR PolyR CompR MeshR BlockR DiscR NlpR NlpThm CostR ScaleR ExactR WeightR ConvexR TransR UniqueR ValueR.
Import ListNotations.
Open Scope R_scope.

(** ** for all small mixtures *)
Definition small (P : R -> Prop) : Prop := exists e, 0 < e <= 1 /\ forall lam, 0 < lam <= e -> P lam.
Lemma small_always (P : R -> Prop) : (forall lam, 0 < lam <= 1 -> P lam) -> small P.
Proof. intros H. exists 1. split; [lra|exact H]. Qed.
Lemma small_and P Q : small P -> small Q -> small (fun lam => P lam /\ Q lam).
Proof.
  intros (e & He & H) (e' & He' & H'). exists (Rmin e e'). split; [split; [apply Rmin_pos; lra|pose proof (Rmin_l e e'); lra]|].
  intros lam Hl. pose proof (Rmin_l e e'). pose proof (Rmin_r e e'). split; [apply H|apply H']; lra.
Qed.
Lemma small_imp (P Q : R -> Prop) : (forall lam, 0 < lam <= 1 -> P lam -> Q lam) -> small P -> small Q.
Proof. intros H (e & He & HP). exists e. split; [exact He|]. intros lam Hl. apply H; [lra|auto]. Qed.
Lemma small_upto n (P : nat -> R -> Prop) : (forall i, (i < n)%nat -> small (P i)) -> small (fun lam => forall i, (i < n)%nat -> P i lam).
Proof.
  induction n as [|n IH]; intros H; [apply small_always; intros; lia|].
  refine (small_imp _ _ _ (small_and _ _ (IH (fun i Hi => H i (Nat.lt_lt_succ_r _ _ Hi))) (H n (Nat.lt_succ_diag_r n)))).
  intros lam _ [A B] i Hi. destruct (Nat.eq_dec i n) as [-> |Hn]; [exact B|apply A; lia].
Qed.
Lemma small_if (b : bool) (P : R -> Prop) : (b = true -> small P) -> small (fun lam => b = true -> P lam).
Proof. intros H. destruct b; [|apply small_always; intros lam _ X; discriminate X]. exact (small_imp _ _ (fun lam _ h _ => h) (H eq_refl)). Qed.

Lemma near_above a x x' : a < x -> small (fun lam => a <= mix lam x x').
Proof.
  intros H. set (d := Rabs (x' - x) + (x - a)). assert (Hd : 0 < d) by (unfold d; pose proof (Rabs_pos (x' - x)); lra).
  exists ((x - a) / d). split.
  - split; [apply Rdiv_lt_0_compat; lra|]. apply Rmult_le_reg_r with d; [exact Hd|]. unfold Rdiv. rewrite Rmult_assoc, Rinv_l by lra. unfold d. pose proof (Rabs_pos (x' - x)). lra.
  - intros lam [L1 L2]. assert (lam * d <= x - a).
    { apply Rmult_le_compat_r with (r := d) in L2; [|lra]. unfold Rdiv in L2. rewrite Rmult_assoc, Rinv_l in L2 by lra. lra. }
    unfold mix. assert (x' - x >= - Rabs (x' - x)) by (pose proof (Rle_abs (- (x' - x))) as A; rewrite Rabs_Ropp in A; lra). unfold d in *. nra.
Qed.
Lemma near_below a x x' : x < a -> small (fun lam => mix lam x x' <= a).
Proof. intros H. refine (small_imp _ _ _ (near_above (- a) (- x) (- x') ltac:(lra))). intros lam _ K. unfold mix in *. lra. Qed.
Lemma small_within lo hi lo' hi' x x' : within lo hi x -> untouched lo hi lo' hi' x -> within lo' hi' x' -> small (fun lam => within lo hi (mix lam x x')).
Proof.
  intros [A B] [C D] [A' B']. apply small_and.
  - destruct C as [-> |C]; [apply small_always; intros lam Hl; pose proof (above_mix lam lo lo x x' ltac:(lra) A A') as X; rewrite mixe_same in X; exact X|].
    destruct lo; cbn in *; try tauto; [apply small_always; auto|apply near_above; exact C].
  - destruct D as [-> |D]; [apply small_always; intros lam Hl; pose proof (below_mix lam hi hi x x' ltac:(lra) B B') as X; rewrite mixe_same in X; exact X|].
    destruct hi; cbn in *; try tauto; [apply near_below; exact D|apply small_always; auto].
Qed.

Lemma mix_scal_l lam c a b : c * mix lam a b = mix lam (c * a) (c * b).
Proof. unfold mix. ring. Qed.
Lemma mix_sub lam a b c d : mix lam (a - b) (c - d) = mix lam a c - mix lam b d.
Proof. unfold mix. ring. Qed.

Section Slack.
Variables (o : ocp Rnum) (l l' : limits) (K : nat) (orders : list nat) (cf : ccfg Rnum) (npath nterm : nat -> option nat) (p : list R).
Let mk (k : limits) : mpo Rnum := Mpo (with_limits o k) K orders cf.
Hypothesis Hmp : mpo_ok (mk l).
Hypothesis Hok : ocp_ok (with_limits o l) npath nterm.
Hypothesis Hok' : ocp_ok (with_limits o l') npath nterm.
Hypothesis Hsc : scales_pos o.
Hypothesis Hp : widths_ok K (o_nph o) p.
Hypothesis Hcv : forall ph, (ph < o_nph o)%nat -> convex_phase o ph.
Hypothesis Hft : forall ph, (ph < o_nph o)%nat -> fixed_times o ph.
(** small steps from a point of the first problem to one of the second stay in the first *)
Lemma slack_step (z z' : list R) rs n n' : length z = (o_nph o * nvars (mk l))%nat -> length z' = (o_nph o * nvars (mk l))%nat ->
  mapM (c_roots cf) orders = Ok rs -> slack (mk l) rs l l' (user_traj (mk l) z) ->
  nlp_at (mk l) z p = Ok n -> nlp_at (mk l') z' p = Ok n' -> feasible n -> feasible n' ->
  small (fun lam => exists m, nlp_at (mk l) (mixl lam z z') p = Ok m /\ feasible m /\ n_f m <= mix lam (n_f n) (n_f n')).
Proof.
  intros Hz Hz' Er Hsk En En' F F'. assert (Hlp : length p = (o_nph o * K)%nat) by (destruct Hp as [L _]; rewrite L; lia).
  assert (Hzz : length z = length z') by (exact (eq_trans Hz (eq_sym Hz'))).
  pose proof (mpo_with o l K orders cf Hmp) as Hm. fold mk in Hm. pose proof (scales_with o Hsc) as Hs0.
  destruct (nlp_at_ok (mk l) (Hm l) npath nterm Hok (Hs0 l) z p Hz Hlp) as (rsa & na & Era & _ & Hrs & Hg & _).
  assert (rsa = rs) as -> by (pose proof (eq_trans (eq_sym Era) Er) as X; injection X as X; exact X).
  destruct (nlp_like (mk l) npath nterm z p (user_traj (mk l) z) (Build_input_ok _ _ _ _ _ (Hm l) Hok (Hs0 l) Hz Hlp) (fun ph _ => same_refl _ _)) as (rs0 & n0 & Er0 & En0 & _ & Hs & _).
  destruct (nlp_like (mk l') npath nterm z' p (user_traj (mk l') z') (Build_input_ok _ _ _ _ _ (Hm l') Hok' (Hs0 l') Hz' Hlp) (fun ph _ => same_refl _ _)) as (rs1 & n1 & Er1 & En1 & _ & Hs' & _).
  assert (rs0 = rs) as -> by (pose proof (eq_trans (eq_sym Er0) Er) as X; injection X as X; exact X).
  assert (rs1 = rs) as -> by (pose proof (eq_trans (eq_sym Er1) Er) as X; injection X as X; exact X).
  assert (n0 = n) as -> by (pose proof (eq_trans (eq_sym En0) En) as X; injection X as X; exact X).
  assert (n1 = n') as -> by (pose proof (eq_trans (eq_sym En1) En') as X; injection X as X; exact X).
  destruct (proj1 Hs F) as (B & P & L). destruct (proj1 Hs' F') as (B' & P' & L'). clear Hs Hs'.
  pose proof (fun lam (Hl : 0 <= lam <= 1) => value_thm o l l' K orders cf npath nterm p Hmp Hok Hok' Hsc Hp Hcv Hft lam Hl z z' Hz Hz') as HV. cbv zeta in HV.
  set (y := user_traj (mk l) z) in *. set (y' := user_traj (mk l') z') in *.
  assert (SX : small (fun lam => forall ph, (ph < o_nph o)%nat -> forall i, (i < total_nodes orders)%nat -> forall s, (s < o_nx o)%nat -> Nat.eqb ph 0 && Nat.eqb i 0 = false ->
    within (bnd ph (l_lbx l) s) (bnd ph (l_ubx l) s) (mix lam (y_x (y ph) i s) (y_x (y' ph) i s)))).
  { apply small_upto. intros ph Hph. apply small_upto. intros i Hi. apply small_upto. intros s Hs.
    destruct (Nat.eqb ph 0 && Nat.eqb i 0) eqn:E0; [apply small_always; intros lam _ X; discriminate X|].
    pose proof (proj1 (B ph Hph) i s Hi Hs) as X. pose proof (proj1 (B' ph Hph) i s Hi Hs) as X'. cbv beta in X, X'. rewrite E0 in X, X'.
    refine (small_imp _ _ (fun lam _ h _ => h) (small_within _ _ _ _ _ _ X (sk_x _ _ _ _ _ Hsk ph i s Hph Hi Hs E0) X')). }
  assert (SU : small (fun lam => forall ph, (ph < o_nph o)%nat -> forall i, (i < total_nodes orders)%nat -> forall s, (s < o_nu o)%nat ->
    within (bnd ph (l_lbu l) s) (bnd ph (l_ubu l) s) (mix lam (y_u (y ph) i s) (y_u (y' ph) i s)))).
  { apply small_upto. intros ph Hph. apply small_upto. intros i Hi. apply small_upto. intros s Hs.
    destruct (B ph Hph) as (_ & X & _). destruct (B' ph Hph) as (_ & X' & _). exact (small_within _ _ _ _ _ _ (X i s Hi Hs) (sk_u _ _ _ _ _ Hsk ph i s Hph Hi Hs) (X' i s Hi Hs)). }
  assert (SA : small (fun lam => forall ph, (ph < o_nph o)%nat -> forall i, (i < o_na o)%nat ->
    within (bnd ph (l_lba l) i) (bnd ph (l_uba l) i) (mix lam (y_a (y ph) i) (y_a (y' ph) i)))).
  { apply small_upto. intros ph Hph. apply small_upto. intros i Hi.
    destruct (B ph Hph) as (_ & _ & _ & _ & X). destruct (B' ph Hph) as (_ & _ & _ & _ & X'). exact (small_within _ _ _ _ _ _ (X i Hi) (sk_a _ _ _ _ _ Hsk ph i Hph Hi) (X' i Hi)). }
  assert (HQ : forall ph k d c, nth_error orders k = Some d -> exists q q', seg_interp orders k (nth k rs []) (fun i => y_u (y ph) i c) q /\ seg_interp orders k (nth k rs []) (fun i => y_u (y' ph) i c) q').
  { intros ph k d c Eq. destruct (seg_polys (mk l) rs Hg Hrs k d (fun i => y_u (y ph) i c) Eq) as (q & Hq). destruct (seg_polys (mk l) rs Hg Hrs k d (fun i => y_u (y' ph) i c) Eq) as (q' & Hq'). exists q, q'. split; assumption. }
  assert (SD : small (fun lam => forall ph, (ph < o_nph o)%nat -> nth ph (o_diff_u o) false = true -> forall k, (k < length orders)%nat -> forall j, (j < S (nth k orders 0))%nat -> forall c, (c < o_nu o)%nat ->
    (k = 0 \/ 1 <= j)%nat -> exists q q', seg_interp orders k (nth k rs []) (fun i => y_u (y ph) i c) q /\ seg_interp orders k (nth k rs []) (fun i => y_u (y' ph) i c) q' /\
    within (nth ph (l_lbdu l) NaN) (nth ph (l_ubdu l) NaN) (mix lam (nth c (o_scale_u o) 0 * Derive (peval q) (nth j (nth k rs []) 0)) (nth c (o_scale_u o) 0 * Derive (peval q') (nth j (nth k rs []) 0))))).
  { apply small_upto. intros ph Hph. apply small_if. intros Ed. apply small_upto. intros k Hk. apply small_upto. intros j Hj. apply small_upto. intros c Hc.
    destruct (HQ ph k _ c (nth_error_nth' orders 0%nat Hk)) as (q & q' & Hq & Hq').
    assert (DD : (k = 0 \/ 1 <= j)%nat \/ ~ (k = 0 \/ 1 <= j)%nat) by lia. destruct DD as [D|D]; [|apply small_always; intros lam _ X; destruct (D X)].
    assert (Ho : owned orders (offset orders k + j) k j) by (exists (nth k orders 0%nat); split; [exact (nth_error_nth' orders 0%nat Hk)|split; [lia|split; [exact D|reflexivity]]]).
    destruct (P ph Hph) as (_ & _ & X & _). destruct (P' ph Hph) as (_ & _ & X' & _).
    refine (small_imp _ _ _ (small_within _ _ _ _ _ _ (X Ed _ k j c q Ho Hc Hq) (sk_slope _ _ _ _ _ Hsk ph _ k j c q Hph Ed Ho Hc Hq) (X' Ed _ k j c q' Ho Hc Hq'))).
    intros lam _ h _. exists q, q'. split; [exact Hq|]. split; [exact Hq'|exact h]. }
  assert (SM : small (fun lam => forall ph, (ph < o_nph o)%nat -> nth ph (o_midu o) false = true -> forall k, (k < length orders)%nat -> forall j, (j < nth k orders 0)%nat -> forall c, (c < o_nu o)%nat ->
    exists q q', seg_interp orders k (nth k rs []) (fun i => y_u (y ph) i c) q /\ seg_interp orders k (nth k rs []) (fun i => y_u (y' ph) i c) q' /\
    within (bnd ph (l_lbu l) c) (bnd ph (l_ubu l) c) (mix lam (peval q ((nth j (nth k rs []) 0 + nth (S j) (nth k rs []) 0) / 2)) (peval q' ((nth j (nth k rs []) 0 + nth (S j) (nth k rs []) 0) / 2))))).
  { apply small_upto. intros ph Hph. apply small_if. intros Ed. apply small_upto. intros k Hk. apply small_upto. intros j Hj. apply small_upto. intros c Hc.
    pose proof (nth_error_nth' orders 0%nat Hk) as Eq. destruct (HQ ph k _ c Eq) as (q & q' & Hq & Hq').
    destruct (P ph Hph) as (_ & _ & _ & X & _). destruct (P' ph Hph) as (_ & _ & _ & X' & _).
    refine (small_imp _ _ _ (small_within _ _ _ _ _ _ (X Ed k _ j c q Eq Hj Hc Hq) (sk_midu _ _ _ _ _ Hsk ph k _ j c q Hph Ed Eq Hj Hc Hq) (X' Ed k _ j c q' Eq Hj Hc Hq'))).
    intros lam _ h. exists q, q'. split; [exact Hq|]. split; [exact Hq'|exact h]. }
  assert (SL : small (fun lam => forall k, (k < length (o_links o))%nat -> forall s, (s < o_nx o)%nat -> (1 < o_nph o)%nat ->
    let (i, j) := nth k (o_links o) (0%nat, 0%nat) in
    within (bnd k (l_lbe l) s) (bnd k (l_ube l) s) (mix lam (y_x (y j) 0 s - y_x (y i) (total_nodes orders - 1) s) (y_x (y' j) 0 s - y_x (y' i) (total_nodes orders - 1) s)))).
  { apply small_upto. intros k Hk. apply small_upto. intros s Hs. destruct (Nat.lt_ge_cases 1 (o_nph o)) as [Hn|Hn]; [|apply small_always; intros; lia].
    pose proof (nth_error_nth' (o_links o) (0%nat, 0%nat) Hk) as Ek. destruct (nth k (o_links o) (0%nat, 0%nat)) as [i j].
    destruct (L Hn k i j Ek) as (X & _). destruct (L' Hn k i j Ek) as (X' & _).
    exact (small_imp _ _ (fun lam _ h _ => h) (small_within _ _ _ _ _ _ (X s Hs) (sk_link _ _ _ _ _ Hsk k i j s Ek Hs) (X' s Hs))). }
  refine (small_imp _ _ _ (small_and _ _ SX (small_and _ _ SU (small_and _ _ SA (small_and _ _ SD (small_and _ _ SM SL)))))).
  clear SX SU SA SD SM SL. intros lam Hl (SX & SU & SA & SD & SM & SL). assert (Hlam : 0 <= lam <= 1) by lra.
  assert (Hzm : length (mixl lam z z') = (o_nph o * nvars (mk l))%nat) by (rewrite (length_mixl lam z z' Hzz); exact Hz).
  destruct (nlp_like (mk l) npath nterm (mixl lam z z') p (user_traj (mk l) (mixl lam z z')) (Build_input_ok _ _ _ _ _ (Hm l) Hok (Hs0 l) Hzm Hlp) (fun ph _ => same_refl _ _)) as (rs2 & m & Er2 & Em & _ & Hsm & Hfm).
  assert (rs2 = rs) as -> by (pose proof (eq_trans (eq_sym Er2) Er) as X; injection X as X; exact X).
  exists m. split; [exact Em|].
  (* the cost and the conditions without bounds: those of the problem between *)
  destruct (HV lam Hlam) as (a & b & c & Ea & Eb & Ec & Hc).
  assert (a = n) as -> by (pose proof (eq_trans (eq_sym Ea) En) as X; injection X as X; exact X).
  assert (b = n') as -> by (pose proof (eq_trans (eq_sym Eb) En') as X; injection X as X; exact X).
  destruct (Hc F F') as [Fc Cc].
  destruct (nlp_like (mk (mix_limits lam l l')) npath nterm (mixl lam z z') p (user_traj (mk l) (mixl lam z z')) (Build_input_ok _ _ _ _ _ (Hm _) (mix_ok o l l' npath nterm Hok Hok' lam Hlam) (Hs0 _) Hzm Hlp) (fun ph _ => same_refl _ _)) as (rs3 & c' & Er3 & Ec' & _ & Hsc' & Hfc).
  assert (rs3 = rs) as -> by (pose proof (eq_trans (eq_sym Er3) Er) as X; injection X as X; exact X).
  assert (c' = c) as -> by (pose proof (eq_trans (eq_sym Ec') Ec) as X; injection X as X; exact X).
  split; [|exact (Rle_trans _ _ _ (Req_le _ _ (eq_trans Hfm (eq_sym Hfc))) Cc)].
  destruct (proj1 Hsc' Fc) as (Bm & Pm & Lm). clear Hsc' Hfc Hfm Fc.
  set (ym := user_traj (mk l) (mixl lam z z')) in *.
  assert (Mx : forall ph i s, y_x (ym ph) i s = mix lam (y_x (y ph) i s) (y_x (y' ph) i s)).
  { intros ph i s. unfold ym, y, y', user_traj; cbn [y_x]. rewrite (nth_mixl lam z z' _ Hzz). apply mix_div. }
  assert (Mu : forall ph i s, y_u (ym ph) i s = mix lam (y_u (y ph) i s) (y_u (y' ph) i s)).
  { intros ph i s. unfold ym, y, y', user_traj; cbn [y_u]. rewrite (nth_mixl lam z z' _ Hzz). apply mix_div. }
  assert (Ma : forall ph i, y_a (ym ph) i = mix lam (y_a (y ph) i) (y_a (y' ph) i)).
  { intros ph i. unfold ym, y, y', user_traj; cbn [y_a]. rewrite (nth_mixl lam z z' _ Hzz). apply mix_div. }
  clearbody y y' ym. apply Hsm. split; [|split].
  - intros ph Hph. destruct (Bm ph Hph) as (B1 & B2 & B3 & B4 & B5). split; [|split; [|split; [exact B3|split; [exact B4|]]]].
    + intros i s Hi Hs. destruct (Nat.eqb ph 0 && Nat.eqb i 0) eqn:E0.
      * rewrite Mx. pose proof (proj1 (B ph Hph) i s Hi Hs) as X. pose proof (proj1 (B' ph Hph) i s Hi Hs) as X'. cbv beta in X, X'. rewrite E0 in X, X'.
        pose proof (f_equal (fun r => nth s r 0) (sk_x00 _ _ _ _ _ Hsk)) as X0. cbv beta in X0.
        assert (E1 : y_x (y' ph) i s = y_x (y ph) i s) by (exact (eq_trans X' (eq_trans X0 (eq_sym X)))). rewrite E1, mix_same. exact X.
      * rewrite Mx. exact (SX ph Hph i Hi s Hs E0).
    + intros i s Hi Hs. rewrite Mu. exact (SU ph Hph i Hi s Hs).
    + intros i Hi. rewrite Ma. exact (SA ph Hph i Hi).
  - intros ph Hph. destruct (Pm ph Hph) as (P1 & P2 & _ & _ & P5 & P6). split; [exact P1|]. split; [exact P2|]. split; [|split; [|split; [exact P5|exact P6]]].
    + intros Hd i k j c0 q Ho Hc0 Hq. pose proof Ho as (d & Eq & Hj & Hkj & _). assert (Hk : (k < length orders)%nat) by (exact (nth_error_lt _ _ _ Eq)).
      assert (Hj2 : (j < S (nth k orders 0))%nat) by (rewrite (nth_error_nth orders _ 0%nat Eq); lia).
      destruct (SD ph Hph Hd k Hk j Hj2 c0 Hc0 Hkj) as (q1 & q2 & Hq1 & Hq2 & W).
      pose proof (poly_mix (mk l) rs lam Hg Hrs k d (fun i => y_u (y ph) i c0) (fun i => y_u (y' ph) i c0) (fun i => y_u (ym ph) i c0) q q1 q2 Eq (fun i => Mu ph i c0) Hq Hq1 Hq2) as E.
      rewrite (mix_Derive lam q q1 q2 _ E).
      rewrite <- mix_scal_l in W. exact W.
    + intros Hd k d j c0 q Eq Hj Hc0 Hq. assert (Hk : (k < length orders)%nat) by (exact (nth_error_lt _ _ _ Eq)).
      assert (Hj2 : (j < nth k orders 0)%nat) by (rewrite (nth_error_nth orders _ 0%nat Eq); exact Hj).
      destruct (SM ph Hph Hd k Hk j Hj2 c0 Hc0) as (q1 & q2 & Hq1 & Hq2 & W).
      pose proof (poly_mix (mk l) rs lam Hg Hrs k d (fun i => y_u (y ph) i c0) (fun i => y_u (y' ph) i c0) (fun i => y_u (ym ph) i c0) q q1 q2 Eq (fun i => Mu ph i c0) Hq Hq1 Hq2) as E.
      rewrite E. exact W.
  - intros Hn k i j Ek. destruct (Lm Hn k i j Ek) as (_ & A2 & A3). split; [|split; [exact A2|exact A3]].
    intros s Hs. pose proof (SL k (nth_error_lt _ _ _ Ek) s Hs Hn) as W. rewrite (nth_error_nth (o_links o) _ (0%nat, 0%nat) Ek) in W. rewrite !Mx.
    rewrite mix_sub in W. exact W.
Qed.
Theorem slack_thm (z : list R) rs n' : length z = (o_nph o * nvars (mk l))%nat -> mapM (c_roots cf) orders = Ok rs -> slack (mk l) rs l l' (user_traj (mk l) z) ->
  best (mk l) p z -> nlp_at (mk l') z p = Ok n' -> feasible n' -> best (mk l') p z.
Proof.
  intros Hz Er Hsk (n & En & F & B) En' F'. exists n'. split; [exact En'|]. split; [exact F'|]. intros z' m' Lz Em' Fm'.
  assert (Hz' : length z' = (o_nph o * nvars (mk l))%nat) by (exact (eq_trans Lz Hz)).
  assert (Ef : n_f n' = n_f n).
  { destruct (value_thm o l l' K orders cf npath nterm p Hmp Hok Hok' Hsc Hp Hcv Hft 0 ltac:(lra) z z Hz Hz) as (a & b & c & Ea & Eb & _).
    assert (Hlp : length p = (o_nph o * K)%nat) by (destruct Hp as [L _]; rewrite L; lia).
    pose proof (mpo_with o l K orders cf Hmp) as Hm. fold mk in Hm. pose proof (scales_with o Hsc) as Hs0.
    destruct (nlp_like (mk l) npath nterm z p (user_traj (mk l) z) (Build_input_ok _ _ _ _ _ (Hm l) Hok (Hs0 l) Hz Hlp) (fun ph _ => same_refl _ _)) as (rs0 & n0 & Er0 & En0 & _ & _ & C0).
    destruct (nlp_like (mk l') npath nterm z p (user_traj (mk l') z) (Build_input_ok _ _ _ _ _ (Hm l') Hok' (Hs0 l') Hz Hlp) (fun ph _ => same_refl _ _)) as (rs1 & n1 & Er1 & En1 & _ & _ & C1).
    assert (rs0 = rs) as -> by (pose proof (eq_trans (eq_sym Er0) Er) as X; injection X as X; exact X).
    assert (rs1 = rs) as -> by (pose proof (eq_trans (eq_sym Er1) Er) as X; injection X as X; exact X).
    assert (n0 = n) as -> by (pose proof (eq_trans (eq_sym En0) En) as X; injection X as X; exact X).
    assert (n1 = n') as -> by (pose proof (eq_trans (eq_sym En1) En') as X; injection X as X; exact X).
    exact (eq_trans C1 (eq_sym C0)). }
  destruct (slack_step z z' rs n m' Hz Hz' Er Hsk En Em' F Fm') as (e & He & H). destruct (H e ltac:(lra)) as (m & Em & Fm & Cm).
  assert (Lm : length (mixl e z z') = length z) by (apply length_mixl; exact (eq_sym Lz)).
  pose proof (B (mixl e z z') m Lm Em Fm) as X. rewrite Ef. pose proof (Rle_trans _ _ _ X Cm) as Y. unfold mix in Y. clear - Y He. nred. nra.
Qed.
End Slack.
