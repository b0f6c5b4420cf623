(** The optimal cost of convex problems is a convex function of initial states and bounds (property C73). *)
From Coq Require Import Reals Lia Lra Psatz Bool Arith String.
From Coquelicot Require Import Coquelicot.
From Coq Require Import List.
From Verif Require Import Num PyList Mat Poly Roots Colloc Ocp Transcribe Spec SpecOcp SpecHadapt SpecExact SpecConvex SpecCoord SpecValue NumR ListR PolyR CompR MeshR BlockR DiscR NlpR NlpThm CostR ScaleR ExactR WeightR ConvexR TransR UniqueR.
Import ListNotations.
Open Scope R_scope.

(** ** bounds between bounds *)
Lemma above_mix lam a b x y : 0 <= lam <= 1 -> above a x -> above b y -> above (mixe lam a b) (mix lam x y).
Proof. intros H. destruct a, b; cbn; try tauto. unfold mix. intros; nra. Qed.
Lemma below_mix lam a b x y : 0 <= lam <= 1 -> below a x -> below b y -> below (mixe lam a b) (mix lam x y).
Proof. intros H. destruct a, b; cbn; try tauto. unfold mix. intros; nra. Qed.
Lemma mix_inside lam a b c d x y : 0 <= lam <= 1 -> within a b x -> within c d y -> within (mixe lam a c) (mixe lam b d) (mix lam x y).
Proof. intros H [A B] [C D]. split; [apply above_mix|apply below_mix]; auto. Qed.
Lemma ext_le_mix lam a b c d : 0 <= lam <= 1 -> ext_le a b -> ext_le c d -> ext_le (mixe lam a c) (mixe lam b d).
Proof. intros H. destruct a, b, c, d; cbn; try tauto. unfold mix. intros; nra. Qed.

Lemma length_zip {A} (f : A -> A -> A) l m : length l = length m -> length (zip f l m) = length l.
Proof. intros H. unfold zip. rewrite map_length, combine_length. lia. Qed.
Lemma nth_zip {A} (f : A -> A -> A) d l m i : length l = length m -> f d d = d -> nth i (zip f l m) d = f (nth i l d) (nth i m d).
Proof.
  intros H E. revert m i H. induction l as [|a l IH]; intros [|b m] i H; try discriminate; [destruct i; cbn; auto|].
  destruct i as [|i]; [reflexivity|]. cbn. apply IH. cbn in H. lia.
Qed.
Lemma in_zip {A} (f : A -> A -> A) l m x : In x (zip f l m) -> exists a b, In a l /\ In b m /\ x = f a b.
Proof. unfold zip. intros H. apply in_map_iff in H. destruct H as ([a b] & <- & H). exists a, b. split; [exact (in_combine_l _ _ _ _ H)|]. split; [exact (in_combine_r _ _ _ _ H)|reflexivity]. Qed.
Lemma shaped_zip {T} (f : list T -> list T -> list T) l m r c : (forall a b, length a = c -> length b = c -> length (f a b) = c) -> shaped l r c -> shaped m r c -> shaped (zip f l m) r c.
Proof.
  intros Hf [A B] [C D]. split; [rewrite length_zip; [exact A|lia]|]. intros row H. destruct (in_zip _ _ _ _ H) as (a & b & Ha & Hb & ->). apply Hf; auto.
Qed.
Lemma shaped_mixb lam l m r c : shaped l r c -> shaped m r c -> shaped (zip (zip (mixe lam)) l m) r c.
Proof. apply shaped_zip. intros a b Ha Hb. rewrite length_zip; lia. Qed.
Lemma shaped_mixx lam l m r c : shaped l r c -> shaped m r c -> shaped (zip (mixl lam) l m) r c.
Proof. apply shaped_zip. intros a b Ha Hb. rewrite length_mixl; lia. Qed.
Lemma row_len {T} (l : list (list T)) r c i : shaped l r c -> (i < r)%nat -> length (nth i l []) = c.
Proof. intros [A B] H. apply B, nth_In. lia. Qed.
Lemma nth_mixb lam l m r c i j : shaped l r c -> shaped m r c -> nth j (nth i (zip (zip (mixe lam)) l m) []) NaN = mixe lam (nth j (nth i l []) NaN) (nth j (nth i m []) NaN).
Proof.
  intros Hl Hm. rewrite (nth_zip _ []); [|destruct Hl, Hm; lia|reflexivity].
  destruct (Nat.lt_ge_cases i r) as [Hi|Hi].
  - apply nth_zip; [rewrite (row_len l r c), (row_len m r c) by assumption; reflexivity|reflexivity].
  - rewrite !(nth_overflow _ []) by (destruct Hl, Hm; lia). cbn. destruct j; reflexivity.
Qed.
Lemma nth_mixx lam l m r c i j : shaped l r c -> shaped m r c -> nth j (nth i (zip (mixl lam) l m) []) 0 = mix lam (nth j (nth i l []) 0) (nth j (nth i m []) 0).
Proof.
  intros Hl Hm. rewrite (nth_zip _ []); [|destruct Hl, Hm; lia|reflexivity].
  destruct (Nat.lt_ge_cases i r) as [Hi|Hi].
  - apply nth_mixl. rewrite (row_len l r c), (row_len m r c) by assumption. reflexivity.
  - rewrite !(nth_overflow _ []) by (destruct Hl, Hm; lia). cbn. destruct j; unfold mix; ring.
Qed.
Lemma ordered_mix lam lo hi lo' hi' r c : 0 <= lam <= 1 -> shaped lo r c -> shaped hi r c -> shaped lo' r c -> shaped hi' r c ->
  ordered lo hi r c -> ordered lo' hi' r c -> ordered (zip (zip (mixe lam)) lo lo') (zip (zip (mixe lam)) hi hi') r c.
Proof. intros H S1 S2 S3 S4 O1 O2 i j Hi Hj. rewrite (nth_mixb lam lo lo' r c), (nth_mixb lam hi hi' r c) by assumption. apply ext_le_mix; auto. Qed.

Section Value.
Variables (o : ocp Rnum) (l l' : limits) (K : nat) (orders : list nat) (cf : ccfg Rnum) (npath nterm : nat -> option nat) (p : list R).
Let mk (k : limits) : mpo Rnum := Mpo (with_limits o k) K orders cf.
Hypothesis Hmp : mpo_ok (mk l).
Hypothesis Hok : ocp_ok (with_limits o l) npath nterm.
Hypothesis Hok' : ocp_ok (with_limits o l') npath nterm.
Hypothesis Hsc : scales_pos o.
Hypothesis Hp : widths_ok K (o_nph o) p.
Hypothesis Hcv : forall ph, (ph < o_nph o)%nat -> convex_phase o ph.
Hypothesis Hft : forall ph, (ph < o_nph o)%nat -> fixed_times o ph.
Variable lam : R.
Hypothesis Hlam : 0 <= lam <= 1.
Let lm : limits := mix_limits lam l l'.

Lemma mpo_with k : mpo_ok (mk k).
Proof. destruct Hmp as [A B C D]. constructor; assumption. Qed.
Lemma scales_with k : scales_pos (with_limits o k).
Proof. destruct Hsc as [A B C D]. constructor; assumption. Qed.
Lemma convex_with k ph : (ph < o_nph o)%nat -> convex_phase (with_limits o k) ph.
Proof. intros H. destruct (Hcv ph H) as [A B C D E]. constructor; assumption. Qed.

Lemma mix_ok : ocp_ok (with_limits o lm) npath nterm.
Proof.
  pose proof (ok_shapes _ _ _ Hok) as S. pose proof (ok_shapes _ _ _ Hok') as S'.
  constructor.
  - constructor; try exact (sh_nph _ S); try exact (sh_dyn _ S); try exact (sh_run _ S); try exact (sh_mayer _ S); try exact (sh_path _ S); try exact (sh_term _ S);
      try exact (sh_sx _ S); try exact (sh_su _ S); try exact (sh_sa _ S); try exact (sh_xf0 _ S); try exact (sh_u00 _ S); try exact (sh_uf0 _ S); try exact (sh_a0 _ S);
      try exact (sh_t00 _ S); try exact (sh_tf0 _ S); try exact (sh_lbt0 _ S); try exact (sh_ubt0 _ S); try exact (sh_lbtf _ S); try exact (sh_ubtf _ S); try exact (sh_t0 _ S); try exact (sh_tf _ S).
    + exact (shaped_mixx lam _ _ _ _ (sh_x00 _ S) (sh_x00 _ S')).
    + exact (shaped_mixb lam _ _ _ _ (sh_lbx _ S) (sh_lbx _ S')).
    + exact (shaped_mixb lam _ _ _ _ (sh_ubx _ S) (sh_ubx _ S')).
    + exact (shaped_mixb lam _ _ _ _ (sh_lbu _ S) (sh_lbu _ S')).
    + exact (shaped_mixb lam _ _ _ _ (sh_ubu _ S) (sh_ubu _ S')).
    + exact (shaped_mixb lam _ _ _ _ (sh_lba _ S) (sh_lba _ S')).
    + exact (shaped_mixb lam _ _ _ _ (sh_uba _ S) (sh_uba _ S')).
    + destruct (sh_lbe _ S) as [A B], (sh_lbe _ S') as [A' B']. split; [exact (eq_trans (length_zip (zip (mixe lam)) _ _ (eq_trans A (eq_sym A'))) A)|]. intros H. exact (shaped_mixb lam _ _ _ _ (B H) (B' H)).
    + destruct (sh_ube _ S) as [A B], (sh_ube _ S') as [A' B']. split; [exact (eq_trans (length_zip (zip (mixe lam)) _ _ (eq_trans A (eq_sym A'))) A)|]. intros H. exact (shaped_mixb lam _ _ _ _ (B H) (B' H)).
    + exact (ordered_mix lam _ _ _ _ _ _ Hlam (sh_lbx _ S) (sh_ubx _ S) (sh_lbx _ S') (sh_ubx _ S') (sh_x _ S) (sh_x _ S')).
    + exact (ordered_mix lam _ _ _ _ _ _ Hlam (sh_lbu _ S) (sh_ubu _ S) (sh_lbu _ S') (sh_ubu _ S') (sh_u _ S) (sh_u _ S')).
    + exact (ordered_mix lam _ _ _ _ _ _ Hlam (sh_lba _ S) (sh_uba _ S) (sh_lba _ S') (sh_uba _ S') (sh_a _ S) (sh_a _ S')).
    + destruct (Nat.lt_ge_cases 1 (o_nph o)) as [H|H].
      * exact (ordered_mix lam _ _ _ _ _ _ Hlam (proj2 (sh_lbe _ S) H) (proj2 (sh_ube _ S) H) (proj2 (sh_lbe _ S') H) (proj2 (sh_ube _ S') H) (sh_e _ S) (sh_e _ S')).
      * intros i j Hi. cbn in Hi. lia.
  - exact (ok_nx _ _ _ Hok).
  - exact (ok_dyn _ _ _ Hok).
  - exact (ok_run _ _ _ Hok).
  - exact (ok_mayer _ _ _ Hok).
  - exact (ok_path _ _ _ Hok).
  - exact (ok_term _ _ _ Hok).
  - exact (ok_diff_u _ _ _ Hok).
  - exact (eq_trans (length_zip (mixe lam) _ _ (eq_trans (ok_lbdu _ _ _ Hok) (eq_sym (ok_lbdu _ _ _ Hok')))) (ok_lbdu _ _ _ Hok)).
  - exact (eq_trans (length_zip (mixe lam) _ _ (eq_trans (ok_ubdu _ _ _ Hok) (eq_sym (ok_ubdu _ _ _ Hok')))) (ok_ubdu _ _ _ Hok)).
  - exact (ok_midu _ _ _ Hok).
  - exact (ok_ducont _ _ _ Hok).
  - exact (ok_nu _ _ _ Hok).
  - exact (ok_links _ _ _ Hok).
  - exact (ok_links_len _ _ _ Hok).
  - exact (ok_links_some _ _ _ Hok).
Qed.

Lemma bnd_mix ph i (f : limits -> list (list (ext R))) c : f lm = zip (zip (mixe lam)) (f l) (f l') -> shaped (f l) (o_nph o) c -> shaped (f l') (o_nph o) c ->
  bnd ph (f lm) i = mixe lam (bnd ph (f l) i) (bnd ph (f l') i).
Proof. intros E A B. unfold bnd. rewrite E. exact (nth_mixb lam _ _ _ _ ph i A B). Qed.

Section Phase.
Variables (ph : nat) (rs : list (list R)) (y y' ym : utraj).
Hypothesis Hph : (ph < o_nph o)%nat.
Hypothesis Mx : forall i s, y_x ym i s = mix lam (y_x y i s) (y_x y' i s).
Hypothesis Mu : forall i c, y_u ym i c = mix lam (y_u y i c) (y_u y' i c).
Hypothesis Ma : forall i, y_a ym i = mix lam (y_a y i) (y_a y' i).
Hypothesis T0m : y_t0 ym = y_t0 y.
Hypothesis T1m : y_tf ym = y_tf y.
Hypothesis Hgood : forall k q r, nth_error orders k = Some q -> nth_error rs k = Some r -> good_nodes (cf_tau0 cf) (cf_tau1 cf) q r.
Hypothesis Hrs : length rs = length orders.
Lemma vb_bounds : bounds_ok (mk l) ph y -> bounds_ok (mk l') ph y' -> bounds_ok (mk lm) ph ym.
Proof.
  pose proof (ok_shapes _ _ _ Hok) as S. pose proof (ok_shapes _ _ _ Hok') as S'.
  intros (A & B & C & D & E) (A' & B' & C' & D' & E'). split; [|split; [|split; [|split]]].
  - intros i s Hi Hs. specialize (A i s Hi Hs). specialize (A' i s Hi Hs). rewrite Mx. destruct (Nat.eqb ph 0 && Nat.eqb i 0).
    + rewrite A, A'. symmetry. exact (nth_mixx lam _ _ _ _ 0 s (sh_x00 _ S) (sh_x00 _ S')).
    + cbn [mk mp_ocp with_limits o_lbx o_ubx]. rewrite (bnd_mix ph s l_lbx (o_nx o) eq_refl (sh_lbx _ S) (sh_lbx _ S')), (bnd_mix ph s l_ubx (o_nx o) eq_refl (sh_ubx _ S) (sh_ubx _ S')). apply mix_inside; auto.
  - intros i c Hi Hc. rewrite Mu. cbn [mk mp_ocp with_limits o_lbu o_ubu]. rewrite (bnd_mix ph c l_lbu (o_nu o) eq_refl (sh_lbu _ S) (sh_lbu _ S')), (bnd_mix ph c l_ubu (o_nu o) eq_refl (sh_ubu _ S) (sh_ubu _ S')). apply mix_inside; [exact Hlam|exact (B i c Hi Hc)|exact (B' i c Hi Hc)].
  - rewrite T0m. exact C.
  - rewrite T1m. exact D.
  - intros i Hi. rewrite Ma. cbn [mk mp_ocp with_limits o_lba o_uba]. rewrite (bnd_mix ph i l_lba (o_na o) eq_refl (sh_lba _ S) (sh_lba _ S')), (bnd_mix ph i l_uba (o_na o) eq_refl (sh_uba _ S) (sh_uba _ S')). apply mix_inside; [exact Hlam|exact (E i Hi)|exact (E' i Hi)].
Qed.
Lemma vb_slope : slope_ok (mk l) rs ph y -> slope_ok (mk l') rs ph y' -> slope_ok (mk lm) rs ph ym.
Proof.
  intros H H' Hd i k j q c Ho Hq Hc. pose proof Ho as (d & Eq & _).
  destruct (seg_polys (mk l) rs Hgood Hrs k d (fun i => y_u y i q) Eq) as (c1 & Hc1). destruct (seg_polys (mk l) rs Hgood Hrs k d (fun i => y_u y' i q) Eq) as (c2 & Hc2).
  pose proof (poly_mix (mk l) rs lam Hgood Hrs k d (fun i => y_u y i q) (fun i => y_u y' i q) (fun i => y_u ym i q) c c1 c2 Eq (fun i => Mu i q) Hc Hc1 Hc2) as E.
  rewrite (mix_Derive lam c c1 c2 _ E). cbn [mk mp_ocp with_limits o_lbdu o_ubdu lm mix_limits l_lbdu l_ubdu].
  rewrite !(nth_zip (mixe lam) NaN); [|exact (eq_trans (ok_ubdu _ _ _ Hok) (eq_sym (ok_ubdu _ _ _ Hok')))|reflexivity|exact (eq_trans (ok_lbdu _ _ _ Hok) (eq_sym (ok_lbdu _ _ _ Hok')))|reflexivity].
  pose proof (mix_inside lam _ _ _ _ _ _ Hlam (H Hd i k j q c1 Ho Hq Hc1) (H' Hd i k j q c2 Ho Hq Hc2)) as W.
  match goal with |- within _ _ ?v => match type of W with within _ _ ?u => replace v with u; [exact W|unfold mix; cbn [mk mp_ocp with_limits o_scale_u]; ring] end end.
Qed.
Lemma vb_midu : midu_ok (mk l) rs ph y -> midu_ok (mk l') rs ph y' -> midu_ok (mk lm) rs ph ym.
Proof.
  pose proof (ok_shapes _ _ _ Hok) as S. pose proof (ok_shapes _ _ _ Hok') as S'.
  intros H H' Hd k d j q c Eq Hj Hq Hc.
  destruct (seg_polys (mk l) rs Hgood Hrs k d (fun i => y_u y i q) Eq) as (c1 & Hc1). destruct (seg_polys (mk l) rs Hgood Hrs k d (fun i => y_u y' i q) Eq) as (c2 & Hc2).
  pose proof (poly_mix (mk l) rs lam Hgood Hrs k d (fun i => y_u y i q) (fun i => y_u y' i q) (fun i => y_u ym i q) c c1 c2 Eq (fun i => Mu i q) Hc Hc1 Hc2) as E.
  rewrite E. cbn [mk mp_ocp with_limits o_lbu o_ubu]. rewrite (bnd_mix ph q l_lbu (o_nu o) eq_refl (sh_lbu _ S) (sh_lbu _ S')), (bnd_mix ph q l_ubu (o_nu o) eq_refl (sh_ubu _ S) (sh_ubu _ S')).
  apply mix_inside; [exact Hlam|exact (H Hd k d j q c1 Eq Hj Hq Hc1)|exact (H' Hd k d j q c2 Eq Hj Hq Hc2)].
Qed.
End Phase.

Theorem value_thm (z z' : list R) : length z = (o_nph o * nvars (mk l))%nat -> length z' = (o_nph o * nvars (mk l))%nat ->
  exists n n' m, nlp_at (mk l) z p = Ok n /\ nlp_at (mk l') z' p = Ok n' /\ nlp_at (mk lm) (mixl lam z z') p = Ok m /\
    (feasible n -> feasible n' -> feasible m /\ n_f m <= mix lam (n_f n) (n_f n')).
Proof.
  intros Hz Hz'. assert (Hlp : length p = (o_nph o * K)%nat) by (destruct Hp as [L _]; rewrite L; lia).
  assert (Hzz : length z = length z') by (exact (eq_trans Hz (eq_sym Hz'))).
  assert (Hzm : length (mixl lam z z') = (o_nph o * nvars (mk l))%nat) by (rewrite (length_mixl lam z z' Hzz); exact Hz).
  destruct (nlp_at_ok (mk l) (mpo_with l) npath nterm Hok (scales_with l) z p Hz Hlp) as (rs & n0 & Er & _ & Hrs & Hg & _).
  destruct (nlp_like (mk l) npath nterm z p (user_traj (mk l) z) (Build_input_ok _ _ _ _ _ (mpo_with l) Hok (scales_with l) Hz Hlp) (fun ph _ => same_refl _ _)) as (rs0 & n & Er0 & En & _ & Hs & Hf).
  destruct (nlp_like (mk l') npath nterm z' p (user_traj (mk l') z') (Build_input_ok _ _ _ _ _ (mpo_with l') Hok' (scales_with l') Hz' Hlp) (fun ph _ => same_refl _ _)) as (rs1 & n' & Er1 & En' & _ & Hs' & Hf').
  destruct (nlp_like (mk lm) npath nterm (mixl lam z z') p (user_traj (mk lm) (mixl lam z z')) (Build_input_ok _ _ _ _ _ (mpo_with lm) mix_ok (scales_with lm) Hzm Hlp) (fun ph _ => same_refl _ _)) as (rs2 & m & Er2 & Em & _ & Hsm & Hfm).
  assert (rs0 = rs) as -> by (pose proof (eq_trans (eq_sym Er0) Er) as X; injection X as X; exact X).
  assert (rs1 = rs) as -> by (pose proof (eq_trans (eq_sym Er1) Er) as X; injection X as X; exact X).
  assert (rs2 = rs) as -> by (pose proof (eq_trans (eq_sym Er2) Er) as X; injection X as X; exact X).
  exists n, n', m. split; [exact En|]. split; [exact En'|]. split; [exact Em|]. intros F F'.
  destruct (proj1 Hs F) as (B & P & L). destruct (proj1 Hs' F') as (B' & P' & L'). clear Hs Hs' F F'.
  set (y := user_traj (mk l) z) in *. set (y' := user_traj (mk l') z') in *. set (ym := user_traj (mk lm) (mixl lam z z')) in *.
  assert (Mx : forall ph i s, y_x (ym ph) i s = mix lam (y_x (y ph) i s) (y_x (y' ph) i s)).
  { intros ph i s. unfold ym, y, y', user_traj; cbn [y_x]. rewrite (nth_mixl lam z z' _ Hzz). apply mix_div. }
  assert (Mu : forall ph i s, y_u (ym ph) i s = mix lam (y_u (y ph) i s) (y_u (y' ph) i s)).
  { intros ph i s. unfold ym, y, y', user_traj; cbn [y_u]. rewrite (nth_mixl lam z z' _ Hzz). apply mix_div. }
  assert (Ma : forall ph i, y_a (ym ph) i = mix lam (y_a (y ph) i) (y_a (y' ph) i)).
  { intros ph i. unfold ym, y, y', user_traj; cbn [y_a]. rewrite (nth_mixl lam z z' _ Hzz). apply mix_div. }
  assert (M0 : forall ph, y_t0 (ym ph) = mix lam (y_t0 (y ph)) (y_t0 (y' ph))).
  { intros ph. unfold ym, y, y', user_traj; cbn [y_t0]. rewrite (nth_mixl lam z z' _ Hzz). apply mix_div. }
  assert (M1 : forall ph, y_tf (ym ph) = mix lam (y_tf (y ph)) (y_tf (y' ph))).
  { intros ph. unfold ym, y, y', user_traj; cbn [y_tf]. rewrite (nth_mixl lam z z' _ Hzz). apply mix_div. }
  clearbody y y' ym.
  assert (HT : forall ph, (ph < o_nph o)%nat -> y_t0 (y' ph) = y_t0 (y ph) /\ y_tf (y' ph) = y_tf (y ph) /\ y_t0 (ym ph) = y_t0 (y ph) /\ y_tf (ym ph) = y_tf (y ph) /\ y_t0 (y ph) <= y_tf (y ph)).
  { intros ph Hph. destruct (fixed_eq (mk l) ph _ (Hft ph Hph) (B ph Hph)) as (a & b & Hab & E1 & E2 & E3 & E4). destruct (fixed_eq (mk l') ph _ (Hft ph Hph) (B' ph Hph)) as (a' & b' & _ & E1' & E2' & E3' & E4').
    assert (a' = a) as -> by (pose proof (eq_trans (eq_sym E3') E3) as X; injection X as X; exact X). assert (b' = b) as -> by (pose proof (eq_trans (eq_sym E4') E4) as X; injection X as X; exact X).
    rewrite M0, M1, E1, E1', E2, E2', !mix_same. auto. }
  split.
  - apply Hsm. split; [|split].
    + intros ph Hph. destruct (HT ph Hph) as (H1 & H2 & H3 & H4 & _). apply (vb_bounds ph (y ph) (y' ph) (ym ph)); auto.
    + intros ph Hph. destruct (HT ph Hph) as (H1 & H2 & H3 & H4 & _). destruct (P ph Hph) as (P1 & P2 & P3 & P4 & P5 & P6). destruct (P' ph Hph) as (Q1 & Q2 & Q3 & Q4 & Q5 & Q6).
      split; [|split; [|split; [|split; [|split]]]].
      * apply (cv_dynamics (mk l) npath nterm rs (width (mk l) p ph) ph lam (y ph) (y' ph)); auto. exact (convex_with l ph Hph).
      * apply (cv_paths (mk l) npath nterm rs (width (mk l) p ph) ph lam (y ph) (y' ph)); auto. exact (convex_with l ph Hph).
      * apply (vb_slope ph rs (y ph) (y' ph)); auto.
      * apply (vb_midu ph rs (y ph) (y' ph)); auto.
      * apply (cv_ducont (mk l) rs ph lam (y ph) (y' ph)); auto.
      * apply (cv_terminal (mk l) npath nterm rs ph lam (y ph) (y' ph)); auto. exact (convex_with l ph Hph).
    + intros Hn k i j Ek. destruct (L Hn k i j Ek) as (A1 & A2 & A3). destruct (L' Hn k i j Ek) as (A1' & A2' & A3'). split; [|split].
      * intros s Hs. change (within (nth s (nth k (zip (zip (mixe lam)) (l_lbe l) (l_lbe l')) []) NaN) (nth s (nth k (zip (zip (mixe lam)) (l_ube l) (l_ube l')) []) NaN) (y_x (ym j) 0%nat s - y_x (ym i) (total_nodes orders - 1)%nat s)).
        destruct (sh_lbe _ (ok_shapes _ _ _ Hok)) as [_ S1]. destruct (sh_lbe _ (ok_shapes _ _ _ Hok')) as [_ S1']. destruct (sh_ube _ (ok_shapes _ _ _ Hok)) as [_ S2]. destruct (sh_ube _ (ok_shapes _ _ _ Hok')) as [_ S2'].
        rewrite (nth_mixb lam (l_lbe l) (l_lbe l') _ _ k s (S1 Hn) (S1' Hn)), (nth_mixb lam (l_ube l) (l_ube l') _ _ k s (S2 Hn) (S2' Hn)). rewrite !Mx.
        pose proof (mix_inside lam _ _ _ _ _ _ Hlam (A1 s Hs) (A1' s Hs)) as X.
        match goal with |- within _ _ ?v => match type of X with within _ _ ?u => replace v with u; [exact X|unfold mix; cbn [mk mp_orders]; ring] end end.
      * intros c Hc. rewrite !Mu. cbn [mk mp_orders]. rewrite (A2 c Hc : y_u (y j) 0 c = y_u (y i) (total_nodes orders - 1) c), (A2' c Hc : y_u (y' j) 0 c = y_u (y' i) (total_nodes orders - 1) c). reflexivity.
      * rewrite M0, M1, A3, A3'. reflexivity.
  - rewrite Hf, Hf', Hfm. change (o_nph (mp_ocp (mk l))) with (o_nph o). change (o_nph (mp_ocp (mk l'))) with (o_nph o). change (o_nph (mp_ocp (mk lm))) with (o_nph o).
    unfold mix. rewrite <- !Rsum_scal, <- Rsum_plus. apply Rsum_le. intros ph Hph. destruct (HT ph Hph) as (H1 & H2 & H3 & H4 & H5).
    change (node_cost (mk lm) rs (width (mk lm) p ph) ph (ym ph)) with (node_cost (mk l) rs (width (mk l) p ph) ph (ym ph)).
    change (node_cost (mk l') rs (width (mk l') p ph) ph (y' ph)) with (node_cost (mk l) rs (width (mk l) p ph) ph (y' ph)).
    set (w := width (mk l) p ph) in *.
    pose proof (mayer_mix (mk l) npath nterm ph lam (y ph) (y' ph) (ym ph) Hok (convex_with l ph Hph) Hlam (Mx ph) (Ma ph) H1 H2 H3 H4 (total_nodes orders - 1)) as MM.
    unfold node_cost.
    assert (SS : Rsum (length orders) (seg_cost (mk l) rs w ph (ym ph) (wts cf orders)) <=
      (1 - lam) * Rsum (length orders) (seg_cost (mk l) rs w ph (y ph) (wts cf orders)) + lam * Rsum (length orders) (seg_cost (mk l) rs w ph (y' ph) (wts cf orders))).
    { rewrite <- !Rsum_scal, <- Rsum_plus. apply Rsum_le. intros k Hk. unfold seg_cost.
      destruct (h_same (mk l) w (y ph) (y' ph) (ym ph) H1 H2 H3 H4 k) as [E1 E2]. rewrite E1, E2.
      destruct (part_widths (mk l) p (mpo_with l) Hp ph Hph) as [W1 _].
      assert (Hh : 0 <= seg_h cf w (y ph) k).
      { unfold seg_h. pose proof (co_taus _ (mo_cfg _ Hmp)) as Ht. cbn [mk mp_cf] in Ht. specialize (W1 k Hk). apply Rmult_le_pos; [apply Rmult_le_pos; unfold w; lra|apply Rlt_le, Rinv_0_lt_compat; lra]. }
      cbn [mk mp_cf mp_orders].
      match goal with |- ?h * ?a <= (1 - lam) * (?h * ?b) + lam * (?h * ?c) => replace ((1 - lam) * (h * b) + lam * (h * c)) with (h * ((1 - lam) * b + lam * c)) by ring end.
      apply Rmult_le_compat_l; [exact Hh|]. rewrite <- !Rsum_scal, <- Rsum_plus. apply Rsum_le. intros j Hj.
      pose proof (omega_nonneg (mk l) (mpo_with l) k j Hk) as Ho. cbn [mk mp_cf mp_orders] in Ho.
      pose proof (run_mix (mk l) npath nterm ph lam (y ph) (y' ph) (ym ph) Hok (convex_with l ph Hph) Hlam (Mx ph) (Mu ph) (Ma ph) (offset orders k + j) (seg_time cf w (y ph) k (nth j (nth k rs []) 0))) as RM.
      destruct (t_same (mk l) w (y ph) (y' ph) (ym ph) H1 H2 H3 H4 k (nth j (nth k rs []) 0)) as [E3 E4]. cbn [mk mp_cf] in E3, E4.
      pose proof (f_equal (run_val (mp_ocp (mk l)) ph (y' ph) (offset orders k + j)) E3 : run_at (mk l) rs w ph (y' ph) k j = _) as R3.
      pose proof (f_equal (run_val (mp_ocp (mk l)) ph (ym ph) (offset orders k + j)) E4 : run_at (mk l) rs w ph (ym ph) k j = _) as R4.
      rewrite <- R3, <- R4 in RM. change (run_val (mp_ocp (mk l)) ph (y ph) (offset orders k + j) (seg_time cf w (y ph) k (nth j (nth k rs []) 0))) with (run_at (mk l) rs w ph (y ph) k j) in RM. unfold mix in RM.
      set (om := omega (wts cf orders) k j) in *. clearbody om. clear - Ho RM.
      match goal with |- om * ?a <= (1 - lam) * (om * ?b) + lam * (om * ?c) => replace ((1 - lam) * (om * b) + lam * (om * c)) with (om * ((1 - lam) * b + lam * c)) by ring end.
      apply Rmult_le_compat_l; [exact Ho|exact RM]. }
    unfold mix in MM. cbn [mk mp_cf mp_orders mp_ocp] in MM |- *. nra.
Qed.

(** the best costs *)
Theorem value_best (z z' zm : list R) n n' m : length z = (o_nph o * nvars (mk l))%nat -> length z' = (o_nph o * nvars (mk l))%nat -> length zm = (o_nph o * nvars (mk l))%nat ->
  best (mk l) p z -> best (mk l') p z' -> best (mk lm) p zm -> nlp_at (mk l) z p = Ok n -> nlp_at (mk l') z' p = Ok n' -> nlp_at (mk lm) zm p = Ok m ->
  n_f m <= mix lam (n_f n) (n_f n').
Proof.
  intros Hz Hz' Hzm (n1 & E1 & F1 & _) (n2 & E2 & F2 & _) (n3 & E3 & F3 & B3) En En' Em.
  assert (n1 = n) as -> by (pose proof (eq_trans (eq_sym E1) En) as X; injection X as X; exact X).
  assert (n2 = n') as -> by (pose proof (eq_trans (eq_sym E2) En') as X; injection X as X; exact X).
  assert (n3 = m) as -> by (pose proof (eq_trans (eq_sym E3) Em) as X; injection X as X; exact X).
  destruct (value_thm z z' Hz Hz') as (a & b & c & Ea & Eb & Ec & H).
  assert (a = n) as -> by (pose proof (eq_trans (eq_sym Ea) En) as X; injection X as X; exact X).
  assert (b = n') as -> by (pose proof (eq_trans (eq_sym Eb) En') as X; injection X as X; exact X).
  destruct (H F1 F2) as [Fc Hc]. eapply Rle_trans; [|exact Hc]. apply (B3 (mixl lam z z') c); auto. rewrite length_mixl by congruence. congruence.
Qed.
End Value.

(** ** the initial state alone *)
Lemma zip_same {A} (f : A -> A -> A) l : (forall a, f a a = a) -> zip f l l = l.
Proof. intros H. induction l as [|a l IH]; [reflexivity|]. unfold zip in *. cbn. rewrite H, IH. reflexivity. Qed.
Lemma mixe_same lam a : mixe lam a a = a.
Proof. destruct a; cbn; auto. rewrite mix_same. reflexivity. Qed.
Lemma mixl_same lam a : mixl lam a a = a.
Proof. induction a as [|x a IH]; [reflexivity|]. unfold mixl in *. cbn. rewrite mix_same. f_equal. exact IH. Qed.
Lemma start_mix o x x' lam : mix_limits lam (start_at o x) (start_at o x') = start_at o (mixl lam x x').
Proof.
  unfold mix_limits, start_at. cbn [l_x00 l_lbx l_ubx l_lbu l_ubu l_lba l_uba l_lbe l_ube l_lbdu l_ubdu].
  rewrite !(zip_same (zip (mixe lam))) by (intros a; apply zip_same, mixe_same). rewrite !(zip_same (mixe lam)) by (apply mixe_same).
  f_equal. change (zip (mixl lam) (x :: tl (o_x00 o)) (x' :: tl (o_x00 o))) with (mixl lam x x' :: zip (mixl lam) (tl (o_x00 o)) (tl (o_x00 o))).
  rewrite zip_same by (apply mixl_same). reflexivity.
Qed.
Lemma start_ok o x npath nterm : ocp_ok o npath nterm -> length x = o_nx o -> ocp_ok (with_limits o (start_at o x)) npath nterm.
Proof.
  intros H Lx. destruct H as [S]. constructor; try assumption. destruct S. constructor; try assumption.
  destruct sh_x00 as [A B]. split.
  - cbn. destruct (o_x00 o); cbn in *; lia.
  - intros r [<-|Hr]; [exact Lx|]. apply B. cbn in Hr. destruct (o_x00 o); [destruct Hr|right; exact Hr].
Qed.
Theorem value_start o K orders cf npath nterm (p : list R) : mpo_ok (Mpo o K orders cf) -> ocp_ok o npath nterm -> scales_pos o -> widths_ok K (o_nph o) p ->
  (forall ph, (ph < o_nph o)%nat -> convex_phase o ph) -> (forall ph, (ph < o_nph o)%nat -> fixed_times o ph) ->
  let mp x := Mpo (with_limits o (start_at o x)) K orders cf in
  forall lam (x x' : list R), 0 <= lam <= 1 -> length x = o_nx o -> length x' = o_nx o ->
  forall (z z' zm : list R) n n' m, length z = (o_nph o * nvars (Mpo o K orders cf))%nat -> length z' = (o_nph o * nvars (Mpo o K orders cf))%nat -> length zm = (o_nph o * nvars (Mpo o K orders cf))%nat ->
  best (mp x) p z -> best (mp x') p z' -> best (mp (mixl lam x x')) p zm ->
  nlp_at (mp x) z p = Ok n -> nlp_at (mp x') z' p = Ok n' -> nlp_at (mp (mixl lam x x')) zm p = Ok m ->
  n_f m <= mix lam (n_f n) (n_f n').
Proof.
  intros Hm Hok Hsc Hp Hcv Hft mp lam x x' Hlam Lx Lx' z z' zm n n' m Hz Hz' Hzm B B' Bm E E' Em.
  assert (Hm1 : mpo_ok (Mpo (with_limits o (start_at o x)) K orders cf)) by (destruct Hm; constructor; assumption).
  unfold mp in Bm, Em. rewrite <- start_mix in Bm, Em.
  exact (value_best o (start_at o x) (start_at o x') K orders cf npath nterm p Hm1 (start_ok o x npath nterm Hok Lx) (start_ok o x' npath nterm Hok Lx') Hsc Hp Hcv Hft lam Hlam z z' zm n n' m Hz Hz' Hzm B B' Bm E E' Em).
Qed.
