(** x' = u with a final cost: bounds that the solution 0 does not touch (examples for C74). *)
From Coq Require Import Reals Lia Lra Psatz Bool Arith String.
From Coquelicot Require Import Coquelicot.
From Coq Require Import List.
From Verif Require Import Num PyList Mat Poly Roots Colloc Ocp Transcribe Spec SpecOcp SpecHadapt SpecExact SpecConvex SpecCoord SpecValue SpecSlack NumR ListR PolyR CompR MeshR BlockR DiscR NlpR NlpThm CostR ScaleR ExactR WeightR ConvexR TransR ExOcp ExGlide ExTrack ExistR ExExist UniqueR ValueR SlackR.
Import ListNotations.
Open Scope R_scope.

Definition drift_limits (lo hi : ext R) : limits := limits_of (drift lo hi (fun _ => 0)).
Lemma drift_with lo hi lo' hi' g : with_limits (drift lo hi g) (drift_limits lo' hi') = drift lo' hi' g.
Proof. reflexivity. Qed.
Definition rest lo hi g (K : nat) : list R := pack (drift_mp lo hi g K) (fun _ => drifting K 0).
Lemma drift_slack a b lo' hi' g K rs : (1 <= K)%nat -> a < 0 -> 0 < b ->
  slack (drift_mp (Fin a) (Fin b) g K) rs (drift_limits (Fin a) (Fin b)) (drift_limits lo' hi') (user_traj (drift_mp (Fin a) (Fin b) g K) (rest (Fin a) (Fin b) g K)).
Proof.
  intros HK Ha Hb. assert (Har : around (Fin a) (Fin b)) by (split; right; eexists; split; [reflexivity|lra|reflexivity|lra]).
  pose proof (fun ph Hph => pack_traj (drift_mp (Fin a) (Fin b) g K) (fun _ => drifting K 0) ph (ok_shapes _ _ _ (drift_ok _ _ _ Har)) (drift_scales _ _ _) Hph) as HP.
  fold (rest (Fin a) (Fin b) g K) in HP. set (y := user_traj (drift_mp (Fin a) (Fin b) g K) (rest (Fin a) (Fin b) g K)) in *. clearbody y.
  constructor.
  - reflexivity.
  - intros ph i s Hph Hi Hs _. destruct (HP ph Hph) as (X & _). rewrite (X i s Hi Hs). cbn in Hph, Hs. assert (ph = 0)%nat as -> by lia. assert (s = 0)%nat as -> by lia.
    unfold drifting. cbn [y_x]. rewrite Rmult_0_l. split; right; cbn; lra.
  - intros ph i c Hph Hi Hc. destruct (HP ph Hph) as (_ & X & _). rewrite (X i c Hi Hc). cbn in Hph, Hc. assert (ph = 0)%nat as -> by lia. assert (c = 0)%nat as -> by lia.
    split; right; cbn; lra.
  - intros ph i _ Hi. cbn in Hi. lia.
  - intros ph i k j c q Hph Hd. cbn in Hph. assert (ph = 0)%nat as -> by lia. discriminate Hd.
  - intros ph k d j c q Hph Hd. cbn in Hph. assert (ph = 0)%nat as -> by lia. discriminate Hd.
  - intros k i j s Hk. cbn in Hk. destruct k; discriminate Hk.
Qed.
Lemma rest_best lo hi g K : (1 <= K)%nat -> around lo hi -> (forall v, within lo hi v -> g 0 <= g v) -> length (rest lo hi g K) = nvars (drift_mp lo hi g K) /\ best (drift_mp lo hi g K) (swing_p K) (rest lo hi g K).
Proof.
  intros HK Ha Hg. assert (H0 : within lo hi 0) by (destruct Ha as [[-> |(a & -> & La)] [-> |(b & -> & Lb)]]; split; cbn; auto; lra).
  destruct (drift_pack lo hi g K 0 HK Ha H0) as (n & Hz & En & F & C). split; [exact Hz|]. exists n. split; [exact En|]. split; [exact F|].
  intros z n1 L1 E1 F1. destruct (drift_value lo hi g K z n1 HK Ha (eq_trans L1 Hz) E1 F1) as (v & Hv & C1). rewrite C, C1. apply Hg. exact Hv.
Qed.
Definition square (v : R) : R := v * v.
Lemma drift_convex lo hi ph : (ph < 1)%nat -> convex_phase (drift lo hi square) ph.
Proof.
  intros Hph. assert (ph = 0)%nat as -> by lia. constructor.
  - intros f lam x x' u u' t a a' d d' Hf Hl Lx Lx' Lu Lu' _ _ E E'. cbn in Hf. injection Hf as <-. injection E as <-. injection E' as <-. cbn in Lu, Lu'.
    rewrite nth_mixl by (nred; lia). reflexivity.
  - intros f lam x x' u u' t a a' c c' m Hf Hl Lx Lx' Lu Lu' _ _ E. cbn in Hf. injection Hf as <-. discriminate E.
  - intros f lam x x' u u' t a a' l l' m Hf Hl Lx Lx' Lu Lu' _ _ E E' Em. cbn in Hf. injection Hf as <-. injection E as <-. injection E' as <-. injection Em as <-. unfold mix. lra.
  - intros f lam xf xf' tf x0 x0' t0 a a' c c' Hf Hl Lx Lx' Ly Ly' _ _ E. cbn in Hf. injection Hf as <-. discriminate E.
  - intros f lam xf xf' tf x0 x0' t0 a a' l l' m Hf Hl Lx Lx' Ly Ly' _ _ E E' Em. cbn in Hf. injection Hf as <-. injection E as <-. injection E' as <-. injection Em as <-. cbn in Lx, Lx'.
    rewrite !nth_mixl by (nred; lia). exact (mix_sq lam (nth 0 xf 0) (nth 0 xf' 0) Hl).
Qed.
Lemma drift_fixed lo hi g ph : (ph < 1)%nat -> fixed_times (drift lo hi g) ph.
Proof. intros Hph. assert (ph = 0)%nat as -> by lia. exists 0, 1. repeat split; cbn; auto; lra. Qed.

(** without a convex cost *)
Definition dip (v : R) : R := v * v - v * v * (v * v) / 2.
Lemma around1 a b : a <= 0 -> 0 <= b -> around (Fin a) (Fin b).
Proof. intros Ha Hb. split; right; eexists; split; [reflexivity|lra|reflexivity|lra]. Qed.
Theorem slack_nonconvex K : (1 <= K)%nat ->
  exists o l l' rs (z : list R) n', let mp k := Mpo (with_limits o k) K (repeat 1%nat K) (demo_cf "LGR") in
    mpo_ok (mp l) /\ ocp_ok (with_limits o l) (fun _ => None) (fun _ => None) /\ ocp_ok (with_limits o l') (fun _ => None) (fun _ => None) /\ scales_pos o /\
    widths_ok K (o_nph o) (swing_p K) /\ (forall ph, (ph < o_nph o)%nat -> fixed_times o ph) /\
    length z = (o_nph o * nvars (mp l))%nat /\ mapM (c_roots (demo_cf "LGR")) (repeat 1%nat K) = Ok rs /\ slack (mp l) rs l l' (user_traj (mp l) z) /\
    best (mp l) (swing_p K) z /\ nlp_at (mp l') z (swing_p K) = Ok n' /\ feasible n' /\ ~ best (mp l') (swing_p K) z.
Proof.
  intros HK. set (o := drift (Fin (-1)) (Fin 1) dip). set (l := drift_limits (Fin (-1)) (Fin 1)). set (l' := drift_limits (Fin (-2)) (Fin 2)).
  assert (A1 : around (Fin (-1)) (Fin 1)) by (apply around1; lra). assert (A2 : around (Fin (-2)) (Fin 2)) by (apply around1; lra).
  destruct (rest_best (Fin (-1)) (Fin 1) dip K HK A1) as [Hz B].
  { intros v [L U]. cbn in L, U. unfold dip. assert (0 <= v * v <= 1) by nra. set (w := v * v) in *. nra. }
  destruct (drift_pack (Fin (-2)) (Fin 2) dip K 0 HK A2 ltac:(split; cbn; lra)) as (n' & _ & En' & F' & C').
  destruct (drift_pack (Fin (-2)) (Fin 2) dip K 2 HK A2 ltac:(split; cbn; lra)) as (n2 & Hz2 & En2 & F2 & C2).
  exists o, l, l', (repeat [-1; 1] K), (rest (Fin (-1)) (Fin 1) dip K), n'. intros mp.
  split; [exact (drift_mpo (Fin (-1)) (Fin 1) dip K HK)|]. split; [exact (drift_ok _ _ dip A1)|]. split; [exact (drift_ok _ _ dip A2)|]. split; [apply drift_scales|].
  split; [exact (swing_widths K HK)|]. split; [exact (drift_fixed _ _ dip)|]. split; [exact (eq_trans Hz (eq_sym (Nat.mul_1_l _)))|]. split; [exact (swing_roots K)|].
  split; [exact (drift_slack (-1) 1 (Fin (-2)) (Fin 2) dip K _ HK ltac:(lra) ltac:(lra))|]. split; [exact B|]. split; [exact En'|]. split; [exact F'|].
  intros (n & En & _ & Bn). assert (n = n') as -> by (pose proof (eq_trans (eq_sym En) En') as X; injection X as X; exact X).
  pose proof (Bn _ n2 (eq_trans Hz2 (eq_sym Hz)) En2 F2) as X. rewrite C', C2 in X. unfold dip in X. clear - X. nred. lra.
Qed.
