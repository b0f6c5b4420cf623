(** The cart of C60 has one best motion on its mesh; problems with several (examples for C72). *)
From Coq Require Import Reals Lia Lra Psatz Bool Arith String.
From Coquelicot Require Import Coquelicot.
From Coq Require Import List.
From Verif Require Import Num PyList Mat Poly Roots Colloc Ocp Transcribe Spec SpecOcp SpecHadapt SpecExact SpecConvex SpecCoord SpecExist SpecUnique NumR ListR PolyR CompR MeshR BlockR DiscR NlpR NlpThm CostR ScaleR ExactR WeightR ConvexR TransR ExOcp ExGlide ExTrack ExistR ExExist UniqueR.
Import ListNotations.
Open Scope R_scope.

(** ** the cart *)
Lemma one_entry (u u' : list R) : length u = 1%nat -> length u' = 1%nat -> u <> u' -> nth 0 u 0 <> nth 0 u' 0.
Proof. intros L L' N E. destruct u as [|a [|b u]], u' as [|a' [|b' u']]; try discriminate. cbn in E. subst. auto. Qed.
Lemma half_sq a b : a <> b -> mix (1 / 2) a b * mix (1 / 2) a b < mix (1 / 2) (a * a) (b * b).
Proof. intros N. unfold mix. assert (0 < (a - b) * (a - b)) by (apply Rlt_0_sqr; lra). nra. Qed.
Lemma glide_strict : strict_controls glide 0.
Proof.
  intros f x x' u u' t a a' l l' m Hf Lx Lx' Lu Lu' _ _ N E E' Em. cbn in Hf. injection Hf as <-. injection E as <-. injection E' as <-. injection Em as <-. cbn in Lu, Lu'.
  rewrite !nth_mixl by (nred; lia). apply half_sq. apply one_entry; assumption.
Qed.
Lemma glide_lasting : lasting glide 0.
Proof. exists 0, 1. repeat split; try reflexivity. lra. Qed.

Section Mesh.
Variables (cf : ccfg Rnum) (K : nat) (orders : list nat) (p : list R).
Let mp : mpo Rnum := Mpo glide K orders cf.
Hypothesis Hcf : cfg_ok cf.
Hypothesis HK : (1 <= K)%nat.
Hypothesis Hlen : length orders = K.
Hypothesis Hpos : forall q, In q orders -> (1 <= q)%nat.
Hypothesis Hw : widths_ok K 1 p.
Theorem glide_single (z z' : list R) : length z = nvars mp -> length z' = nvars mp -> best mp p z -> best mp p z' -> z = z'.
Proof.
  intros Hz Hz' B B'. pose proof (glide_mpo cf K orders Hcf HK Hlen Hpos) as Hm. fold mp in Hm.
  assert (Hz1 : length z = (o_nph (mp_ocp mp) * nvars mp)%nat) by (change (o_nph (mp_ocp mp)) with 1%nat; clear - Hz; nred; lia).
  assert (Hz1' : length z' = (o_nph (mp_ocp mp) * nvars mp)%nat) by (change (o_nph (mp_ocp mp)) with 1%nat; clear - Hz'; nred; lia).
  assert (IN : forall v : list R, length v = (o_nph (mp_ocp mp) * nvars mp)%nat -> input_ok mp glide_npath glide_nterm v p).
  { intros v Lv. constructor; [exact Hm|exact glide_ok|exact glide_scales|exact Lv|destruct Hw as [W _]; cbn; nred; lia]. }
  pose proof B as (n & En & F & _). pose proof B' as (n' & En' & F' & _).
  destruct (times_same mp _ _ z z' p n n' (IN z Hz1) (IN z' Hz1') En En' F F' 0%nat ltac:(cbn; lia) (glide_fixed 0%nat ltac:(lia))) as [T0 T1].
  destruct (nlp_like mp _ _ z p (user_traj mp z) (IN z Hz1) (fun ph _ => same_refl _ _)) as (rs & n1 & Er & En1 & Hrl & H1 & _).
  destruct (nlp_like mp _ _ z' p (user_traj mp z') (IN z' Hz1') (fun ph _ => same_refl _ _)) as (rs2 & n2 & Er2 & En2 & _ & H2 & _).
  assert (rs2 = rs) as -> by (pose proof (eq_trans (eq_sym Er2) Er) as X; injection X as X; exact X).
  assert (n1 = n) as -> by (pose proof (eq_trans (eq_sym En1) En) as X; injection X as X; exact X).
  assert (n2 = n') as -> by (pose proof (eq_trans (eq_sym En2) En') as X; injection X as X; exact X).
  destruct (proj1 H1 F) as (Bd & Pd & _). destruct (proj1 H2 F') as (Bd' & Pd' & _). specialize (Bd 0%nat ltac:(cbn; lia)). specialize (Bd' 0%nat ltac:(cbn; lia)). specialize (Pd 0%nat ltac:(cbn; lia)). specialize (Pd' 0%nat ltac:(cbn; lia)). clear H1 H2.
  pose proof (fun i Hi Hwi => nodes_thm mp glide_npath glide_nterm p Hm glide_ok glide_scales Hw glide_convex glide_fixed z z' 0%nat _ Hz1 Hz1' B B' ltac:(cbn; lia) glide_lasting glide_strict i Hi Hwi) as HU. cbv zeta in HU.
  assert (Tb : y_t0 (user_traj mp z 0) < y_tf (user_traj mp z 0)) by (destruct (fixed_eq mp 0 _ (glide_fixed 0%nat ltac:(lia)) Bd) as (a & b & _ & E1 & E2 & E3 & E4); rewrite E1, E2; injection E3 as <-; injection E4 as <-; lra).
  apply (traj_inj mp z z' (ok_shapes _ _ _ glide_ok) glide_scales Hz1 Hz1'). intros ph Hph. cbn in Hph. assert (ph = 0)%nat as -> by lia.
  set (y := user_traj mp z 0) in *. set (y' := user_traj mp z' 0) in *. clearbody y y'. clear B B' En En' En1 En2 F F'.
  assert (EU : forall i, (1 <= i < total_nodes orders)%nat -> y_u y i 0 = y_u y' i 0).
  { intros i Hi. specialize (HU i (proj2 Hi) (or_introl (proj1 Hi))). destruct (Req_EM_T (y_u y i 0%nat) (y_u y' i 0%nat)) as [E|E]; [exact E|]. exfalso. apply HU. cbn. intros X. injection X as X. exact (E X). }
  assert (Hrs : forall k q, nth_error orders k = Some q -> length (nth k rs []) = S q /\ NoDup (nth k rs [])).
  { intros k q Hk. split; [exact (Hrl k q Hk)|]. exact (rs_nodup mp _ _ z p (IN z Hz1) rs Er k (nth_error_lt _ _ _ Hk)). }
  assert (EH : forall k, seg_h cf (width mp p 0) y k = seg_h cf (width mp p 0) y' k) by (intros k; unfold seg_h; rewrite T0, T1; reflexivity).
  destruct Pd as [Dy _]. destruct Pd' as [Dy' _].
  assert (E1 : forall i, (i < total_nodes orders)%nat -> y_x y i 1 = y_x y' i 1).
  { apply (same_state orders rs _ _ Hpos Hrs).
    - transitivity 0; [exact (proj1 Bd 0%nat 1%nat ltac:(cbn; unfold total_nodes; lia) ltac:(cbn; lia))|symmetry; exact (proj1 Bd' 0%nat 1%nat ltac:(cbn; unfold total_nodes; lia) ltac:(cbn; lia))].
    - intros i k j c c' Ho Hj Hc Hc'. pose proof (is_derive_unique _ _ _ (Dy i k j 1%nat c Ho ltac:(cbn; lia) Hc)) as D. pose proof (is_derive_unique _ _ _ (Dy' i k j 1%nat c' Ho ltac:(cbn; lia) Hc')) as D'.
      refine (eq_trans D (eq_trans _ (eq_sym D'))). rewrite <- EH. f_equal.
      assert (1 <= i < total_nodes orders)%nat as Hi by (pose proof (owned_lt _ _ _ _ Ho); destruct Ho as (q & _ & _ & _ & ->); lia). exact (EU i Hi). }
  assert (E0 : forall i, (i < total_nodes orders)%nat -> y_x y i 0 = y_x y' i 0).
  { apply (same_state orders rs _ _ Hpos Hrs).
    - transitivity 0; [exact (proj1 Bd 0%nat 0%nat ltac:(cbn; unfold total_nodes; lia) ltac:(cbn; lia))|symmetry; exact (proj1 Bd' 0%nat 0%nat ltac:(cbn; unfold total_nodes; lia) ltac:(cbn; lia))].
    - intros i k j c c' Ho Hj Hc Hc'. pose proof (is_derive_unique _ _ _ (Dy i k j 0%nat c Ho ltac:(cbn; lia) Hc)) as D. pose proof (is_derive_unique _ _ _ (Dy' i k j 0%nat c' Ho ltac:(cbn; lia) Hc')) as D'.
      refine (eq_trans D (eq_trans _ (eq_sym D'))). rewrite <- EH. f_equal. exact (E1 i (owned_lt _ _ _ _ Ho)). }
  split; [|split; [|split; [exact T0|split; [exact T1|]]]].
  - intros i s Hi Hs. cbn in Hi, Hs. destruct s as [|[|s]]; [apply E0; exact Hi|apply E1; exact Hi|lia].
  - intros i c Hi Hc. cbn in Hc. assert (c = 0)%nat as -> by lia. destruct i as [|i]; [|apply EU; split; [lia|exact Hi]].
    assert (Hk : (0 < length orders)%nat) by lia. pose proof (nth_error_nth' orders 0%nat Hk) as Eq. destruct (Hrs 0%nat _ Eq) as [L Hnd].
    assert (Ho : owned orders 0 0 0) by (exists (nth 0 orders 0%nat); split; [exact Eq|split; [lia|split; [auto|rewrite offset_0; reflexivity]]]).
    destruct (interp_exists (nth 0 rs []) (fun j => y_x y (offset orders 0 + j)%nat 1%nat) Hnd) as (cc & Hc1).
    assert (Hc2 : seg_interp orders 0 (nth 0 rs []) (fun i => y_x y' i 1%nat) cc).
    { destruct Hc1 as [A C]. split; [exact A|]. intros j Hj. rewrite (C j Hj). apply E1. pose proof (offset_S _ _ _ Eq) as X. rewrite offset_0 in *. unfold total_nodes.
      pose proof (offset_mono orders 1 (length orders) ltac:(lia)) as Y. clear - Hj L X Y. nred. lia. }
    pose proof (is_derive_unique _ _ _ (Dy 0%nat 0%nat 0%nat 1%nat cc Ho ltac:(cbn; lia) Hc1)) as D. pose proof (is_derive_unique _ _ _ (Dy' 0%nat 0%nat 0%nat 1%nat cc Ho ltac:(cbn; lia) Hc2)) as D'.
    pose proof (eq_trans (eq_sym D) D') as X. change (mp_cf mp) with cf in X. rewrite <- EH in X.
    assert (0 < seg_h cf (width mp p 0) y 0) as Hh.
    { destruct (part_widths mp p Hm Hw 0%nat ltac:(cbn; lia)) as [W1 _]. specialize (W1 0%nat Hk). unfold seg_h. pose proof (co_taus _ Hcf). apply Rmult_lt_0_compat; [apply Rmult_lt_0_compat; lra|apply Rinv_0_lt_compat; lra]. }
    apply Rmult_eq_reg_l in X; [exact X|lra].
  - intros i Hi. cbn in Hi. lia.
Qed.
End Mesh.
Theorem glide_one cf K orders p : cfg_ok cf -> (1 <= K)%nat -> length orders = K -> (forall q, In q orders -> (4 <= q)%nat) -> widths_ok K 1 p ->
  exists z : list R, (length z = nvars (Mpo glide K orders cf) /\ best (Mpo glide K orders cf) p z) /\
    forall z' : list R, length z' = nvars (Mpo glide K orders cf) -> best (Mpo glide K orders cf) p z' -> z' = z.
Proof.
  intros Hcf HK Hlen Hq Hw. destruct (glide_best cf K orders p Hcf HK Hlen Hq Hw) as (z & Hz & B). exists z. split; [split; [exact Hz|exact B]|].
  intros z' Hz' B'. apply (glide_single cf K orders p Hcf HK Hlen); auto. intros q Hi. apply Hq in Hi. lia.
Qed.

Lemma mix_plus lam a b c d : mix lam a b + mix lam c d = mix lam (a + c) (b + d).
Proof. unfold mix. ring. Qed.

(** ** x' = 0 from 0, cost x^2 + u^2: with LGR the first control is free *)
Definition idle_cost : ocp Rnum :=
  Ocp (N := Rnum) 1 1 0 1
    [fun _ _ _ _ => Ok [0]] [fun _ _ _ _ => Ok None] [fun _ _ _ _ _ => Ok (Some 0)]
    [fun x u _ _ => Ok (Some (nth 0 x 0 * nth 0 x 0 + nth 0 u 0 * nth 0 u 0))] [fun _ _ _ _ _ => Ok None] []
    [1] [1] [] 1 [[0]] [[0]] [[0]] [[0]] [[0]] [[1]] [[]]
    [[NInf]] [[PInf]] [[NInf]] [[PInf]] [[]] [[]]
    [[Fin 0]] [[Fin 0]] [[Fin 1]] [[Fin 1]] [] [] [false] [Fin (-15)] [Fin 15] [true] [false].
Lemma idle_cost_ok : ocp_ok idle_cost (fun _ => None) (fun _ => None).
Proof.
  constructor.
  { constructor; cbn; auto; try (apply shaped1; reflexivity).
    - split; [reflexivity|]. intros H. lia.
    - split; [reflexivity|]. intros H. lia.
    - intros [|i] [|j] Hi Hj; try lia; cbn; auto.
    - intros [|i] [|j] Hi Hj; try lia; cbn; auto.
    - intros i j Hi Hj; lia.
    - intros [|i] [|j] Hi Hj; try lia; cbn; lra.
    - intros [|i] [|j] Hi Hj; try lia; cbn; lra.
    - intros i j Hi Hj; lia. }
  - cbn; lia.
  - intros ph f x u t a H _ _ _. one ph H; eexists; split; reflexivity.
  - intros ph f x u t a H _ _ _. one ph H; eexists; reflexivity.
  - intros ph f xf tf y0 t0 a H _ _ _. one ph H; eexists; reflexivity.
  - intros ph f x u t a H _ _ _. one ph H; reflexivity.
  - intros ph f xf tf y0 t0 a H _ _ _. one ph H; reflexivity.
  - reflexivity.
  - reflexivity.
  - reflexivity.
  - reflexivity.
  - reflexivity.
  - intros; cbn; lia.
  - intros i j [].
  - cbn; lia.
  - cbn; intros H; lia.
Qed.
Lemma idle_cost_scales : scales_pos idle_cost.
Proof. constructor; cbn; [intros s [<-|[]]; lra|intros s [<-|[]]; lra|intros s []|lra]. Qed.
Lemma idle_cost_convex ph : (ph < 1)%nat -> convex_phase idle_cost ph.
Proof.
  intros Hph. assert (ph = 0)%nat as -> by lia. constructor.
  - intros f lam x x' u u' t a a' d d' Hf Hl Lx Lx' Lu Lu' _ _ E E'. cbn in Hf. injection Hf as <-. injection E as <-. injection E' as <-. change (mixl lam [0] [0]) with [mix lam 0 0]. rewrite mix_same. reflexivity.
  - intros f lam x x' u u' t a a' c c' m Hf Hl Lx Lx' Lu Lu' _ _ E. cbn in Hf. injection Hf as <-. discriminate E.
  - intros f lam x x' u u' t a a' l l' m Hf Hl Lx Lx' Lu Lu' _ _ E E' Em. cbn in Hf. injection Hf as <-. injection E as <-. injection E' as <-. injection Em as <-. cbn in Lx, Lx', Lu, Lu'.
    rewrite !nth_mixl by (nred; lia). exact (Rle_trans _ _ _ (Rplus_le_compat _ _ _ _ (mix_sq lam (nth 0 x 0) (nth 0 x' 0) Hl) (mix_sq lam (nth 0 u 0) (nth 0 u' 0) Hl)) (Req_le _ _ (mix_plus _ _ _ _ _))).
  - intros f lam xf xf' tf x0 x0' t0 a a' c c' Hf Hl Lx Lx' Ly Ly' _ _ E. cbn in Hf. injection Hf as <-. discriminate E.
  - intros f lam xf xf' tf x0 x0' t0 a a' l l' m Hf Hl Lx Lx' Ly Ly' _ _ E E' Em. cbn in Hf. injection Hf as <-. injection E as <-. injection E' as <-. injection Em as <-. unfold mix. lra.
Qed.
Lemma idle_cost_fixed ph : (ph < 1)%nat -> fixed_times idle_cost ph.
Proof. intros Hph. assert (ph = 0)%nat as -> by lia. exists 0, 1. repeat split; cbn; auto; lra. Qed.
Lemma idle_cost_lasting : lasting idle_cost 0.
Proof. exists 0, 1. repeat split; try reflexivity. lra. Qed.
Lemma half_sq_le a b : mix (1 / 2) a b * mix (1 / 2) a b <= mix (1 / 2) (a * a) (b * b).
Proof. apply mix_sq. lra. Qed.
Lemma idle_cost_strict : strict_both idle_cost 0.
Proof.
  intros f x x' u u' t a a' l l' m Hf Lx Lx' Lu Lu' _ _ N E E' Em. cbn in Hf. injection Hf as <-. injection E as <-. injection E' as <-. injection Em as <-. cbn in Lx, Lx', Lu, Lu'.
  rewrite !nth_mixl by (nred; lia). 
  destruct N as [N|N].
  - exact (Rlt_le_trans _ _ _ (Rplus_lt_le_compat _ _ _ _ (half_sq _ _ (one_entry x x' Lx Lx' N)) (half_sq_le (nth 0 u 0) (nth 0 u' 0))) (Req_le _ _ (mix_plus _ _ _ _ _))).
  - exact (Rlt_le_trans _ _ _ (Rplus_le_lt_compat _ _ _ _ (half_sq_le (nth 0 x 0) (nth 0 x' 0)) (half_sq _ _ (one_entry u u' Lu Lu' N))) (Req_le _ _ (mix_plus _ _ _ _ _))).
Qed.

Section Free.
Variables (cf : ccfg Rnum) (K : nat) (orders : list nat) (p : list R).
Let mp : mpo Rnum := Mpo idle_cost K orders cf.
Hypothesis Hcf : cfg_ok cf.
Hypothesis HK : (1 <= K)%nat.
Hypothesis Hlen : length orders = K.
Hypothesis Hpos : forall q, In q orders -> (1 <= q)%nat.
Hypothesis Hw : widths_ok K 1 p.
Lemma idle_cost_mpo : mpo_ok mp.
Proof. constructor; cbn; auto. Qed.
Lemma idle_input z : length z = nvars mp -> input_ok mp (fun _ => None) (fun _ => None) z p.
Proof.
  intros Hz. constructor; [exact idle_cost_mpo|exact idle_cost_ok|exact idle_cost_scales|change (o_nph (mp_ocp mp)) with 1%nat; nred; lia|destruct Hw as [W _]; cbn; nred; lia].
Qed.
(** no motion has a negative cost *)
Lemma idle_cost_nonneg z n : length z = nvars mp -> nlp_at mp z p = Ok n -> feasible n -> 0 <= n_f n.
Proof.
  intros Hz En F. destruct (nlp_like mp _ _ z p (user_traj mp z) (idle_input z Hz) (fun ph _ => same_refl _ _)) as (rs & n1 & Er & En1 & Hrl & H1 & C).
  assert (n1 = n) as -> by (pose proof (eq_trans (eq_sym En1) En) as X; injection X as X; exact X). apply (proj1 H1) in F. destruct F as [Bd _]. specialize (Bd 0%nat ltac:(cbn; lia)).
  rewrite C. change (o_nph (mp_ocp mp)) with 1%nat. cbn [Rsum]. set (y := user_traj mp z 0) in *. clearbody y.
  destruct (fixed_eq mp 0 _ (idle_cost_fixed 0%nat ltac:(lia)) Bd) as (a & b & Hab & E1 & E2 & _). unfold node_cost.
  match goal with |- 0 <= 0 + (?m + ?s) => change m with 0; assert (0 <= s); [|lra] end.
  apply Rsum_nonneg. intros k Hk. unfold seg_cost. apply Rmult_le_pos.
  - destruct (part_widths mp p idle_cost_mpo Hw 0%nat ltac:(cbn; lia)) as [W1 _]. specialize (W1 k Hk). unfold seg_h. pose proof (co_taus _ Hcf). rewrite E1, E2.
    apply Rmult_le_pos; [apply Rmult_le_pos; lra|apply Rlt_le, Rinv_0_lt_compat; cbn [mp mp_cf]; lra].
  - apply Rsum_nonneg. intros j Hj. apply Rmult_le_pos; [apply (omega_nonneg mp idle_cost_mpo k j Hk)|].
    exact (Rplus_le_le_0_compat _ _ (Rle_0_sqr (y_x y (offset (mp_orders mp) k + j) 0)) (Rle_0_sqr (y_u y (offset (mp_orders mp) k + j) 0))).
Qed.
Definition idle_with (v : R) : utraj := Utraj (fun _ _ => 0) (fun i _ => if Nat.eqb i 0 then v else 0) 0 1 (fun _ => 0).
Lemma idle_first v : v = 0 \/ cf_scheme cf = "LGR"%string /\ (2 <= nth 0 orders 0)%nat ->
  exists z : list R, length z = nvars mp /\ best mp p z /\ y_u (user_traj mp z 0) 0 0 = v.
Proof.
  intros Hv. set (y := idle_with v). set (z := pack mp (fun _ => y)).
  assert (Hz : length z = nvars mp) by (unfold z; rewrite length_pack; change (o_nph (mp_ocp mp)) with 1%nat; lia).
  assert (HP : forall ph, (ph < o_nph (mp_ocp mp))%nat -> same_traj mp (user_traj mp z ph) y) by (intros ph Hph; exact (pack_traj mp (fun _ => y) ph (ok_shapes _ _ _ idle_cost_ok) idle_cost_scales Hph)).
  exists z. split; [exact Hz|]. destruct (nlp_like mp _ _ z p (fun _ => y) (idle_input z Hz) HP) as (rs & n & Er & En & Hrl & Hf & C).
  assert (C0 : n_f n = 0).
  { rewrite C. match goal with |- @eq _ ?a ?b => change (@eq R a b) end. change (o_nph (mp_ocp mp)) with 1%nat. cbn [Rsum]. unfold node_cost. match goal with |- 0 + (?m + ?s) = 0 => change m with 0; assert (E : s = 0); [|rewrite E; ring] end.
    apply Rsum_0. intros k Hk. unfold seg_cost. match goal with |- ?a * ?s = 0 => assert (E : s = 0); [|rewrite E; ring] end. apply Rsum_0. intros j Hj.
    unfold run_at. change (run_val (mp_ocp mp) 0 y ?i ?t) with (0 * 0 + y_u y i 0%nat * y_u y i 0%nat).
    destruct (Nat.eq_dec k 0) as [-> |Hk0].
    2: { destruct j as [|j]; [unfold omega; destruct k; [lia|]; cbn; ring|]. unfold y, idle_with; cbn [y_u]. destruct (Nat.eqb_spec (offset (mp_orders mp) k + S j) 0); [lia|ring]. }
    destruct j as [|j]; [|unfold y, idle_with; cbn [y_u]; destruct (Nat.eqb_spec (offset (mp_orders mp) 0 + S j) 0); [lia|ring]].
    destruct Hv as [-> |[Hs Hq]]; [unfold y, idle_with; cbn [y_u]; destruct (Nat.eqb (offset (mp_orders mp) 0 + 0) 0); ring|].
    assert (EO : omega (wts (mp_cf mp) (mp_orders mp)) 0 0 = 0).
    { unfold omega, wts. cbn [Nat.leb andb]. destruct (lgr_positive cf (nth 0 orders 0%nat) Hcf Hs ltac:(lia)) as (V & EV & _ & H0 & _). cbn [mp mp_cf mp_orders]. rewrite EV. destruct (Nat.eqb_spec (nth 0 orders 0%nat) 1); [lia|exact H0]. }
    rewrite EO. ring. }
  assert (F : feasible n).
  { apply Hf. split; [|split].
    - intros ph Hph. cbn in Hph. assert (ph = 0)%nat as -> by lia. split; [|split; [|split; [|split]]].
      + intros i s Hi Hs'. cbn in Hs'. assert (s = 0)%nat as -> by lia. cbn. destruct (Nat.eqb i 0); cbn; auto. split; exact I.
      + intros i c Hi Hc. cbn in Hc. assert (c = 0)%nat as -> by lia. cbn. split; exact I.
      + split; cbn; lra.
      + split; cbn; lra.
      + intros i Hi. cbn in Hi. lia.
    - intros ph Hph. cbn in Hph. assert (ph = 0)%nat as -> by lia. split; [|split; [|split; [|split; [|split]]]].
      + intros i k j s c Ho Hs' Hc. cbn in Hs'. assert (s = 0)%nat as -> by lia.
        assert (Hk : (k < length orders)%nat) by (destruct Ho as (q & Eq & _); exact (nth_error_lt _ _ _ Eq)).
        assert (E : forall x, peval c x = 0).
        { apply (many_roots_zero (nth k rs [])); [exact (rs_nodup mp _ _ z p (idle_input z Hz) rs Er k Hk)|exact (proj1 Hc)|].
          intros r Hr. destruct (In_nth _ _ 0 Hr) as (l & Hl & <-). exact (proj2 Hc l Hl). }
        apply (is_derive_ext (fun _ => 0)); [intros t; symmetry; apply E|]. match goal with |- is_derive _ _ ?d => replace d with (@zero R_NormedModule) end; [apply (is_derive_const 0)|].
        match goal with |- _ = ?a * ?b => change b with 0 end. unfold zero; cbn. ring.
      + intros i k j c Ho [].
      + intros H. discriminate H.
      + intros _ k q j c cc Hk Hj Hc _. cbn in Hc. assert (c = 0)%nat as -> by lia. split; exact I.
      + intros H. discriminate H.
      + intros c [].
    - intros H. cbn in H. lia. }
  split.
  - exists n. split; [exact En|]. split; [exact F|]. intros z1 n1 L1 E1 F1. rewrite C0. apply (idle_cost_nonneg z1 n1); [exact (eq_trans L1 Hz)|exact E1|exact F1].
  - destruct (HP 0%nat ltac:(cbn; lia)) as (_ & U & _). rewrite U; [reflexivity|unfold total_nodes; lia|cbn; lia].
Qed.
End Free.

Theorem first_control cf K orders p : cfg_ok cf -> (1 <= K)%nat -> length orders = K -> (forall q, In q orders -> (1 <= q)%nat) -> widths_ok K 1 p ->
  cf_scheme cf = "LGR"%string -> (2 <= nth 0 orders 0)%nat ->
  exists o, let mp := Mpo o K orders cf in mpo_ok mp /\ ocp_ok o (fun _ => None) (fun _ => None) /\ scales_pos o /\ o_nph o = 1%nat /\ o_na o = 0%nat /\
    convex_phase o 0 /\ fixed_times o 0 /\ lasting o 0 /\ strict_both o 0 /\
    forall v, exists z : list R, length z = nvars mp /\ best mp p z /\ y_u (user_traj mp z 0) 0 0 = v.
Proof.
  intros Hcf HK Hlen Hpos Hw Hs Hq. exists idle_cost. intros mp. split; [exact (idle_cost_mpo cf K orders Hcf HK Hlen Hpos)|]. split; [exact idle_cost_ok|]. split; [exact idle_cost_scales|]. split; [reflexivity|]. split; [reflexivity|].
  split; [apply idle_cost_convex; lia|]. split; [apply idle_cost_fixed; lia|]. split; [exact idle_cost_lasting|]. split; [exact idle_cost_strict|].
  intros v. exact (idle_first cf K orders p Hcf HK Hlen Hpos Hw v (or_intror (conj Hs Hq))).
Qed.
Theorem idle_one cf K orders p : cfg_ok cf -> (1 <= K)%nat -> length orders = K -> (forall q, In q orders -> (1 <= q)%nat) -> widths_ok K 1 p ->
  cf_scheme cf <> "LGR"%string \/ nth 0 orders 0%nat = 1%nat ->
  exists z : list R, (length z = nvars (Mpo idle_cost K orders cf) /\ best (Mpo idle_cost K orders cf) p z) /\
    forall z' : list R, length z' = nvars (Mpo idle_cost K orders cf) -> best (Mpo idle_cost K orders cf) p z' -> z' = z.
Proof.
  intros Hcf HK Hlen Hpos Hw Hs. destruct (idle_first cf K orders p Hcf HK Hlen Hpos Hw 0 (or_introl eq_refl)) as (z & Hz & B & _). exists z. split; [split; assumption|].
  intros z' Hz' B'. set (mp := Mpo idle_cost K orders cf) in *.
  assert (E1 : forall v : list R, length v = nvars mp -> length v = (o_nph (mp_ocp mp) * nvars mp)%nat) by (intros v L; change (o_nph (mp_ocp mp)) with 1%nat; clear - L; nred; lia).
  apply (unique_thm mp (fun _ => None) (fun _ => None) p (idle_cost_mpo cf K orders Hcf HK Hlen Hpos) idle_cost_ok idle_cost_scales Hw idle_cost_convex idle_cost_fixed eq_refl); auto.
  - intros ph Hph. cbn in Hph. assert (ph = 0)%nat as -> by lia. split; [exact idle_cost_lasting|exact idle_cost_strict].
  - right. exact Hs.
Qed.
