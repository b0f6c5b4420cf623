(** A state that stays where it starts, with a cost at the end (examples for C73). *)
From Coq Require Import Reals Lia Lra Psatz Bool Arith String.
From Coquelicot Require Import Coquelicot.
From Coq Require Import List.
From Verif Require Import Num PyList Mat Poly Roots Colloc Ocp Transcribe Spec SpecOcp SpecHadapt SpecExact SpecConvex SpecCoord SpecValue NumR ListR PolyR CompR MeshR BlockR DiscR NlpR NlpThm CostR ScaleR ExactR WeightR ConvexR TransR ExOcp ExGlide ExTrack ExistR ExExist UniqueR ExUnique ValueR.
Import ListNotations.
Open Scope R_scope.

(** x' = 0 from 0, cost s x(1)^2 *)
Definition hold (s : R) : ocp Rnum :=
  Ocp (N := Rnum) 1 1 0 1
    [fun _ _ _ _ => Ok [0]] [fun _ _ _ _ => Ok None] [fun xf _ _ _ _ => Ok (Some (s * (nth 0 xf 0 * nth 0 xf 0)))]
    [fun x u _ _ => Ok (Some 0)] [fun _ _ _ _ _ => Ok None] []
    [1] [1] [] 1 [[0]] [[0]] [[0]] [[0]] [[0]] [[1]] [[]]
    [[NInf]] [[PInf]] [[NInf]] [[PInf]] [[]] [[]]
    [[Fin 0]] [[Fin 0]] [[Fin 1]] [[Fin 1]] [] [] [false] [Fin (-15)] [Fin 15] [true] [false].
Lemma hold_ok s : ocp_ok (hold s) (fun _ => None) (fun _ => None).
Proof.
  constructor.
  { constructor; cbn; auto; try (apply shaped1; reflexivity).
    - split; [reflexivity|]. intros H. lia.
    - split; [reflexivity|]. intros H. lia.
    - intros [|i] [|j] Hi Hj; try lia; cbn; auto.
    - intros [|i] [|j] Hi Hj; try lia; cbn; auto.
    - intros i j Hi Hj; lia.
    - intros [|i] [|j] Hi Hj; try lia; cbn; lra.
    - intros [|i] [|j] Hi Hj; try lia; cbn; lra.
    - intros i j Hi Hj; lia. }
  - cbn; lia.
  - intros ph f x u t a H _ _ _. one ph H; eexists; split; reflexivity.
  - intros ph f x u t a H _ _ _. one ph H; eexists; reflexivity.
  - intros ph f xf tf y0 t0 a H _ _ _. one ph H; eexists; reflexivity.
  - intros ph f x u t a H _ _ _. one ph H; reflexivity.
  - intros ph f xf tf y0 t0 a H _ _ _. one ph H; reflexivity.
  - reflexivity.
  - reflexivity.
  - reflexivity.
  - reflexivity.
  - reflexivity.
  - intros; cbn; lia.
  - intros i j [].
  - cbn; lia.
  - cbn; intros H; lia.
Qed.
Lemma hold_scales s : scales_pos (hold s).
Proof. constructor; cbn; [intros v [<-|[]]; lra|intros v [<-|[]]; lra|intros v []|lra]. Qed.
Lemma hold_convex ph : (ph < 1)%nat -> convex_phase (hold 1) ph.
Proof.
  intros Hph. assert (ph = 0)%nat as -> by lia. constructor.
  - intros f lam x x' u u' t a a' d d' Hf Hl Lx Lx' Lu Lu' _ _ E E'. cbn in Hf. injection Hf as <-. injection E as <-. injection E' as <-. change (mixl lam [0] [0]) with [mix lam 0 0]. rewrite mix_same. reflexivity.
  - intros f lam x x' u u' t a a' c c' m Hf Hl Lx Lx' Lu Lu' _ _ E. cbn in Hf. injection Hf as <-. discriminate E.
  - intros f lam x x' u u' t a a' l l' m Hf Hl Lx Lx' Lu Lu' _ _ E E' Em. cbn in Hf. injection Hf as <-. injection E as <-. injection E' as <-. injection Em as <-. unfold mix. lra.
  - intros f lam xf xf' tf x0 x0' t0 a a' c c' Hf Hl Lx Lx' Ly Ly' _ _ E. cbn in Hf. injection Hf as <-. discriminate E.
  - intros f lam xf xf' tf x0 x0' t0 a a' l l' m Hf Hl Lx Lx' Ly Ly' _ _ E E' Em. cbn in Hf. injection Hf as <-. injection E as <-. injection E' as <-. injection Em as <-. cbn in Lx, Lx'.
    rewrite !nth_mixl by (nred; lia). rewrite !Rmult_1_l. exact (mix_sq lam (nth 0 xf 0) (nth 0 xf' 0) Hl).
Qed.
Lemma hold_fixed s ph : (ph < 1)%nat -> fixed_times (hold s) ph.
Proof. intros Hph. assert (ph = 0)%nat as -> by lia. exists 0, 1. repeat split; cbn; auto; lra. Qed.

Lemma const_at v t : peval [v] t = v.
Proof. cbn. ring. Qed.

Section Mesh.
Variables (s v : R) (cf : ccfg Rnum) (K : nat) (orders : list nat) (p : list R).
Let o := with_limits (hold s) (start_at (hold s) [v]).
Let mp : mpo Rnum := Mpo o K orders cf.
Hypothesis Hcf : cfg_ok cf.
Hypothesis HK : (1 <= K)%nat.
Hypothesis Hlen : length orders = K.
Hypothesis Hpos : forall q, In q orders -> (1 <= q)%nat.
Hypothesis Hw : widths_ok K 1 p.
Lemma hold_mpo : mpo_ok mp.
Proof. constructor; cbn; auto. Qed.
Lemma hold_start : ocp_ok o (fun _ => None) (fun _ => None).
Proof. exact (start_ok (hold s) [v] _ _ (hold_ok s) eq_refl). Qed.
Lemma hold_start_scales : scales_pos o.
Proof. destruct (hold_scales s) as [A B C D]. constructor; assumption. Qed.
Lemma hold_input z : length z = nvars mp -> input_ok mp (fun _ => None) (fun _ => None) z p.
Proof.
  intros Hz. constructor; [exact hold_mpo|exact hold_start|exact hold_start_scales|change (o_nph (mp_ocp mp)) with 1%nat; nred; lia|destruct Hw as [W _]; cbn; nred; lia].
Qed.
(** every motion ends where it starts *)
Lemma hold_cost z n : length z = nvars mp -> nlp_at mp z p = Ok n -> feasible n -> n_f n = s * (v * v).
Proof.
  intros Hz En F. destruct (nlp_like mp _ _ z p (user_traj mp z) (hold_input z Hz) (fun ph _ => same_refl _ _)) as (rs & n1 & Er & En1 & Hrl & H1 & C).
  assert (n1 = n) as -> by (pose proof (eq_trans (eq_sym En1) En) as X; injection X as X; exact X). apply (proj1 H1) in F. destruct F as (Bd & Pd & _). specialize (Bd 0%nat ltac:(cbn; lia)). specialize (Pd 0%nat ltac:(cbn; lia)).
  rewrite C. match goal with |- @eq _ ?a ?b => change (@eq R a b) end. change (o_nph (mp_ocp mp)) with 1%nat. cbn [Rsum]. set (y := user_traj mp z 0) in *. clearbody y. unfold node_cost.
  assert (Hrs : forall k q, nth_error orders k = Some q -> length (nth k rs []) = S q /\ NoDup (nth k rs [])).
  { intros k q Hk. split; [exact (Hrl k q Hk)|]. exact (rs_nodup mp _ _ z p (hold_input z Hz) rs Er k (nth_error_lt _ _ _ Hk)). }
  assert (EX : forall i, (i < total_nodes orders)%nat -> y_x y i 0 = v).
  { apply (same_state orders rs (fun i => y_x y i 0%nat) (fun _ => v) Hpos Hrs).
    - exact (proj1 Bd 0%nat 0%nat ltac:(cbn; unfold total_nodes; lia) ltac:(cbn; lia)).
    - intros i k j c c' Ho Hj Hc Hc'. destruct Pd as [Dy _]. pose proof (is_derive_unique _ _ _ (Dy i k j 0%nat c Ho ltac:(cbn; lia) Hc)) as D.
      assert (Hk : (k < length orders)%nat) by (destruct Ho as (q & Eq & _); exact (nth_error_lt _ _ _ Eq)).
      pose proof (nth_error_nth' orders 0%nat Hk) as Eq. destruct (Hrs k _ Eq) as [L ND].
      assert (E : forall t, peval c' t = v).
      { intros t. assert (LT : (length [v] <= length (nth k rs []))%nat) by (cbn; clear - L; nred; lia).
        rewrite (interp_unique (nth k rs []) c' [v] ND (proj1 Hc') LT (fun l Hl => eq_trans (proj2 Hc' l Hl) (eq_sym (const_at v (nth l (nth k rs []) 0))))). apply const_at. }
      rewrite (Derive_ext _ (fun _ => v) _ E), Derive_const. refine (eq_trans D _). match goal with |- ?a * ?b = 0 => change b with 0 end. ring. }
  change (mayer_val (mp_ocp mp) 0 y (total_nodes (mp_orders mp) - 1)) with (s * (y_x y (total_nodes orders - 1) 0%nat * y_x y (total_nodes orders - 1) 0%nat)).
  rewrite EX by (unfold total_nodes; lia).
  match goal with |- 0 + (?m + ?t) = ?m => assert (E : t = 0); [|rewrite E; ring] end.
  apply Rsum_0. intros k Hk. unfold seg_cost. match goal with |- ?a * ?t = 0 => assert (E : t = 0); [|rewrite E; ring] end. apply Rsum_0. intros j Hj.
  match goal with |- ?a * ?b = 0 => change b with 0 end. ring.
Qed.
Lemma hold_best : exists z : list R, length z = nvars mp /\ best mp p z.
Proof.
  set (y := Utraj (fun _ _ => v) (fun _ _ => 0) 0 1 (fun _ => 0)). set (z := pack mp (fun _ => y)).
  assert (Hz : length z = nvars mp) by (unfold z; rewrite length_pack; change (o_nph (mp_ocp mp)) with 1%nat; lia).
  assert (HP : forall ph, (ph < o_nph (mp_ocp mp))%nat -> same_traj mp (user_traj mp z ph) y) by (intros ph Hph; exact (pack_traj mp (fun _ => y) ph (ok_shapes _ _ _ hold_start) hold_start_scales Hph)).
  exists z. split; [exact Hz|]. destruct (nlp_like mp _ _ z p (fun _ => y) (hold_input z Hz) HP) as (rs & n & Er & En & Hrl & Hf & C).
  assert (F : feasible n).
  { apply Hf. split; [|split].
    - intros ph Hph. cbn in Hph. assert (ph = 0)%nat as -> by lia. split; [|split; [|split; [|split]]].
      + intros i q Hi Hs'. cbn in Hs'. assert (q = 0)%nat as -> by lia. cbn. destruct (Nat.eqb i 0); cbn; auto. split; exact I.
      + intros i c Hi Hc. cbn in Hc. assert (c = 0)%nat as -> by lia. cbn. split; exact I.
      + split; cbn; lra.
      + split; cbn; lra.
      + intros i Hi. cbn in Hi. lia.
    - intros ph Hph. cbn in Hph. assert (ph = 0)%nat as -> by lia. split; [|split; [|split; [|split; [|split]]]].
      + intros i k j q c Ho Hs' Hc. cbn in Hs'. assert (q = 0)%nat as -> by lia.
        assert (Hk : (k < length orders)%nat) by (destruct Ho as (r & Eq & _); exact (nth_error_lt _ _ _ Eq)).
        pose proof (Hrl k _ (nth_error_nth' orders 0%nat Hk)) as L. pose proof (rs_nodup mp _ _ z p (hold_input z Hz) rs Er k Hk) as ND.
        assert (E : forall t, peval c t = v).
        { intros t. assert (LT : (length [v] <= length (nth k rs []))%nat) by (cbn; clear - L; nred; lia).
        rewrite (interp_unique (nth k rs []) c [v] ND (proj1 Hc) LT (fun l Hl => eq_trans (proj2 Hc l Hl) (eq_sym (const_at v (nth l (nth k rs []) 0))))). apply const_at. }
        apply (is_derive_ext (fun _ => v)); [intros t; symmetry; apply E|]. match goal with |- is_derive _ _ ?d => replace d with (@zero R_NormedModule) end; [apply (is_derive_const v)|].
        match goal with |- _ = ?a * ?b => change b with 0 end. unfold zero; cbn. ring.
      + intros i k j c Ho [].
      + intros H. discriminate H.
      + intros _ k q j c cc Hk Hj Hc _. cbn in Hc. assert (c = 0)%nat as -> by lia. split; exact I.
      + intros H. discriminate H.
      + intros c [].
    - intros H. cbn in H. lia. }
  exists n. split; [exact En|]. split; [exact F|]. intros z1 n1 L1 E1 F1. rewrite (hold_cost z n Hz En F), (hold_cost z1 n1 (eq_trans L1 Hz) E1 F1). apply Rle_refl.
Qed.
Lemma hold_value : exists (z : list R) n, length z = nvars mp /\ best mp p z /\ nlp_at mp z p = Ok n /\ n_f n = s * (v * v).
Proof. destruct hold_best as (z & Hz & B). pose proof B as (n & En & F & _). exists z, n. split; [exact Hz|]. split; [exact B|]. split; [exact En|]. exact (hold_cost z n Hz En F). Qed.
End Mesh.

(** without a convex cost the best cost need not be convex *)
Theorem value_concave cf K orders p : cfg_ok cf -> (1 <= K)%nat -> length orders = K -> (forall q, In q orders -> (1 <= q)%nat) -> widths_ok K 1 p ->
  exists o, let mp x := Mpo (with_limits o (start_at o x)) K orders cf in mpo_ok (Mpo o K orders cf) /\ ocp_ok o (fun _ => None) (fun _ => None) /\ scales_pos o /\ o_nph o = 1%nat /\ fixed_times o 0 /\
    exists (z z' zm : list R) n n' m, length z = nvars (Mpo o K orders cf) /\ length z' = nvars (Mpo o K orders cf) /\ length zm = nvars (Mpo o K orders cf) /\
      best (mp [-1]) p z /\ best (mp [1]) p z' /\ best (mp (mixl (1 / 2) [-1] [1])) p zm /\
      nlp_at (mp [-1]) z p = Ok n /\ nlp_at (mp [1]) z' p = Ok n' /\ nlp_at (mp (mixl (1 / 2) [-1] [1])) zm p = Ok m /\
      mix (1 / 2) (n_f n) (n_f n') < n_f m.
Proof.
  intros Hcf HK Hlen Hpos Hw. exists (hold (-1)). intros mp.
  split; [constructor; cbn; auto|]. split; [apply hold_ok|]. split; [apply hold_scales|]. split; [reflexivity|]. split; [apply hold_fixed; lia|].
  destruct (hold_value (-1) (-1) cf K orders p Hcf HK Hlen Hpos Hw) as (z & n & Hz & B & E & C).
  destruct (hold_value (-1) 1 cf K orders p Hcf HK Hlen Hpos Hw) as (z' & n' & Hz' & B' & E' & C').
  destruct (hold_value (-1) (mix (1 / 2) (-1) 1) cf K orders p Hcf HK Hlen Hpos Hw) as (zm & m & Hzm & Bm & Em & Cm).
  exists z, z', zm, n, n', m. change (mixl (1 / 2) [-1] [1]) with [mix (1 / 2) (-1) 1]. repeat (split; [assumption|]). rewrite C, C', Cm. unfold mix. nred. lra.
Qed.
