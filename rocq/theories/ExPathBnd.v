(** Problems that change when their bounds become path constraints (examples for C75). *)
From Coq Require Import Reals Lia Lra Psatz Bool Arith String.
From Coquelicot Require Import Coquelicot.
From Coq Require Import List.
From Verif Require Import Num PyList Mat Poly Roots Colloc Ocp Transcribe Spec SpecOcp SpecHadapt SpecPathBnd NumR ListR PolyR CompR MeshR BlockR DiscR NlpR NlpThm CostR ScaleR ExactR TransR ExOcp ExTrack PathBndR.
Import ListNotations.
Open Scope R_scope.

(** x' = d u from 0, state within lo and hi, control within -1 and 1, midpoints bounded or not *)
Definition box (d : R) (lo hi : ext R) (m : bool) : ocp Rnum :=
  Ocp (N := Rnum) 1 1 0 1
    [fun _ u _ _ => Ok [d * nth 0 u 0]] [fun _ _ _ _ => Ok None] [fun xf _ _ _ _ => Ok (Some 0)]
    [fun _ _ _ _ => Ok (Some 0)] [fun _ _ _ _ _ => Ok None] []
    [1] [1] [] 1 [[0]] [[0]] [[0]] [[0]] [[0]] [[1]] [[]]
    [[lo]] [[hi]] [[Fin (-1)]] [[Fin 1]] [[]] [[]]
    [[Fin 0]] [[Fin 0]] [[Fin 1]] [[Fin 1]] [] [] [false] [Fin (-15)] [Fin 15] [m] [false].
Lemma box_ok d lo hi m : ext_le lo hi -> ocp_ok (box d lo hi m) (fun _ => None) (fun _ => None).
Proof.
  intros Hl. constructor.
  { constructor; cbn; auto; try (apply shaped1; reflexivity).
    - split; [reflexivity|]. intros H. lia.
    - split; [reflexivity|]. intros H. lia.
    - intros [|i] [|j] Hi Hj; try lia; cbn. exact Hl.
    - intros [|i] [|j] Hi Hj; try lia; cbn; lra.
    - intros i j Hi Hj; lia.
    - intros [|i] [|j] Hi Hj; try lia; cbn; lra.
    - intros [|i] [|j] Hi Hj; try lia; cbn; lra.
    - intros i j Hi Hj; lia. }
  - cbn; lia.
  - intros ph f x u t a H _ _ _. one ph H; eexists; split; reflexivity.
  - intros ph f x u t a H _ _ _. one ph H; eexists; reflexivity.
  - intros ph f xf tf y0 t0 a H _ _ _. one ph H; eexists; reflexivity.
  - intros ph f x u t a H _ _ _. one ph H; reflexivity.
  - intros ph f xf tf y0 t0 a H _ _ _. one ph H; reflexivity.
  - reflexivity.
  - reflexivity.
  - reflexivity.
  - reflexivity.
  - reflexivity.
  - intros; cbn; lia.
  - intros i j [].
  - cbn; lia.
  - cbn; intros H; lia.
Qed.
Lemma box_scales d lo hi m : scales_pos (box d lo hi m).
Proof. constructor; cbn; [intros s [<-|[]]; lra|intros s [<-|[]]; lra|intros s []|lra]. Qed.

(** ** an initial state outside of the bounds *)
Definition outside_mp : mpo Rnum := Mpo (box 1 (Fin 1) (Fin 2) false) 1 [1%nat] (demo_cf "LGR").
Lemma outside_mpo : mpo_ok outside_mp.
Proof. constructor; cbn; auto; [apply demo_cf_ok; cbn; auto|intros q [<-|[]]; lia]. Qed.
Theorem start_outside : exists (z p : list R) n n', let o := box 1 (Fin 1) (Fin 2) false in
  length z = nvars outside_mp /\ length p = 1%nat /\ nlp_at outside_mp z p = Ok n /\ feasible n /\
  nlp_at (Mpo (paths_of_bounds o) 1 [1%nat] (demo_cf "LGR")) z p = Ok n' /\ ~ feasible n' /\ ~ start_inside o.
Proof.
  set (o := box 1 (Fin 1) (Fin 2) false). set (y := Utraj (fun i _ => INR i) (fun _ _ => 1) 0 1 (fun _ => 0)). set (z := pack outside_mp (fun _ => y)).
  assert (Hok : ocp_ok o (fun _ => None) (fun _ => None)) by (apply box_ok; cbn; lra).
  assert (Hz : length z = nvars outside_mp) by (unfold z; rewrite length_pack; change (o_nph (mp_ocp outside_mp)) with 1%nat; lia).
  assert (Hz1 : length z = (o_nph o * nvars outside_mp)%nat) by (change (o_nph o) with 1%nat; clear - Hz; nred; lia).
  assert (HI : input_ok outside_mp (fun _ => None) (fun _ => None) z (swing_p 1)) by (constructor; [exact outside_mpo|exact Hok|apply box_scales|exact Hz1|reflexivity]).
  assert (HP : forall ph, (ph < o_nph (mp_ocp outside_mp))%nat -> same_traj outside_mp (user_traj outside_mp z ph) y) by (intros ph Hph; exact (pack_traj outside_mp (fun _ => y) ph (ok_shapes _ _ _ Hok) (box_scales _ _ _ _) Hph)).
  destruct (nlp_like outside_mp _ _ z (swing_p 1) (fun _ => y) HI HP) as (rs & n & Er & En & Hrl & Hf & _).
  assert (rs = repeat [-1; 1] 1) as -> by (pose proof (eq_trans (eq_sym Er) (swing_roots 1)) as X; injection X as X; exact X).
  assert (F : feasible n).
  { apply Hf. split; [|split].
    - intros ph Hph. cbn in Hph. assert (ph = 0)%nat as -> by lia. split; [|split; [|split; [|split]]].
      + intros i s Hi Hs. cbn in Hi, Hs. assert (s = 0)%nat as -> by lia. destruct i as [|[|i]]; cbn; [reflexivity|split; cbn; lra|lia].
      + intros i c Hi Hs. cbn in Hs. assert (c = 0)%nat as -> by lia. split; cbn; lra.
      + split; cbn; lra.
      + split; cbn; lra.
      + intros i Hi. cbn in Hi. lia.
    - intros ph Hph. cbn in Hph. assert (ph = 0)%nat as -> by lia. split; [|split; [|split; [|split; [|split]]]].
      + intros i k j s c Ho Hs Hc'. cbn in Hs. assert (s = 0)%nat as -> by lia.
        assert (Hk : (k < 1)%nat) by (destruct Ho as (q & Eq & _); exact (nth_error_lt _ _ _ Eq)). assert (k = 0)%nat as -> by lia.
        pose proof (demo_line 1 0 _ c Hk Hc') as L. cbn beta in L.
        replace (seg_h (mp_cf outside_mp) (width outside_mp (swing_p 1) 0) y 0 * _) with ((y_x y 1 0 - y_x y 0 0) / 2).
        * eapply line_derive. exact L.
        * unfold seg_h. change (width outside_mp (swing_p 1) 0 0) with (width (swing_mp 1) (swing_p 1) 0 0). rewrite swing_width by lia. match goal with |- _ = _ * ?v => change v with (1 * 1) end. cbn. nred. field.
      + intros i k j c _ [].
      + intros H; discriminate H.
      + intros H; discriminate H.
      + intros H; discriminate H.
      + intros c [].
    - intros H. cbn in H. lia. }
  assert (NI : ~ start_inside o) by (intros H; specialize (H 0%nat ltac:(cbn; lia)); destruct H as [H _]; cbn in H; lra).
  destruct (paths_thm o 1 [1%nat] (demo_cf "LGR") (fun _ => None) (fun _ => None) (swing_p 1) outside_mpo Hok (box_scales _ _ _ _) eq_refl z Hz1) as (rs & n1 & n' & _ & En1 & En' & _ & _ & H).
  exists z, (swing_p 1), n, n'. intros o1. split; [exact Hz|]. split; [reflexivity|]. split; [exact En|]. split; [exact F|]. split; [exact En'|]. split; [|exact NI].
  intros F'. apply NI. apply H; [exact F'|]. intros ph Hph X. cbn in Hph. assert (ph = 0)%nat as -> by lia. discriminate X.
Qed.

(** ** controls that leave the bounds between the nodes *)
Lemma overshoot r0 r1 r2 (c : list R) : r0 < r1 -> r1 < r2 -> (length c <= 3)%nat -> peval c r0 = 1 -> peval c r1 = 1 -> peval c r2 = -1 -> 1 < peval c ((r0 + r1) / 2).
Proof.
  intros H1 H2 Lc E0 E1 E2. set (s := / ((r2 - r0) * (r2 - r1))). assert (Hd : 0 < (r2 - r0) * (r2 - r1)) by (apply Rmult_lt_0_compat; lra).
  assert (Hs : 0 < s) by (apply Rinv_0_lt_compat; exact Hd). assert (Es : s * ((r2 - r0) * (r2 - r1)) = 1) by (apply Rinv_l; lra).
  rewrite (interp_unique [r0; r1; r2] c [1 - 2 * s * (r0 * r1); 2 * s * (r0 + r1); - 2 * s]).
  - cbn. set (d := r1 - r0). replace r1 with (r0 + d) by (unfold d; ring). assert (0 < d) by (unfold d; lra). assert (0 < s * (d * d)) by (apply Rmult_lt_0_compat; [exact Hs|apply Rmult_lt_0_compat; assumption]).
    match goal with |- 1 < ?v => replace v with (1 + s * (d * d) / 2) by field end. lra.
  - constructor; [intros [E|[E|[]]]; lra|]. constructor; [intros [E|[]]; lra|]. constructor; [intros []|constructor].
  - exact Lc.
  - cbn. lia.
  - intros [|[|[|k]]] Hk; cbn [nth length] in *; [rewrite E0|rewrite E1|rewrite E2|lia]; cbn; [ring|ring|].
    replace (-1) with (1 - 2 * (s * ((r2 - r0) * (r2 - r1)))) by (rewrite Es; ring). ring.
Qed.
Section Between.
Variables (cf : ccfg Rnum) (p : list R).
Hypothesis Hcf : cfg_ok cf.
Hypothesis Hp : length p = 1%nat.
Let o := box 0 NInf PInf true.
Let mp : mpo Rnum := Mpo o 1 [2%nat] cf.
Definition bend : utraj := Utraj (fun _ _ => 0) (fun i _ => if Nat.eqb i 2 then -1 else 1) 0 1 (fun _ => 0).
Theorem between_outside : exists (z : list R) n n', length z = nvars mp /\ nlp_at mp z p = Ok n /\ ~ feasible n /\
  nlp_at (Mpo (paths_of_bounds o) 1 [2%nat] cf) z p = Ok n' /\ feasible n' /\ start_inside o.
Proof.
  set (y := bend). set (z := pack mp (fun _ => y)).
  assert (Hok : ocp_ok o (fun _ => None) (fun _ => None)) by (apply box_ok; exact I). assert (Hsc : scales_pos o) by apply box_scales.
  assert (Hmp : mpo_ok mp) by (constructor; cbn; auto; intros q [<-|[]]; lia).
  assert (Hz : length z = nvars mp) by (unfold z; rewrite length_pack; change (o_nph (mp_ocp mp)) with 1%nat; lia).
  assert (Hz1 : length z = (o_nph o * nvars mp)%nat) by (change (o_nph o) with 1%nat; clear - Hz; nred; lia).
  assert (HI : input_ok mp (fun _ => None) (fun _ => None) z p) by (constructor; [exact Hmp|exact Hok|exact Hsc|exact Hz1|exact Hp]).
  assert (HP : forall ph, (ph < o_nph (mp_ocp mp))%nat -> same_traj mp (user_traj mp z ph) y) by (intros ph Hph; exact (pack_traj mp (fun _ => y) ph (ok_shapes _ _ _ Hok) Hsc Hph)).
  destruct (nlp_at_ok mp Hmp _ _ Hok Hsc z p Hz1 Hp) as (rs & n0 & Er & _ & Hrs & Hg & _).
  destruct (nlp_like mp _ _ z p (fun _ => y) HI HP) as (rs1 & n & Er1 & En & Hrl & Hf & _).
  assert (rs1 = rs) as -> by (pose proof (eq_trans (eq_sym Er1) Er) as X; injection X as X; exact X).
  assert (Hmp' : mpo_ok (Mpo (paths_of_bounds o) 1 [2%nat] cf)) by (destruct Hmp; constructor; assumption).
  assert (Hsc' : scales_pos (paths_of_bounds o)) by (destruct Hsc; constructor; assumption).
  pose proof (paths_ok o _ _ Hok) as Hok'.
  assert (HI' : input_ok (Mpo (paths_of_bounds o) 1 [2%nat] cf) (more_paths o (fun _ => None)) (fun _ => None) z p) by (constructor; [exact Hmp'|exact Hok'|exact Hsc'|exact Hz1|exact Hp]).
  destruct (nlp_like (Mpo (paths_of_bounds o) 1 [2%nat] cf) _ _ z p (fun _ => y) HI' HP) as (rs2 & n' & Er2 & En' & _ & Hf' & _).
  assert (rs2 = rs) as -> by (pose proof (eq_trans (eq_sym Er2) Er) as X; injection X as X; exact X).
  destruct rs as [|r [|r' rs]]; try (cbn in Hrs; lia).
  pose proof (Hg 0%nat 2%nat r eq_refl eq_refl) as (Lr & Ir & _). destruct r as [|r0 [|r1 [|r2 [|r3 r]]]]; try (cbn in Lr; lia).
  assert (R01 : r0 < r1) by (exact (Ir 0%nat 1%nat ltac:(cbn; lia))). assert (R12 : r1 < r2) by (exact (Ir 1%nat 2%nat ltac:(cbn; lia))).
  assert (ND : NoDup [r0; r1; r2]) by (constructor; [intros [E|[E|[]]]; lra|]; constructor; [intros [E|[]]; lra|]; constructor; [intros []|constructor]).
  assert (SI : start_inside o) by (intros s Hs; cbn in Hs; assert (s = 0)%nat as -> by lia; split; exact I).
  exists z, n, n'. split; [exact Hz|]. split; [exact En|]. split; [|split; [exact En'|split; [|exact SI]]].
  - intros F. apply (proj1 Hf) in F. destruct F as (_ & P & _). destruct (P 0%nat ltac:(cbn; lia)) as (_ & _ & _ & M & _).
    destruct (interp_exists [r0; r1; r2] (fun j => y_u y (0 + j) 0%nat) ND) as (c & Hc).
    pose proof (M eq_refl 0%nat 2%nat 0%nat 0%nat c eq_refl ltac:(lia) ltac:(cbn; lia) Hc) as [_ U]. cbn [nth] in U.
    pose proof (overshoot r0 r1 r2 c R01 R12 (proj1 Hc) (proj2 Hc 0%nat ltac:(cbn; lia)) (proj2 Hc 1%nat ltac:(cbn; lia)) (proj2 Hc 2%nat ltac:(cbn; lia))) as V.
    cbn in U. clear - U V. nred. lra.
  - apply Hf'. split; [|split].
    + intros ph Hph. cbn in Hph. assert (ph = 0)%nat as -> by lia. split; [|split; [|split; [|split]]].
      * intros i s Hi Hs. cbn in Hs. assert (s = 0)%nat as -> by lia. destruct i as [|i]; cbn; [reflexivity|split; exact I].
      * intros i c Hi Hs. cbn in Hs. assert (c = 0)%nat as -> by lia. split; exact I.
      * split; cbn; lra.
      * split; cbn; lra.
      * intros i Hi. cbn in Hi. lia.
    + intros ph Hph. cbn in Hph. assert (ph = 0)%nat as -> by lia. split; [|split; [|split; [|split; [|split]]]].
      * intros i k j s c Ho Hs Hc. cbn in Hs. assert (s = 0)%nat as -> by lia.
        assert (Hk : (k < 1)%nat) by (destruct Ho as (q & Eq & _); exact (nth_error_lt _ _ _ Eq)). assert (k = 0)%nat as -> by lia.
        assert (E : forall x, peval c x = 0).
        { apply (many_roots_zero [r0; r1; r2] c ND (proj1 Hc)). intros v Hv. destruct (In_nth _ _ 0 Hv) as (l & Hl & <-). exact (proj2 Hc l Hl). }
        apply (is_derive_ext (fun _ => 0)); [intros t; symmetry; apply E|]. match goal with |- is_derive _ _ ?d => replace d with (@zero R_NormedModule) end; [apply (is_derive_const 0)|].
        match goal with |- _ = ?a * ?b => change b with (0 * y_u y i 0%nat) end. unfold zero; cbn. ring.
      * intros i k j c Ho. pose proof (owned_lt _ _ _ _ Ho) as Hi. revert c. apply (path_val_iff o _ _ Hok 0%nat y i _ ltac:(cbn; lia)). split; [intros c []|]. split.
        -- intros s Hs. cbn in Hs. assert (s = 0)%nat as -> by lia. split; exact I.
        -- intros c Hc. cbn in Hc. assert (c = 0)%nat as -> by lia. unfold y, bend; cbn [y_u]. destruct (Nat.eqb i 2); split; cbn; lra.
      * intros H; discriminate H.
      * intros _ k d j q c _ _ Hq _. cbn in Hq. assert (q = 0)%nat as -> by lia. split; exact I.
      * intros H; discriminate H.
      * intros c [].
    + intros H. cbn in H. lia.
Qed.
End Between.
