(** Worked examples for residuals of the optimizer with variable segment widths. *)
From Coq Require Import String.
From Coq Require Import Reals.
From Coquelicot Require Import Coquelicot.
From Coq Require Import List Lia Lra Bool Arith.
From Verif Require Import Num PyList Mat Poly Roots Colloc Ocp Transcribe Solve Hadapt Resid Adaptive Post Spec SpecOcp SpecSolve SpecHadapt SpecResid SpecAdapt SpecPost
  NumR ListR PolyR CollocR ScaleR NlpMain ExOcp ExNlp AdaptThm AdaptMain AdResid.
Import ListNotations.
Open Scope R_scope.

(** one state with derivative 1, one control, final time 1 *)
Definition rise : ocp Rnum :=
  Ocp (N := Rnum) 1 1 0 1
    [fun _ _ _ _ => Ok [1]] [fun _ _ _ _ => Ok None] [fun _ _ _ _ _ => Ok (Some 0)]
    [fun _ _ _ _ => Ok (Some 0)] [fun _ _ _ _ _ => Ok None] []
    [1] [1] [] 1 [[0]] [[0]] [[0]] [[0]] [[0]] [[1]] [[]]
    [[NInf]] [[PInf]] [[NInf]] [[PInf]] [[]] [[]]
    [[Fin 0]] [[Fin 0]] [[Fin 1]] [[Fin 1]] [] [] [false] [Fin (-15)] [Fin 15] [false] [false].
Lemma rise_shapes : shapes_ok rise.
Proof.
  constructor; cbn; auto; try (apply shaped1; reflexivity).
  - split; [reflexivity|]. intros H. lia.
  - split; [reflexivity|]. intros H. lia.
  - intros [|i] [|j] Hi Hj; try lia; cbn; auto.
  - intros [|i] [|j] Hi Hj; try lia; cbn; auto.
  - intros i j Hi Hj; lia.
  - intros [|i] [|j] Hi Hj; try lia; cbn; lra.
  - intros [|i] [|j] Hi Hj; try lia; cbn; lra.
  - intros i j Hi Hj; lia.
Qed.
Lemma rise_ok : ocp_ok rise (fun _ => None) (fun _ => None).
Proof.
  constructor; [exact rise_shapes|cbn; lia|..].
  - intros ph f x u t a H _ _ _. one ph H; eexists; split; reflexivity.
  - intros ph f x u t a H _ _ _. one ph H; eexists; reflexivity.
  - intros ph f xf tf x0 t0 a H _ _ _. one ph H; eexists; reflexivity.
  - intros ph f x u t a H _ _ _. one ph H; reflexivity.
  - intros ph f xf tf x0 t0 a H _ _ _. one ph H; reflexivity.
  - reflexivity.
  - reflexivity.
  - reflexivity.
  - reflexivity.
  - reflexivity.
  - intros; cbn; lia.
  - intros i j [].
  - cbn. lia.
  - intros H. cbn in H. lia.
Qed.
Lemma rise_scales : scales_pos rise.
Proof. constructor; cbn; [intros s [<-|[]]; lra|intros s [<-|[]]; lra|intros s []|lra]. Qed.
Definition rise_mp : mpo Rnum := Mpo rise 2 [1; 1]%nat (demo_cf "LGR").
Lemma rise_mp_ok : mpo_ok rise_mp.
Proof.
  constructor; cbn [rise_mp mp_cf mp_nseg mp_orders]; [apply demo_cf_ok; cbn; auto|reflexivity|lia|].
  intros p [<-|[<-|[]]]; lia.
Qed.
Lemma rise_roots : mapM (c_roots (mp_cf rise_mp)) (mp_orders rise_mp) = Ok [[-1; 1]; [-1; 1]].
Proof. exact (demo_roots 1 0 [1] false false [0] [0] 2). Qed.
Definition rise_ac : acfg Rnum := default_acfg (N := Rnum) 1.

(** it equals time, whatever the length a of the first segment *)
Section Rise.
Variable a : R.
Hypothesis Ha : 1 / 10 <= a <= 9 / 10.
Let p := [a; 1 - a].
Let y := Utraj (fun i _ => match i with O => 0 | 1%nat => a | _ => 1 end) (fun _ _ => 0) 0 1 (fun _ => 0).
Lemma rise_line k c : (k < 2)%nat -> seg_interp [1; 1]%nat k (nth k [[-1; 1]; [-1; 1]] []) (fun i => y_x y i 0) c ->
  forall x, peval c x = (y_x y k 0 + y_x y (S k) 0) / 2 + nth k p 0 / 2 * x.
Proof.
  intros Hk Hc x. rewrite (demo_line 2 k (fun i => y_x y i 0) c Hk Hc x).
  destruct k as [|[|k]]; [| |lia]; cbn; field.
Qed.
Lemma rise_point : exists z n, ad_input_ok rise_ac rise_mp (fun _ => None) (fun _ => None) z /\
  a_nlp_at rise_ac rise_mp z = Ok n /\ feasible n /\ own_widths rise_mp z p /\ same_traj rise_mp (ad_traj rise_mp z 0) y.
Proof.
  destruct (feasible_pack rise_mp _ _ (fun _ => y) p rise_mp_ok rise_ok rise_scales eq_refl) as (rs & n0 & R1 & R2 & R3 & _).
  rewrite rise_roots in R1. assert (rs = [[-1; 1]; [-1; 1]]) by (nred; congruence). subst rs. clear R1.
  set (z0 := pack rise_mp (fun _ => y)) in *.
  assert (Hz0 : length z0 = (o_nph (mp_ocp rise_mp) * nvars rise_mp)%nat) by apply length_pack.
  assert (Hy0 : same_traj rise_mp (user_traj rise_mp z0 0) y) by (apply pack_traj; [exact rise_shapes|exact rise_scales|cbn; lia]).
  destruct (ad_join rise_mp z0 p Hz0 eq_refl) as (z & Hz & Hsame).
  assert (Hain : ad_input_ok rise_ac rise_mp (fun _ => None) (fun _ => None) z).
  { constructor; [exact rise_mp_ok|exact rise_ok|exact rise_scales|exact Hz|reflexivity..]. }
  destruct (ad_vs_fixed rise_ac rise_mp _ _ z Hain z0 p Hz0 eq_refl Hsame) as (rs & n & n0' & E1 & E2 & E3 & _ & E5).
  assert (n0' = n0) by (nred; congruence). subst n0'. rewrite rise_roots in E1. assert (rs = [[-1; 1]; [-1; 1]]) by (nred; congruence). subst rs.
  destruct (Hsame 0%nat ltac:(cbn; lia)) as [Hsame0 Hw0].
  assert (Ht : same_traj rise_mp (ad_traj rise_mp z 0) y) by (eapply same_trans; [exact Hsame0|exact Hy0]).
  assert (Hw : forall k, (k < 2)%nat -> ad_width rise_mp z 0 k = nth k p 0).
  { intros k Hk. rewrite Hw0 by (cbn; lia). reflexivity. }
  exists z, n. split; [exact Hain|]. split; [exact E2|]. split; [|split; [|exact Ht]].
  2: { split; [reflexivity|]. intros ph k Hph Hk. symmetry. apply (proj2 (Hsame ph Hph) k Hk). }
  apply E5.
  - intros [|ph] Hph; [reflexivity|cbn in Hph; lia].
  - split.
    + apply R3. split; [|split; [|intros H; cbn in H; lia]].
      * intros ph Hph. cbn in Hph. assert (ph = 0)%nat as -> by lia. split; [|split; [|split; [|split]]].
        -- intros i [|s] Hi Hs; [|cbn in Hs; lia]. cbn. destruct (Nat.eqb_spec i 0); [subst i; reflexivity|split; exact I].
        -- intros i [|c] Hi Hc; [|cbn in Hc; lia]. split; exact I.
        -- cbn. unfold bnd. cbn. split; cbn; lra.
        -- cbn. unfold bnd. cbn. split; cbn; lra.
        -- intros i Hi. cbn in Hi. lia.
      * intros ph Hph. cbn in Hph. assert (ph = 0)%nat as -> by lia. split; [|split; [|split; [|split; [|split]]]].
        -- intros i k j [|s] c Ho Hs Hc; [|cbn in Hs; lia]. pose proof (NlpThm.owned_seg rise_mp i k j Ho) as Hk. cbn in Hk.
           replace (seg_h (mp_cf rise_mp) (width rise_mp p 0) y k * _) with (nth k p 0 / 2); [eapply line_derive; exact (rise_line k c Hk Hc)|].
           destruct k as [|[|k]]; [| |lia]; cbn; nred; unfold seg_h, width; cbn; field.
        -- intros i k j c Ho Hc. cbn in Hc. destruct Hc.
        -- intros Hd. discriminate.
        -- intros Hd. discriminate.
        -- intros Hd. discriminate.
        -- intros c Hc. cbn in Hc. destruct Hc.
    + intros ph Hph w' y'. cbn in Hph. assert (ph = 0)%nat as -> by lia. unfold w', y'. clear w' y'.
      destruct Ht as (Hx & _ & T0 & Tf & _). split; [|split; [|split; [|split]]].
      * unfold width_sum_ok. cbn [rise_mp mp_orders length Rsum]. fold rise_mp. rewrite !Hw by lia. cbn. lra.
      * intros k Hk. cbn in Hk. rewrite Hw by lia. change (within (Fin (@nlit Rnum 1 10000)) (Fin 1) (nth k p 0)). rewrite nlit_R. unfold within; cbn [above below].
        destruct k as [|[|k]]; [| |lia]; cbn; lra.
      * intros k q j c' c Hk Hj Hq Hc. cbn in Hq. destruct c' as [|c']; [|lia]. cbn. split; exact I.
      * intros k q j c' c Hk Hj Hq Hc. cbn in Hq. destruct c' as [|c']; [|lia]. cbn. split; exact I.
      * intros _ k q j s cx cu Hk Hj Hq [Hc _].
        assert (Hk2 : (k < 2)%nat) by (change 2%nat with (length (mp_orders rise_mp)); apply nth_error_Some; congruence).
        assert (s = 0)%nat as -> by (cbn in Hq; lia). specialize (Hc 0%nat ltac:(cbn; lia)).
        assert (Hc' : seg_interp [1; 1]%nat k (nth k [[-1; 1]; [-1; 1]] []) (fun i => y_x y i 0) (cx 0%nat)).
        { destruct Hc as [C1 C2]. split; [exact C1|]. intros i Hi. rewrite (C2 i Hi). apply Hx; [|cbn; lia].
          cbn [rise_mp mp_orders]. destruct k as [|[|k]]; [| |lia]; cbn in Hi |- *; lia. }
        unfold defect. rewrite (line_Derive _ _ _ _ (rise_line k _ Hk2 Hc')).
        unfold rate. replace (nth 0 (dyn_along _ _ _ _ _ _ _) 0) with 1 by reflexivity.
        replace (_ * (_ * _)) with 0; [rewrite Rabs_R0; change (0 <= @nlit Rnum 1 1000); rewrite nlit_R; lra|].
        unfold seg_h. rewrite Hw by exact Hk2. rewrite T0, Tf. cbn. field.
Qed.
End Rise.
Lemma rise_in_order a : 1 / 10 <= a <= 9 / 10 -> widths_ok 2 1 [a; 1 - a].
Proof. intros Ha. split; [reflexivity|]. intros [|ph] Hph; [|lia]. split; [reflexivity|]. split; [|cbn; lra]. cbn. intros w [<-|[<-|[]]]; lra. Qed.

(** residuals of one solution when the widths of another are stored *)
Lemma stale_residuals : exists ac mp npath nterm z z' n n' sw nodes ts res, ad_input_ok ac mp npath nterm z /\ ad_input_ok ac mp npath nterm z' /\
  a_nlp_at ac mp z = Ok n /\ feasible n /\ a_nlp_at ac mp z' = Ok n' /\ feasible n' /\ own_widths mp z' sw /\
  mapM (c_roots (mp_cf mp)) (mp_orders mp) = Ok [[-1; 1]; [-1; 1]] /\ nodes = [[[-1; 1]; [1]]] /\
  (forall rc gt, a_dynamics_residuals rc mp sw z (Some nodes) gt false = Ok (ts, res)) /\
  res = [[Some [[- (1 / 8)]; [- (1 / 8)]]; Some [[1 / 8]]]].
Proof.
  destruct (rise_point (1 / 4) ltac:(lra)) as (z & n & H1 & H2 & H3 & H4 & H5).
  destruct (rise_point (1 / 2) ltac:(lra)) as (z' & n' & H1' & H2' & H3' & H4' & H5').
  set (nodes := [[[-1; 1]; [1]]] : list (list (list R))).
  exists rise_ac, rise_mp, (fun _ => None), (fun _ => None), z, z', n, n', [1 / 2; 1 - 1 / 2], nodes.
  exists [[map (seg_time (mp_cf rise_mp) (ad_width rise_mp z 0) (ad_traj rise_mp z 0) 0) [-1; 1]; map (seg_time (mp_cf rise_mp) (ad_width rise_mp z 0) (ad_traj rise_mp z 0) 1) [1]]].
  exists [[Some [[- (1 / 8)]; [- (1 / 8)]]; Some [[1 / 8]]]].
  do 7 (split; [assumption|]). split; [exact rise_roots|]. split; [reflexivity|]. split; [|reflexivity]. intros rc gt.
  destruct (stored_values rc rise_ac rise_mp _ _ z [1 / 2; 1 - 1 / 2] nodes gt H1 eq_refl eq_refl) as (rs & ts & res & E1 & E2 & L1 & L2 & H).
  { intros taus [<-|[]]; reflexivity. }
  rewrite rise_roots in E1. assert (rs = [[-1; 1]; [-1; 1]]) by (nred; congruence). subst rs. nred. rewrite E2. f_equal.
  destruct (H 0%nat ltac:(cbn; lia)) as (M1 & M2 & M3 & M4).
  destruct (M3 0%nat ltac:(cbn; lia)) as (cx0 & cu0 & Hc0). destruct (M3 1%nat ltac:(cbn; lia)) as (cx1 & cu1 & Hc1).
  destruct (M4 0%nat [-1; 1] cx0 cu0 eq_refl Hc0) as [A1 A2]. destruct (M4 1%nat [1] cx1 cu1 eq_refl Hc1) as [B1 B2].
  destruct H5 as (Hx & _ & T0 & Tf & _). rewrite T0, Tf in A2, B2. cbn in T0, Tf.
  assert (D0 : forall x, Derive (peval (cx0 0%nat)) x = 1 / 4 / 2).
  { intros x. apply (line_Derive _ ((0 + 1 / 4) / 2)). intros x'. etransitivity; [apply (demo_line 2 0 _ _ ltac:(lia) (proj1 Hc0 0%nat ltac:(cbn; lia)))|].
    rewrite !Hx by (cbn; lia). cbn. field. }
  assert (D1 : forall x, Derive (peval (cx1 0%nat)) x = 3 / 4 / 2).
  { intros x. apply (line_Derive _ ((1 / 4 + 1) / 2)). intros x'. etransitivity; [apply (demo_line 2 1 _ _ ltac:(lia) (proj1 Hc1 0%nat ltac:(cbn; lia)))|].
    rewrite !Hx by (cbn; lia). cbn. field. }
  destruct ts as [|t0 [|t1 ts]]; try discriminate. destruct res as [|r0 [|r1 res]]; try discriminate.
  cbn [nth] in M1, M2, A1, A2, B1, B2. cbn in M1, M2.
  destruct t0 as [|a0 [|a1 [|a2 t0]]]; try discriminate. destruct r0 as [|b0 [|b1 [|b2 r0]]]; try discriminate.
  cbn [nth_error] in A1, A2, B1, B2.
  injection A1 as ->. injection B1 as ->. injection A2 as ->. injection B2 as ->.
  f_equal. unfold state_rows. cbn [map vec rise_mp mp_ocp rise o_nx seq o_scale_x nth]. fold rise_mp. rewrite !D0, !D1.
  repeat match goal with |- context [nth 0 (dyn_along ?a ?b ?c ?d ?e ?f ?g) 0] => change (nth 0 (dyn_along a b c d e f g) 0) with 1 end.
  change (width rise_mp [1 / 2; 1 - 1 / 2] 0 0) with (1 / 2). change (width rise_mp [1 / 2; 1 - 1 / 2] 0 1) with (1 - 1 / 2). cbn.
  replace (1 * (1 / 4 / 2 - (1 - 0) * (1 / 2) / (1 - -1) * 1)) with (- (1 / 8)) by field.
  replace (1 * (3 / 4 / 2 - (1 - 0) * (1 - 1 / 2) / (1 - -1) * 1)) with (1 / 8) by field. reflexivity.
Qed.
Lemma rise_lbh : forall b, In b (ac_lbh rise_ac) -> exists h, b = Fin h /\ 0 < h.
Proof. intros b [<-|[]]. eexists. split; [reflexivity|]. rewrite nlit_R. lra. Qed.
Lemma rise_fixed : exists z z0, ad_input_ok rise_ac rise_mp (fun _ => None) (fun _ => None) z /\
  length z0 = (o_nph (mp_ocp rise_mp) * nvars rise_mp)%nat /\ own_widths rise_mp z [1 / 4; 1 - 1 / 4] /\
  (forall ph, (ph < o_nph (mp_ocp rise_mp))%nat -> same_traj rise_mp (ad_traj rise_mp z ph) (user_traj rise_mp z0 ph)).
Proof.
  destruct (rise_point (1 / 4) ltac:(lra)) as (z & n & H1 & H2 & H3 & H4 & _). destruct (strip _ _ _ _ _ _ H1 H4) as (z0 & L1 & _ & H). exists z, z0.
  do 3 (split; [assumption|]). intros ph Hph. apply (H ph Hph).
Qed.
Lemma rise_process rx rdx : exists z po, ad_input_ok rise_ac rise_mp (fun _ => None) (fun _ => None) z /\
  a_process_results (Rcfg 9 ["fixed"]%string) rise_mp [[0]%nat] [1 / 4; 1 - 1 / 4] z false rx rdx = Ok po.
Proof.
  destruct (rise_point (1 / 4) ltac:(lra)) as (z & n & H1 & H2 & H3 & H4 & _).
  destruct (feasible_process (Rcfg 9 ["fixed"]%string) _ _ _ _ _ _ n [[0]%nat] false rx rdx H1 H4 rise_lbh H2 H3 ltac:(discriminate)) as (po & E); [|exists z, po; auto].
  intros ph Hph. cbn in Hph. assert (ph = 0)%nat as -> by lia. exists "fixed"%string. split; [reflexivity|cbn; auto].
Qed.
