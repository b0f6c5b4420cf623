(** Functions that differ outside the bounds (examples for C85). *)
From Coq Require Import Reals Lia Lra Bool Arith String.
From Coquelicot Require Import Coquelicot.
From Coq Require Import List.
From Verif Require Import Num PyList Mat Poly Roots Colloc Ocp Transcribe Spec SpecOcp SpecCoord SpecBeside SpecLocal NumR ListR PolyR CollocR CompR CollocThm MeshR BlockR DiscR NlpR OcpR NlpThm ScaleR CostR ConvexR TransR ExOcp ExNlp ExTail BesideR ExBeside LocalR.
Import ListNotations.
Open Scope R_scope.

(** the problem of ExBeside with controls cut at 1, where the path constraint has them, and the cost of final states without their signs *)
Definition cut_dyn : list (@dyn_fn Rnum) := [fun _ u _ _ => Ok (map (fun v : R => Rmin v 1) u)].
Definition abs_mayer (c : R) : list (@mayer_fn Rnum) := [fun xf tf _ _ _ => Ok (Some (c * tf + total_of (map Rabs xf)))].
Definition cut_movers (n : nat) (c lo hi : R) : ocp Rnum :=
  let o := movers n c lo hi in with_functions o cut_dyn (o_path o) (abs_mayer c) (o_run o) (o_term o).
Lemma cut_ok n c lo hi : (1 <= n)%nat -> lo <= hi -> ocp_ok (cut_movers n c lo hi) (fun _ => Some n) (fun _ => None).
Proof.
  intros Hn Hlh. pose proof (movers_ok n c lo hi Hn Hlh) as [S0 S1 S2 S3 S4 S5 S6 S7 S8 S9 S10 S11 S12 S13 S14 S15]. constructor; auto.
  - destruct S0. constructor; auto.
  - intros ph f x u t b H _ Hu _. one ph H; eexists; split; [reflexivity|]; exact (eq_trans (map_length _ _) Hu).
  - intros ph f xf tf y0 t0 b H _ _ _. one ph H; eexists; reflexivity.
Qed.
Lemma map_same {A} (f : A -> A) l : (forall x, In x l -> f x = x) -> map f l = l.
Proof. induction l as [|x l IH]; intros H; [reflexivity|]. cbn. rewrite H by now left. rewrite IH; [reflexivity|]. intros; apply H; now right. Qed.
Lemma cut_alike n c lo hi : let o := movers n c lo hi in alike_within o cut_dyn (o_path o) (abs_mayer c) (o_run o) (o_term o).
Proof.
  intros o. constructor.
  - intros ph f g e x u t a Ef Eg Ee _ _ _ HP. one ph Ef. injection Eg as <-. injection Ee as <-. f_equal. apply map_same. intros v Hv. apply Rmin_left. pose proof (HP (map (fun v => v - 1) u) (v - 1) eq_refl (in_map (fun v => v - 1) u v Hv)). lra.
  - intros ph f g x u t a Ef Eg _ _ _. rewrite Ef in Eg. injection Eg as <-. reflexivity.
  - intros ph f g x u t a Ef Eg _ _ _. rewrite Ef in Eg. injection Eg as <-. reflexivity.
  - intros ph f g xf tf x0 t0 a Ef Eg (L & HX) _ _. one ph Ef. injection Eg as <-. do 3 f_equal. apply (f_equal total_of), map_same. intros v Hv. apply Rabs_right, Rle_ge.
    destruct HX as [HX|(_ & ->)]; [|cbn in Hv; apply repeat_spec in Hv; subst; apply Rle_refl].
    destruct (In_nth _ _ 0 Hv) as (s & Hs & <-). cbn in L. nred. rewrite L in Hs. destruct (HX s Hs) as (A & _). unfold bnd in A. cbn in A. rewrite nth_repeat_in in A by exact Hs. exact A.
  - intros ph f g xf tf x0 t0 a Ef Eg _ _ _. rewrite Ef in Eg. injection Eg as <-. reflexivity.
Qed.

(** a state that starts at -1, below its bound 0, and moves at the speed of the control and of [f] *)
Definition late_dyn (f : R -> R) : list (@dyn_fn Rnum) := [fun x u _ _ => Ok [nth 0 u 0 + f (nth 0 x 0)]].
Definition late : ocp Rnum :=
  Ocp (N := Rnum) 1 1 0 1
    (late_dyn (fun _ => 0)) [fun _ _ _ _ => Ok None] [fun _ _ _ _ _ => Ok (Some 0)] [fun _ _ _ _ => Ok (Some 0)] [fun _ _ _ _ _ => Ok None] []
    [1] [1] [] 1 [[-1]] [[1]] [[0]] [[0]] [[0]] [[2]] [[]]
    [[Fin 0]] [[PInf]] [[NInf]] [[PInf]] [[]] [[]]
    [[Fin 0]] [[Fin 0]] [[Fin 2]] [[Fin 2]] [] [] [false] [Fin (-15)] [Fin 15] [false] [false].
Definition late_with f : ocp Rnum := with_functions late (late_dyn f) (o_path late) (o_mayer late) (o_run late) (o_term late).
Lemma late_ok f : ocp_ok (late_with f) (fun _ => None) (fun _ => None).
Proof.
  constructor.
  { constructor; cbn; auto; try (apply shaped1; reflexivity).
    - split; [reflexivity|]. intros H. lia.
    - split; [reflexivity|]. intros H. lia.
    - intros [|i] [|j] Hi Hj; try lia; cbn; auto; lra.
    - intros [|i] [|j] Hi Hj; try lia; cbn; auto; lra.
    - intros i j Hi Hj; lia.
    - intros [|i] [|j] Hi Hj; try lia; cbn; auto; lra.
    - intros [|i] [|j] Hi Hj; try lia; cbn; auto; lra.
    - intros i j Hi Hj; lia. }
  - cbn; lia.
  - intros ph g x u t b H _ _ _. one ph H; eexists; split; reflexivity.
  - intros ph g x u t b H _ _ _. one ph H; eexists; reflexivity.
  - intros ph g xf tf y0 t0 b H _ _ _. one ph H; eexists; reflexivity.
  - intros ph g x u t b H _ _ _. one ph H; reflexivity.
  - intros ph g xf tf y0 t0 b H _ _ _. one ph H; reflexivity.
  - reflexivity.
  - reflexivity.
  - reflexivity.
  - reflexivity.
  - reflexivity.
  - intros; cbn; lia.
  - intros i j [].
  - cbn; lia.
  - cbn; intros H; lia.
Qed.
Lemma late_scales f : scales_pos (late_with f).
Proof. constructor; cbn; [intros s [<-|[]]; lra|intros s [<-|[]]; lra|intros s []|lra]. Qed.
Definition late_mp f : mpo Rnum := Mpo (late_with f) 1 [1%nat] (demo_cf "LGL").
Lemma late_in f z : length z = nvars (late_mp f) -> input_ok (late_mp f) (fun _ => None) (fun _ => None) z [1].
Proof.
  intros Hz. constructor; [|exact (late_ok f)|exact (late_scales f)|cbn [late_mp mp_ocp late_with with_functions o_nph]; rewrite Hz; symmetry; apply Nat.mul_1_l|reflexivity].
  constructor; [apply demo_cf_ok; cbn; auto|reflexivity|cbn; lia|]. intros q [<-|[]]. lia.
Qed.
Definition rise : utraj := Utraj (fun i _ => 2 * INR i - 1) (fun _ _ => 1) 0 2 (fun _ => 0).
Lemma late_case f : exists (z : list R) n, length z = nvars (late_mp f) /\ z = pack (late_mp (fun _ => 0)) (fun _ => rise) /\ nlp_at (late_mp f) z [1] = Ok n /\ (feasible n <-> f (-1) = 0 /\ f 1 = 0).
Proof.
  set (mp := late_mp f). set (z := pack (late_mp (fun _ => 0)) (fun _ => rise)). exists z.
  assert (Lz : length z = nvars mp) by (unfold z; rewrite length_pack; reflexivity).
  assert (HS : same_traj mp (user_traj mp z 0) rise) by (apply (pack_traj mp (fun _ => rise) 0 (ok_shapes _ _ _ (late_ok f)) (late_scales f)); cbn; lia).
  assert (HS' : forall ph, (ph < 1)%nat -> same_traj mp (user_traj mp z ph) ((fun _ => rise) ph)) by (intros ph Hph; assert (ph = 0)%nat as -> by lia; exact HS).
  destruct (nlp_like mp _ _ z [1] (fun _ => rise) (late_in f z Lz) HS') as (rs & m & Er & En & _ & HF & _).
  injection Er as <-. exists m. split; [exact Lz|]. split; [reflexivity|]. split; [exact En|]. rewrite HF.
  assert (Hh : seg_h (mp_cf mp) (width mp [1] 0) rise 0 = 1) by (unfold seg_h, width; cbn; lra).
  split.
  - intros (_ & P & _). destruct (P 0%nat ltac:(cbn; lia)) as (D & _).
    destruct (interp_exists [-1; 1] (fun j => y_x rise j 0%nat)) as (c & Hc); [repeat constructor; cbn; intuition lra|].
    assert (X : forall j, (j <= 1)%nat -> f (2 * INR j - 1) = 0).
    { intros j Hj. pose proof (D j 0%nat j 0%nat c ltac:(exists 1%nat; repeat split; auto) ltac:(cbn; lia) Hc) as X1. apply is_derive_unique in X1. rewrite (line_Derive _ _ _ _ (demo_line 1 0 (fun j => y_x rise j 0%nat) c (le_n 1) Hc)) in X1.
      rewrite Hh in X1. unfold dyn_val in X1. cbn [mp late_mp mp_ocp late_with with_functions o_dyn late_dyn nth_error nth o_nx o_nu late vec seq map] in X1. cbn [rise y_x y_u] in X1. change (INR 1) with 1 in X1. change (INR 0) with 0 in X1. cbn [nth] in X1. lra. }
    split; [pose proof (X 0%nat ltac:(lia)) as E; cbn in E; replace (2 * 0 - 1) with (-1) in E by ring; exact E|pose proof (X 1%nat ltac:(lia)) as E; cbn in E; replace (2 * 1 - 1) with 1 in E by ring; exact E].
  - intros (F0 & F1). split; [|split].
    + intros [|ph] Hph; [|cbn in Hph; lia]. split; [|split; [|split; [|split]]].
      * intros [|[|i]] [|s] Hi Hs; cbn in Hi, Hs; try lia; cbn; [ring|split; [cbn; lra|exact I]].
      * intros i [|s] Hi Hs; [|cbn in Hs; lia]. split; exact I.
      * split; cbn; lra.
      * split; cbn; lra.
      * intros i Hi. cbn in Hi. lia.
    + intros [|ph] Hph; [|cbn in Hph; lia]. quiet. intros i k j [|s] c Hoo Hs Hc; [|cbn in Hs; lia].
      destruct Hoo as (q & Eq & Hj & H & ->). pose proof (MeshR.nth_error_lt _ _ _ Eq) as Hk. cbn in Hk. assert (k = 0)%nat as -> by lia. injection Eq as <-.
      pose proof (line_derive c _ _ (nth j [-1; 1] 0) (demo_line 1 0 (fun j => y_x rise j 0%nat) c (le_n 1) Hc)) as X1. refine (is_derive_ext_val _ _ _ _ _ X1). rewrite Hh.
      change ((2 * 1 - 1 - (2 * 0 - 1)) / 2 = 1 * (1 + f (2 * INR j - 1))).
      destruct j as [|[|j]]; [| |lia]; cbn [INR]; [replace (2 * 0 - 1) with (-1) by ring; rewrite F0; lra|replace (2 * 1 - 1) with 1 by ring; rewrite F1; lra].
    + intros H. cbn in H. lia.
Qed.
