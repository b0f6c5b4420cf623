(** A state that slides at the speed of the control, forwards and backwards in time (examples for C83). *)
From Coq Require Import Reals Lia Lra Bool Arith String.
From Coquelicot Require Import Coquelicot.
From Coq Require Import List.
From Verif Require Import Num PyList Mat Poly Roots Colloc Ocp Transcribe Spec SpecOcp SpecHadapt SpecReverse NumR ListR PolyR CollocR CompR CollocThm MeshR BlockR DiscR NlpR OcpR NlpThm ScaleR CostR ConvexR TransR ExOcp ExNlp ExTail ReverseR.
Import ListNotations.
Open Scope R_scope.

(** x' = a u from x0 at time ta to time tb; the cost is the time it takes and the integral of u^2 *)
Definition slide (a x0 ta tb : R) : ocp Rnum :=
  Ocp (N := Rnum) 1 1 0 1
    [fun _ u _ _ => Ok [a * nth 0 u 0]] [fun _ _ _ _ => Ok None] [fun _ tf _ t0 _ => Ok (Some (tf - t0))]
    [fun _ u _ _ => Ok (Some (nth 0 u 0 * nth 0 u 0))] [fun _ _ _ _ _ => Ok None] []
    [1] [1] [] 1 [[x0]] [[x0]] [[0]] [[0]] [[ta]] [[tb]] [[]]
    [[NInf]] [[PInf]] [[NInf]] [[PInf]] [[]] [[]]
    [[Fin ta]] [[Fin ta]] [[Fin tb]] [[Fin tb]] [] [] [false] [Fin (-15)] [Fin 15] [false] [false].
Lemma slide_ok a x0 ta tb : ocp_ok (slide a x0 ta tb) (fun _ => None) (fun _ => None).
Proof.
  constructor.
  { constructor; cbn; auto; try (apply shaped1; reflexivity).
    - split; [reflexivity|]. intros H. lia.
    - split; [reflexivity|]. intros H. lia.
    - intros [|i] [|j] Hi Hj; try lia; cbn; auto; lra.
    - intros [|i] [|j] Hi Hj; try lia; cbn; auto; lra.
    - intros i j Hi Hj; lia.
    - intros [|i] [|j] Hi Hj; try lia; cbn; auto; lra.
    - intros [|i] [|j] Hi Hj; try lia; cbn; auto; lra.
    - intros i j Hi Hj; lia. }
  - cbn; lia.
  - intros ph f x u t b H _ _ _. one ph H; eexists; split; reflexivity.
  - intros ph f x u t b H _ _ _. one ph H; eexists; reflexivity.
  - intros ph f xf tf y0 t0 b H _ _ _. one ph H; eexists; reflexivity.
  - intros ph f x u t b H _ _ _. one ph H; reflexivity.
  - intros ph f xf tf y0 t0 b H _ _ _. one ph H; reflexivity.
  - reflexivity.
  - reflexivity.
  - reflexivity.
  - reflexivity.
  - reflexivity.
  - intros; cbn; lia.
  - intros i j [].
  - cbn; lia.
  - cbn; intros H; lia.
Qed.
Lemma slide_scales a x0 ta tb : scales_pos (slide a x0 ta tb).
Proof. constructor; cbn; [intros s [<-|[]]; lra|intros s [<-|[]]; lra|intros s []|lra]. Qed.
Section Slide.
Variables (a x0 ta tb : R) (K : nat) (p : list R).
Hypothesis HK : (1 <= K)%nat.
Hypothesis Hp : length p = K.
Let o := slide a x0 ta tb.
Definition slide_mp : mpo Rnum := Mpo (slide a x0 ta tb) K (repeat 1%nat K) (demo_cf "LGL").
Let mp := slide_mp.
Lemma slide_in z : length z = nvars mp -> input_ok mp (fun _ => None) (fun _ => None) z p.
Proof using HK Hp.
  intros Hz. constructor; [|exact (slide_ok a x0 ta tb)|exact (slide_scales a x0 ta tb)|cbn [mp slide_mp mp_ocp slide o_nph]; rewrite Hz; symmetry; apply Nat.mul_1_l|cbn; rewrite Nat.add_0_r; exact Hp].
  constructor; cbn [mp slide_mp mp_cf mp_nseg mp_orders]; [apply demo_cf_ok; cbn; auto|apply repeat_length|exact HK|]. intros q Hq. apply repeat_spec in Hq. lia.
Qed.
Lemma slide_roots : mapM (c_roots (demo_cf "LGL")) (repeat 1%nat K) = Ok (repeat [-1; 1] K).
Proof using. clear - K. induction K as [|n IH]; [reflexivity|]. cbn [repeat mapM]. nred. rewrite IH. reflexivity. Qed.
(** what a point has to meet *)
Definition slides (y : utraj) : Prop := y_x y 0 0 = x0 /\ y_t0 y = ta /\ y_tf y = tb /\
  forall k j, (k < K)%nat -> (j <= 1)%nat -> (k = 0 \/ 1 <= j)%nat -> (y_x y (S k) 0%nat - y_x y k 0%nat) / 2 = seg_h (demo_cf "LGL") (width mp p 0) y k * (a * y_u y (k + j) 0%nat).
Lemma slide_iff z y : length z = nvars mp -> same_traj mp (user_traj mp z 0) y -> exists n, nlp_at mp z p = Ok n /\ (feasible n <-> slides y).
Proof using HK Hp.
  intros Hz HS. assert (HS' : forall ph, (ph < 1)%nat -> same_traj mp (user_traj mp z ph) ((fun _ => y) ph)) by (intros ph Hph; assert (ph = 0)%nat as -> by lia; exact HS).
  destruct (nlp_like mp _ _ z p (fun _ => y) (slide_in z Hz) HS') as (rs & n & Er & En & _ & HF & _).
  assert (rs = repeat [-1; 1] K) as -> by (pose proof (eq_trans (eq_sym Er) slide_roots) as X; injection X as X; exact X).
  exists n. split; [exact En|]. rewrite HF. clear HF Er.
  assert (Hown : forall k j, (k < K)%nat -> (j <= 1)%nat -> (k = 0 \/ 1 <= j)%nat -> owned (repeat 1%nat K) (k + j) k j).
  { intros k j Hk Hj H. exists 1%nat. rewrite (nth_error_nth' _ 0%nat) by (rewrite repeat_length; exact Hk). rewrite nth_repeat_in by exact Hk. repeat split; auto. rewrite offset_ones by lia. reflexivity. }
  split.
  - intros (B & P & _). destruct (B 0%nat ltac:(cbn; lia)) as (X & _ & T0 & TF & _). destruct (P 0%nat ltac:(cbn; lia)) as (D & _).
    split; [exact (X 0%nat 0%nat ltac:(unfold total_nodes; lia) ltac:(cbn; lia))|]. split; [destruct T0 as (A1 & A2); cbn in A1, A2; lra|]. split; [destruct TF as (A1 & A2); cbn in A1, A2; lra|].
    intros k j Hk Hj H. destruct (interp_exists [-1; 1] (fun j => y_x y (k + j) 0%nat)) as (c & Hc); [repeat constructor; cbn; intuition lra|].
    assert (Hc' : seg_interp (repeat 1%nat K) k (nth k (repeat [-1; 1] K) []) (fun i => y_x y i 0%nat) c).
    { rewrite (nth_repeat_in (A := list R)) by exact Hk. unfold seg_interp. rewrite offset_ones by lia. exact Hc. }
    pose proof (D (k + j)%nat k j 0%nat c (Hown k j Hk Hj H) ltac:(cbn; lia) Hc') as X1. apply is_derive_unique in X1. rewrite (line_Derive _ _ _ _ (demo_line K k _ c Hk Hc')) in X1. exact X1.
  - intros (X & T0 & TF & D). split; [|split].
    + intros [|ph] Hph; [|cbn in Hph; lia]. split; [|split; [|split; [|split]]].
      * intros [|i] [|s] Hi Hs; [exact X|cbn in Hs; lia| |cbn in Hs; lia]. split; exact I.
      * intros i [|c] Hi Hc; [|cbn in Hc; lia]. split; exact I.
      * rewrite T0. split; cbn; apply Rle_refl.
      * rewrite TF. split; cbn; apply Rle_refl.
      * intros i Hi. cbn in Hi. lia.
    + intros [|ph] Hph; [|cbn in Hph; lia]. quiet. intros i k j [|s] c Hoo Hs Hc; [|cbn in Hs; lia]. cbn [mp slide_mp mp_orders mp_ocp mp_cf] in *.
      destruct Hoo as (q & Eq & Hj & H & ->). pose proof (MeshR.nth_error_lt _ _ _ Eq) as Hk. rewrite repeat_length in Hk.
      assert (q = 1)%nat as -> by (apply nth_error_In in Eq; apply repeat_spec in Eq; exact Eq). rewrite offset_ones by lia.
      specialize (D k j Hk Hj H). pose proof (line_derive c _ _ (nth j (nth k (repeat [-1; 1] K) []) 0) (demo_line K k _ c Hk Hc)) as X1. exact (is_derive_ext_val _ _ _ _ D X1).
    + intros H. cbn in H. lia.
Qed.
End Slide.
Lemma slide_pack a x0 ta tb K y : let mp := slide_mp a x0 ta tb K in length (pack mp (fun _ => y)) = nvars mp /\ same_traj mp (user_traj mp (pack mp (fun _ => y)) 0) y.
Proof.
  intros mp. split; [rewrite length_pack; apply Nat.mul_1_l|]. apply (pack_traj mp (fun _ => y) 0 (ok_shapes _ _ _ (slide_ok a x0 ta tb)) (slide_scales a x0 ta tb)). cbn. lia.
Qed.
(** forwards from 0 to 1 during two units of time, and backwards *)
Lemma slide_reverse : reverse (slide 1 0 0 2) (slide (-1) 1 (-2) 0).
Proof.
  constructor; try (cbn; auto; fail).
  - do 2 eexists. split; [reflexivity|]. split; [reflexivity|]. intros. cbn. do 2 f_equal. ring.
  - do 2 eexists. split; [reflexivity|]. split; [reflexivity|]. reflexivity.
  - do 2 eexists. split; [reflexivity|]. split; [reflexivity|]. reflexivity.
  - do 2 eexists. split; [reflexivity|]. split; [reflexivity|]. reflexivity.
  - do 2 eexists. split; [reflexivity|]. split; [reflexivity|]. intros. cbn. do 2 f_equal. nred. ring.
  - cbn. auto 10.
  - cbn. nred. repeat split; f_equal; ring.
  - cbn. nred. repeat split; f_equal; ring.
Qed.
Lemma slide_start a x0 ta tb : start_within (slide a x0 ta tb).
Proof. intros [|s] Hs; [|cbn in Hs; lia]. cbn. split; exact I. Qed.
Definition straight : utraj := Utraj (fun i _ => INR i) (fun _ _ => 1 / 2) 0 2 (fun _ => 0).
Lemma straight_case : exists (z z' : list R) n, length z = nvars (slide_mp 1 0 0 2 1) /\ length z' = nvars (slide_mp (-1) 1 (-2) 0 1) /\ nlp_at (slide_mp 1 0 0 2 1) z [1] = Ok n /\ feasible n /\
  arrives (slide_mp 1 0 0 2 1) (slide (-1) 1 (-2) 0) (user_traj (slide_mp 1 0 0 2 1) z 0) /\
  same_traj (slide_mp (-1) 1 (-2) 0 1) (user_traj (slide_mp (-1) 1 (-2) 0 1) z' 0) (backwards 1 (user_traj (slide_mp 1 0 0 2 1) z 0)).
Proof.
  destruct (slide_pack 1 0 0 2 1 straight) as (Lz & HS). set (z := pack (slide_mp 1 0 0 2 1) (fun _ => straight)) in *.
  destruct (slide_pack (-1) 1 (-2) 0 1 (backwards 1 (user_traj (slide_mp 1 0 0 2 1) z 0))) as (Lz' & HS').
  destruct (slide_iff 1 0 0 2 1 [1] (le_n 1) eq_refl z straight Lz HS) as (n & En & HF).
  exists z, (pack (slide_mp (-1) 1 (-2) 0 1) (fun _ => backwards 1 (user_traj (slide_mp 1 0 0 2 1) z 0))), n. split; [exact Lz|]. split; [exact Lz'|]. split; [exact En|]. split; [|split; [|exact HS']].
  - apply HF. split; [reflexivity|]. split; [reflexivity|]. split; [reflexivity|]. intros [|k] j Hk Hj _; [|lia]. cbn. unfold seg_h, width. cbn. field.
  - apply (arrives_congr _ _ straight); [apply same_sym; exact HS|reflexivity|]. intros [|s] Hs; [|cbn in Hs; lia]. reflexivity.
Qed.
(** at rest, then at speed 1, on two segments *)
Definition bend : utraj := Utraj (fun i _ => match i with S (S _) => 1 | _ => 0 end) (fun i _ => match i with S (S _) => 1 | _ => 0 end) 0 2 (fun _ => 0).
Lemma bend_case : exists (z z' : list R) n n', length z = nvars (slide_mp 1 0 0 2 2) /\ length z' = nvars (slide_mp (-1) 1 (-2) 0 2) /\
  nlp_at (slide_mp 1 0 0 2 2) z [1 / 2; 1 / 2] = Ok n /\ nlp_at (slide_mp (-1) 1 (-2) 0 2) z' [1 / 2; 1 / 2] = Ok n' /\
  feasible n /\ arrives (slide_mp 1 0 0 2 2) (slide (-1) 1 (-2) 0) (user_traj (slide_mp 1 0 0 2 2) z 0) /\
  same_traj (slide_mp (-1) 1 (-2) 0 2) (user_traj (slide_mp (-1) 1 (-2) 0 2) z' 0) (backwards 2 (user_traj (slide_mp 1 0 0 2 2) z 0)) /\ ~ feasible n'.
Proof.
  destruct (slide_pack 1 0 0 2 2 bend) as (Lz & HS). set (z := pack (slide_mp 1 0 0 2 2) (fun _ => bend)) in *.
  set (y' := backwards 2 (user_traj (slide_mp 1 0 0 2 2) z 0)).
  destruct (slide_pack (-1) 1 (-2) 0 2 y') as (Lz' & HS').
  destruct (slide_iff 1 0 0 2 2 [1 / 2; 1 / 2] ltac:(lia) eq_refl z bend Lz HS) as (n & En & HF).
  destruct (slide_iff (-1) 1 (-2) 0 2 [1 / 2; 1 / 2] ltac:(lia) eq_refl _ _ Lz' HS') as (n' & En' & HF').
  eexists z, _, n, n'. split; [exact Lz|]. split; [exact Lz'|]. split; [exact En|]. split; [exact En'|]. split; [|split; [|split; [exact HS'|]]].
  - apply HF. split; [reflexivity|]. split; [reflexivity|]. split; [reflexivity|]. intros [|[|k]] j Hk Hj Hkj; [| |lia].
    + destruct j as [|[|j]]; [| |lia]; cbn; unfold seg_h, width; cbn; field.
    + destruct j as [|[|j]]; [lia| |lia]; cbn; unfold seg_h, width; cbn; field.
  - apply (arrives_congr _ _ bend); [apply same_sym; exact HS|reflexivity|]. intros [|s] Hs; [|cbn in Hs; lia]. reflexivity.
  - intros F. apply HF' in F. destruct F as (_ & T0 & TF & D). pose proof (D 0%nat 0%nat ltac:(lia) ltac:(lia) ltac:(lia)) as D0. pose proof (D 0%nat 1%nat ltac:(lia) ltac:(lia) ltac:(lia)) as D1.
    unfold seg_h, width in D0, D1. rewrite T0, TF in D0, D1. destruct HS as (_ & HU & _). unfold y', backwards in D0, D1. cbn [y_x y_u Nat.sub Nat.add] in D0, D1.
    rewrite (HU 2%nat 0%nat) in D0 by (cbn; lia). rewrite (HU 1%nat 0%nat) in D1 by (cbn; lia). cbn in D0, D1. lra.
Qed.
