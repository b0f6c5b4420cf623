(** A state that grows by itself (examples for C86). *)
From Coq Require Import Reals Lia Lra Bool Arith String.
From Coquelicot Require Import Coquelicot.
From Coq Require Import List.
From Verif Require Import Num PyList Mat Poly Roots Colloc Ocp Transcribe Spec SpecOcp SpecHadapt SpecTrack SpecFlow NumR ListR PolyR CollocR CompR CollocThm MeshR BlockR DiscR NlpR OcpR NlpThm ScaleR CostR ConvexR TransR ExOcp ExNlp ExTail.
Import ListNotations.
Open Scope R_scope.

(** x' = x from x = 0 at time 0 to time T *)
Definition growing (T : R) : ocp Rnum :=
  Ocp (N := Rnum) 1 1 0 1
    [fun x _ _ _ => Ok [nth 0 x 0]] [fun _ _ _ _ => Ok None] [fun _ _ _ _ _ => Ok (Some 0)]
    [fun _ _ _ _ => Ok (Some 0)] [fun _ _ _ _ _ => Ok None] []
    [1] [1] [] 1 [[0]] [[0]] [[0]] [[0]] [[0]] [[T]] [[]]
    [[NInf]] [[PInf]] [[NInf]] [[PInf]] [[]] [[]]
    [[Fin 0]] [[Fin 0]] [[Fin T]] [[Fin T]] [] [] [false] [Fin (-15)] [Fin 15] [false] [false].
Lemma growing_ok T : ocp_ok (growing T) (fun _ => None) (fun _ => None).
Proof.
  constructor.
  { constructor; cbn; auto; try (apply shaped1; reflexivity).
    - split; [reflexivity|]. intros H. lia.
    - split; [reflexivity|]. intros H. lia.
    - intros [|i] [|j] Hi Hj; try lia; cbn; auto; lra.
    - intros [|i] [|j] Hi Hj; try lia; cbn; auto; lra.
    - intros i j Hi Hj; lia.
    - intros [|i] [|j] Hi Hj; try lia; cbn; auto; lra.
    - intros [|i] [|j] Hi Hj; try lia; cbn; auto; lra.
    - intros i j Hi Hj; lia. }
  - cbn; lia.
  - intros ph f x u t b H _ _ _. one ph H; eexists; split; reflexivity.
  - intros ph f x u t b H _ _ _. one ph H; eexists; reflexivity.
  - intros ph f xf tf y0 t0 b H _ _ _. one ph H; eexists; reflexivity.
  - intros ph f x u t b H _ _ _. one ph H; reflexivity.
  - intros ph f xf tf y0 t0 b H _ _ _. one ph H; reflexivity.
  - reflexivity.
  - reflexivity.
  - reflexivity.
  - reflexivity.
  - reflexivity.
  - intros; cbn; lia.
  - intros i j [].
  - cbn; lia.
  - cbn; intros H; lia.
Qed.
Lemma growing_scales T : scales_pos (growing T).
Proof. constructor; cbn; [intros s [<-|[]]; lra|intros s [<-|[]]; lra|intros s []|lra]. Qed.
(** two segments of degree one *)
Definition growing_mp (T : R) : mpo Rnum := Mpo (growing T) 2 [1; 1]%nat (demo_cf "LGL").
Lemma growing_in T z : length z = nvars (growing_mp T) -> input_ok (growing_mp T) (fun _ => None) (fun _ => None) z [1 / 2; 1 / 2].
Proof.
  intros Hz. constructor; [|exact (growing_ok T)|exact (growing_scales T)|cbn [growing_mp mp_ocp growing o_nph]; rewrite Hz; symmetry; apply Nat.mul_1_l|reflexivity].
  constructor; [apply demo_cf_ok; cbn; auto|reflexivity|cbn; lia|]. intros q [<-|[<-|[]]]; lia.
Qed.
Lemma halves : widths_ok 2 1 [1 / 2; 1 / 2].
Proof. split; [reflexivity|]. intros [|ph] Hph; [|lia]. split; [reflexivity|]. split; [intros w [<-|[<-|[]]]; lra|cbn; lra]. Qed.
Lemma growing_lip T t0 tf a : lipschitz (growing T) 0 a t0 tf 1.
Proof.
  intros t u x x' e s _ Hs H. assert (s = 0)%nat as -> by (cbn in Hs; lia). change (Rabs (x 0%nat - x' 0%nat) <= 1 * e). rewrite Rmult_1_l. apply H. cbn. lia.
Qed.
(** at rest, but for the last node *)
Definition spike (T v : R) : utraj := Utraj (fun i _ => if Nat.eqb i 2 then v else 0) (fun _ _ => 0) 0 T (fun _ => 0).
Lemma growing_point T v : v = 0 \/ T = 2 -> exists (z : list R) n, length z = nvars (growing_mp T) /\ same_traj (growing_mp T) (user_traj (growing_mp T) z 0) (spike T v) /\
  nlp_at (growing_mp T) z [1 / 2; 1 / 2] = Ok n /\ feasible n.
Proof.
  intros HT. set (mp := growing_mp T). set (y := spike T v). exists (pack mp (fun _ => y)).
  assert (Lz : length (pack mp (fun _ => y)) = nvars mp) by (rewrite length_pack; apply Nat.mul_1_l).
  assert (HS : same_traj mp (user_traj mp (pack mp (fun _ => y)) 0) y) by (apply (pack_traj mp (fun _ => y) 0 (ok_shapes _ _ _ (growing_ok T)) (growing_scales T)); cbn; lia).
  assert (HS' : forall ph, (ph < 1)%nat -> same_traj mp (user_traj mp (pack mp (fun _ => y)) ph) ((fun _ => y) ph)) by (intros ph Hph; assert (ph = 0)%nat as -> by lia; exact HS).
  destruct (nlp_like mp _ _ _ [1 / 2; 1 / 2] (fun _ => y) (growing_in T _ Lz) HS') as (rs & n & Er & En & _ & HF & _).
  injection Er as <-. exists n. split; [exact Lz|]. split; [exact HS|]. split; [exact En|]. apply HF. split; [|split].
  - intros [|ph] Hph; [|cbn in Hph; lia]. split; [|split; [|split; [|split]]].
    + intros [|i] [|s] Hi Hs; [reflexivity|cbn in Hs; lia| |cbn in Hs; lia]. split; exact I.
    + intros i [|c] Hi Hc; [|cbn in Hc; lia]. split; exact I.
    + split; cbn; apply Rle_refl.
    + split; cbn; apply Rle_refl.
    + intros i Hi. cbn in Hi. lia.
  - intros [|ph] Hph; [|cbn in Hph; lia]. quiet. intros i k j [|s] c Hoo Hs Hc; [|cbn in Hs; lia].
    destruct Hoo as (q & Eq & Hj & H & ->). pose proof (MeshR.nth_error_lt _ _ _ Eq) as Hk. cbn in Hk.
    assert (q = 1)%nat as -> by (destruct k as [|[|k]]; [injection Eq as <-; reflexivity|injection Eq as <-; reflexivity|lia]).
    pose proof (line_derive c _ _ (nth j (nth k [[-1; 1]; [-1; 1]] []) 0) (demo_line 2 k (fun i => y_x y i 0%nat) c Hk Hc)) as X1. refine (is_derive_ext_val _ _ _ _ _ X1).
    assert (Hh : seg_h (mp_cf mp) (width mp [1 / 2; 1 / 2] 0) y k = T / 4) by (destruct k as [|[|k]]; [unfold seg_h, width; cbn; lra|unfold seg_h, width; cbn; lra|lia]). rewrite Hh.
    change ((y_x y (S k) 0 - y_x y k 0) / 2 = T / 4 * y_x y (offset [1; 1]%nat k + j)%nat 0%nat).
    destruct k as [|[|k]]; [| |lia].
    + destruct j as [|[|j]]; [| |lia]; cbn; lra.
    + destruct j as [|[|j]]; [|cbn; destruct HT as [->| ->]; lra|lia]. exfalso. destruct H; lia.
  - intros H. cbn in H. lia.
Qed.
