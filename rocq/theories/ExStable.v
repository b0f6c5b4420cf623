(** A state that grows under a force (examples for C90). *)
From Coq Require Import Reals Lia Lra Bool Arith String.
From Coquelicot Require Import Coquelicot.
From Coq Require Import List.
From Verif Require Import Num PyList Mat Poly Roots Colloc Ocp Transcribe Spec SpecOcp SpecHadapt SpecTrack SpecStable NumR ListR PolyR CollocR CompR CollocThm MeshR BlockR DiscR NlpR OcpR NlpThm ScaleR CostR ConvexR TransR ExOcp ExNlp ExTail ExDeterm.
Import ListNotations.
Open Scope R_scope.

(** x' = x + u from x = 0 at time 0 to time T *)
Definition pushed (T : R) : ocp Rnum :=
  Ocp (N := Rnum) 1 1 0 1
    [fun x u _ _ => Ok [nth 0 x 0 + nth 0 u 0]] [fun _ _ _ _ => Ok None] [fun _ _ _ _ _ => Ok (Some 0)]
    [fun _ _ _ _ => Ok (Some 0)] [fun _ _ _ _ _ => Ok None] []
    [1] [1] [] 1 [[0]] [[0]] [[0]] [[0]] [[0]] [[T]] [[]]
    [[NInf]] [[PInf]] [[NInf]] [[PInf]] [[]] [[]]
    [[Fin 0]] [[Fin 0]] [[Fin T]] [[Fin T]] [] [] [false] [Fin (-15)] [Fin 15] [false] [false].
Lemma pushed_ok T : ocp_ok (pushed T) (fun _ => None) (fun _ => None).
Proof.
  constructor.
  { constructor; cbn; auto; try (apply shaped1; reflexivity).
    - split; [reflexivity|]. intros H. lia.
    - split; [reflexivity|]. intros H. lia.
    - intros [|i] [|j] Hi Hj; try lia; cbn; auto; lra.
    - intros [|i] [|j] Hi Hj; try lia; cbn; auto; lra.
    - intros i j Hi Hj; lia.
    - intros [|i] [|j] Hi Hj; try lia; cbn; auto; lra.
    - intros [|i] [|j] Hi Hj; try lia; cbn; auto; lra.
    - intros i j Hi Hj; lia. }
  - cbn; lia.
  - intros ph f x u t b H _ _ _. one ph H; eexists; split; reflexivity.
  - intros ph f x u t b H _ _ _. one ph H; eexists; reflexivity.
  - intros ph f xf tf y0 t0 b H _ _ _. one ph H; eexists; reflexivity.
  - intros ph f x u t b H _ _ _. one ph H; reflexivity.
  - intros ph f xf tf y0 t0 b H _ _ _. one ph H; reflexivity.
  - reflexivity.
  - reflexivity.
  - reflexivity.
  - reflexivity.
  - reflexivity.
  - intros; cbn; lia.
  - intros i j [].
  - cbn; lia.
  - cbn; intros H; lia.
Qed.
Lemma pushed_scales T : scales_pos (pushed T).
Proof. constructor; cbn; [intros s [<-|[]]; lra|intros s [<-|[]]; lra|intros s []|lra]. Qed.
(** two segments of degree one *)
Definition pushed_mp (T : R) : mpo Rnum := Mpo (pushed T) 2 [1; 1]%nat (demo_cf "LGL").
Lemma pushed_in T z : length z = nvars (pushed_mp T) -> input_ok (pushed_mp T) (fun _ => None) (fun _ => None) z [1 / 2; 1 / 2].
Proof.
  intros Hz. constructor; [|exact (pushed_ok T)|exact (pushed_scales T)|cbn [pushed_mp mp_ocp pushed o_nph]; rewrite Hz; symmetry; apply Nat.mul_1_l|reflexivity].
  constructor; [apply demo_cf_ok; cbn; auto|reflexivity|cbn; lia|]. intros q [<-|[<-|[]]]; lia.
Qed.
Lemma pushed_lip T t0 tf a : lipschitz2 (pushed T) 0 a t0 tf 1 1.
Proof.
  intros t u u' x x' e d s _ Hs H H'. assert (s = 0)%nat as -> by (cbn in Hs; lia). change (Rabs (x 0%nat + u 0%nat - (x' 0%nat + u' 0%nat)) <= 1 * e + 1 * d).
  replace (x 0%nat + u 0%nat - (x' 0%nat + u' 0%nat)) with ((x 0%nat - x' 0%nat) + (u 0%nat - u' 0%nat)) by ring. eapply Rle_trans; [apply Rabs_triang|].
  pose proof (H 0%nat ltac:(cbn; lia)). pose proof (H' 0%nat ltac:(cbn; lia)). lra.
Qed.
(** [l] is the length of one segment; the force is [v] at the ends *)
Definition push (T v : R) : utraj := let l := T / 2 in
  Utraj (fun i _ => nth i [0; v * l; 2 * v * l / (1 - l)] 0) (fun i _ => nth i [v; v * (1 - l); v] 0) 0 T (fun _ => 0).
Lemma pushed_point T v : T < 2 -> exists (z : list R) n, length z = nvars (pushed_mp T) /\ same_traj (pushed_mp T) (user_traj (pushed_mp T) z 0) (push T v) /\
  nlp_at (pushed_mp T) z [1 / 2; 1 / 2] = Ok n /\ feasible n.
Proof.
  intros HT. set (mp := pushed_mp T). set (y := push T v). exists (pack mp (fun _ => y)).
  assert (Lz : length (pack mp (fun _ => y)) = nvars mp) by (rewrite length_pack; apply Nat.mul_1_l).
  assert (HS : same_traj mp (user_traj mp (pack mp (fun _ => y)) 0) y) by (apply (pack_traj mp (fun _ => y) 0 (ok_shapes _ _ _ (pushed_ok T)) (pushed_scales T)); cbn; lia).
  assert (HS' : forall ph, (ph < 1)%nat -> same_traj mp (user_traj mp (pack mp (fun _ => y)) ph) ((fun _ => y) ph)) by (intros ph Hph; assert (ph = 0)%nat as -> by lia; exact HS).
  destruct (nlp_like mp _ _ _ [1 / 2; 1 / 2] (fun _ => y) (pushed_in T _ Lz) HS') as (rs & n & Er & En & _ & HF & _).
  injection Er as <-. exists n. split; [exact Lz|]. split; [exact HS|]. split; [exact En|]. apply HF. split; [|split].
  - intros [|ph] Hph; [|cbn in Hph; lia]. split; [|split; [|split; [|split]]].
    + intros [|i] [|s] Hi Hs; [reflexivity|cbn in Hs; lia| |cbn in Hs; lia]. split; exact I.
    + intros i [|c] Hi Hc; [|cbn in Hc; lia]. split; exact I.
    + split; cbn; apply Rle_refl.
    + split; cbn; apply Rle_refl.
    + intros i Hi. cbn in Hi. lia.
  - intros [|ph] Hph; [|cbn in Hph; lia]. quiet. intros i k j [|s] c Hoo Hs Hc; [|cbn in Hs; lia].
    destruct Hoo as (q & Eq & Hj & H & ->). pose proof (MeshR.nth_error_lt _ _ _ Eq) as Hk. cbn in Hk.
    assert (q = 1)%nat as -> by (destruct k as [|[|k]]; [injection Eq as <-; reflexivity|injection Eq as <-; reflexivity|lia]).
    pose proof (line_derive c _ _ (nth j (nth k [[-1; 1]; [-1; 1]] []) 0) (demo_line 2 k (fun i => y_x y i 0%nat) c Hk Hc)) as X1. refine (is_derive_ext_val _ _ _ _ _ X1).
    assert (Hh : seg_h (mp_cf mp) (width mp [1 / 2; 1 / 2] 0) y k = T / 4) by (destruct k as [|[|k]]; [unfold seg_h, width; cbn; lra|unfold seg_h, width; cbn; lra|lia]). rewrite Hh.
    change ((y_x y (S k) 0 - y_x y k 0) / 2 = T / 4 * (y_x y (offset [1; 1]%nat k + j)%nat 0%nat + y_u y (offset [1; 1]%nat k + j)%nat 0%nat)).
    destruct k as [|[|k]]; [| |lia].
    + destruct j as [|[|j]]; [| |lia]; cbn; field.
    + destruct j as [|[|j]]; [|cbn; field; lra|lia]. exfalso. destruct H; lia.
  - intros H. cbn in H. lia.
Qed.
Lemma push_near T i c : 0 < T < 2 -> (i < 3)%nat -> Rabs (y_u (push T 0) i c - y_u (push T 1) i c) <= 1.
Proof. intros HT Hi. apply Rabs_le. destruct i as [|[|[|i]]]; [cbn; lra|cbn; lra|cbn; lra|lia]. Qed.
Lemma push_start T s : Rabs (y_x (push T 0) 0 s - y_x (push T 1) 0 s) <= 0.
Proof. cbn. rewrite Rminus_0_r, Rabs_R0. lra. Qed.
Lemma push_far : Rabs (y_x (push (9 / 5) 0) 2 0 - y_x (push (9 / 5) 1) 2 0) > exp (1 * (y_tf (push (9 / 5) 0) - y_t0 (push (9 / 5) 0))) * (1 * (y_tf (push (9 / 5) 0) - y_t0 (push (9 / 5) 0)) * 1).
Proof.
  change (Rabs (2 * 0 * (9 / 5 / 2) / (1 - 9 / 5 / 2) - 2 * 1 * (9 / 5 / 2) / (1 - 9 / 5 / 2)) > exp (1 * (9 / 5 - 0)) * (1 * (9 / 5 - 0) * 1)).
  replace (2 * 0 * (9 / 5 / 2) / (1 - 9 / 5 / 2) - 2 * 1 * (9 / 5 / 2) / (1 - 9 / 5 / 2)) with (- (18)) by field. rewrite Rabs_Ropp, Rabs_pos_eq by lra.
  assert (E : exp (1 * (9 / 5 - 0)) <= 9).
  { apply Rle_trans with (exp (1 + 1)); [left; apply exp_increasing; lra|]. rewrite exp_plus. pose proof exp_le_3. pose proof (exp_pos 1). nra. }
  lra.
Qed.
Lemma push_apart T : 0 < T < 2 -> y_x (push T 1) 2 0 <> y_x (push T 0) 2 0.
Proof.
  intros HT. change (2 * 1 * (T / 2) / (1 - T / 2) <> 2 * 0 * (T / 2) / (1 - T / 2)). assert (0 < (T / 2) / (1 - T / 2)) by (apply Rdiv_lt_0_compat; lra). unfold Rdiv in *. nra.
Qed.
