(** A drift with two parameters (examples for C89). *)
From Coq Require Import Reals Lia Lra Bool Arith String.
From Coquelicot Require Import Coquelicot.
From Coq Require Import List.
From Verif Require Import Num PyList Mat Poly Roots Colloc Ocp Transcribe Spec SpecOcp SpecCoord SpecBeside SpecFix NumR ListR PolyR CollocR CompR CollocThm MeshR BlockR DiscR NlpR OcpR NlpThm ScaleR CostR ConvexR TransR BesideR ExOcp ExNlp ExTail.
Import ListNotations.
Open Scope R_scope.

Definition arg (a : option (list R)) (i : nat) : R := match a with Some l => nth i l 0 | None => 0 end.
(** x' = a + b with parameters a between 0 and 1 and b between lo and hi, which is the cost *)
Definition drift (lo hi : R) : ocp Rnum :=
  Ocp (N := Rnum) 1 1 2 1
    [fun _ _ _ p => Ok [arg p 0 + arg p 1]] [fun _ _ _ _ => Ok None] [fun _ _ _ _ p => Ok (Some (arg p 1))]
    [fun _ _ _ _ => Ok (Some 0)] [fun _ _ _ _ _ => Ok None] []
    [1] [1] [1; 1] 1 [[0]] [[0]] [[0]] [[0]] [[0]] [[1]] [[0; 0]]
    [[NInf]] [[PInf]] [[NInf]] [[PInf]] [[Fin 0; Fin lo]] [[Fin 1; Fin hi]]
    [[Fin 0]] [[Fin 0]] [[Fin 1]] [[Fin 1]] [] [] [false] [Fin (-15)] [Fin 15] [false] [false].
(** the same with b = c put in *)
Definition drift_at (c : R) : ocp Rnum :=
  Ocp (N := Rnum) 1 1 1 1
    [fun _ _ _ p => Ok [arg p 0 + c]] [fun _ _ _ _ => Ok None] [fun _ _ _ _ p => Ok (Some c)]
    [fun _ _ _ _ => Ok (Some 0)] [fun _ _ _ _ _ => Ok None] []
    [1] [1] [1] 1 [[0]] [[0]] [[0]] [[0]] [[0]] [[1]] [[0]]
    [[NInf]] [[PInf]] [[NInf]] [[PInf]] [[Fin 0]] [[Fin 1]]
    [[Fin 0]] [[Fin 0]] [[Fin 1]] [[Fin 1]] [] [] [false] [Fin (-15)] [Fin 15] [false] [false].
Lemma drift_form lo hi c : reparam (drift lo hi) (drift_at c) = drift_at c.
Proof. reflexivity. Qed.
Lemma drift_ok lo hi : lo <= hi -> ocp_ok (drift lo hi) (fun _ => None) (fun _ => None).
Proof.
  intros Hlh. constructor.
  { constructor; cbn; auto; try (apply shaped1; reflexivity).
    - split; [reflexivity|]. intros H. lia.
    - split; [reflexivity|]. intros H. lia.
    - intros [|i] [|j] Hi Hj; try lia; cbn; auto; lra.
    - intros [|i] [|j] Hi Hj; try lia; cbn; auto; lra.
    - intros [|i] [|[|j]] Hi Hj; try lia; cbn; auto; lra.
    - intros [|i] [|j] Hi Hj; try lia; cbn; auto; lra.
    - intros [|i] [|j] Hi Hj; try lia; cbn; auto; lra.
    - intros i j Hi Hj; lia. }
  - cbn; lia.
  - intros ph f x u t b H _ _ _. one ph H; eexists; split; reflexivity.
  - intros ph f x u t b H _ _ _. one ph H; eexists; reflexivity.
  - intros ph f xf tf y0 t0 b H _ _ _. one ph H; eexists; reflexivity.
  - intros ph f x u t b H _ _ _. one ph H; reflexivity.
  - intros ph f xf tf y0 t0 b H _ _ _. one ph H; reflexivity.
  - reflexivity.
  - reflexivity.
  - reflexivity.
  - reflexivity.
  - reflexivity.
  - intros; cbn; lia.
  - intros i j [].
  - cbn; lia.
  - cbn; intros H; lia.
Qed.
Lemma drift_at_ok c : ocp_ok (drift_at c) (fun _ => None) (fun _ => None).
Proof.
  constructor.
  { constructor; cbn; auto; try (apply shaped1; reflexivity).
    - split; [reflexivity|]. intros H. lia.
    - split; [reflexivity|]. intros H. lia.
    - intros [|i] [|j] Hi Hj; try lia; cbn; auto; lra.
    - intros [|i] [|j] Hi Hj; try lia; cbn; auto; lra.
    - intros [|i] [|j] Hi Hj; try lia; cbn; auto; lra.
    - intros [|i] [|j] Hi Hj; try lia; cbn; auto; lra.
    - intros [|i] [|j] Hi Hj; try lia; cbn; auto; lra.
    - intros i j Hi Hj; lia. }
  - cbn; lia.
  - intros ph f x u t b H _ _ _. one ph H; eexists; split; reflexivity.
  - intros ph f x u t b H _ _ _. one ph H; eexists; reflexivity.
  - intros ph f xf tf y0 t0 b H _ _ _. one ph H; eexists; reflexivity.
  - intros ph f x u t b H _ _ _. one ph H; reflexivity.
  - intros ph f xf tf y0 t0 b H _ _ _. one ph H; reflexivity.
  - reflexivity.
  - reflexivity.
  - reflexivity.
  - reflexivity.
  - reflexivity.
  - intros; cbn; lia.
  - intros i j [].
  - cbn; lia.
  - cbn; intros H; lia.
Qed.
Lemma drift_scales lo hi : scales_pos (drift lo hi).
Proof. constructor; cbn; [intros s [<-|[]]; lra|intros s [<-|[]]; lra|intros s [<-|[<-|[]]]; lra|lra]. Qed.
Lemma drift_at_scales c : scales_pos (drift_at c).
Proof. constructor; cbn; [intros s [<-|[]]; lra|intros s [<-|[]]; lra|intros s [<-|[]]; lra|lra]. Qed.
Lemma drift_put c : put_in (drift c c) (drift_at c) (fun _ => [c]).
Proof.
  constructor.
  - intros ph _. reflexivity.
  - intros [|ph] [|i] Hph Hi; cbn in Hph, Hi; try lia. split; reflexivity.
  - intros [|ph] [|i] r Hph Hi; cbn in Hph, Hi; try lia. split; [intros (A & B); cbn in A, B; apply Rle_antisym; assumption|intros ->; split; cbn; apply Rle_refl].
  - intros [|ph] f g x u t l E E' L; [|destruct ph; discriminate E]. injection E as <-. injection E' as <-. destruct l as [|a [|b l]]; try discriminate L. reflexivity.
  - intros [|ph] f g x u t l E E' L; [|destruct ph; discriminate E]. injection E as <-. injection E' as <-. reflexivity.
  - intros [|ph] f g x u t l E E' L; [|destruct ph; discriminate E]. injection E as <-. injection E' as <-. reflexivity.
  - intros [|ph] f g xf tf x0 t0 l E E' L; [|destruct ph; discriminate E]. injection E as <-. injection E' as <-. destruct l as [|a [|b l]]; try discriminate L. reflexivity.
  - intros [|ph] f g xf tf x0 t0 l E E' L; [|destruct ph; discriminate E]. injection E as <-. injection E' as <-. reflexivity.
Qed.
Definition drift_mp (lo hi : R) : mpo Rnum := Mpo (drift lo hi) 1 [1%nat] (demo_cf "LGL").
Definition drift_at_mp (c : R) : mpo Rnum := Mpo (drift_at c) 1 [1%nat] (demo_cf "LGL").
Lemma drift_in lo hi z : lo <= hi -> length z = nvars (drift_mp lo hi) -> input_ok (drift_mp lo hi) (fun _ => None) (fun _ => None) z [1].
Proof.
  intros Hlh Hz. constructor; [|exact (drift_ok lo hi Hlh)|exact (drift_scales lo hi)|cbn [drift_mp mp_ocp drift o_nph]; rewrite Hz; symmetry; apply Nat.mul_1_l|reflexivity].
  constructor; [apply demo_cf_ok; cbn; auto|reflexivity|cbn; lia|]. intros q [<-|[]]. lia.
Qed.
Lemma drift_at_in c z : length z = nvars (drift_at_mp c) -> input_ok (drift_at_mp c) (fun _ => None) (fun _ => None) z [1].
Proof.
  intros Hz. constructor; [|exact (drift_at_ok c)|exact (drift_at_scales c)|cbn [drift_at_mp mp_ocp drift_at o_nph]; rewrite Hz; symmetry; apply Nat.mul_1_l|reflexivity].
  constructor; [apply demo_cf_ok; cbn; auto|reflexivity|cbn; lia|]. intros q [<-|[]]. lia.
Qed.
(** drifting at speed b for one unit of time *)
Definition drifting (b : R) : utraj := Utraj (fun i _ => INR i * b) (fun _ _ => 0) 0 1 (fun i => if Nat.eqb i 1 then b else 0).
Definition drift_z (b : R) : list R := pack (drift_mp 0 0) (fun _ => drifting b).
Lemma drift_point lo hi b : lo <= b <= hi -> length (drift_z b) = nvars (drift_mp lo hi) /\ same_traj (drift_mp lo hi) (user_traj (drift_mp lo hi) (drift_z b) 0) (drifting b) /\
  exists n, nlp_at (drift_mp lo hi) (drift_z b) [1] = Ok n /\ feasible n /\ n_f n = b.
Proof.
  intros Hb. set (mp := drift_mp lo hi). set (y := drifting b). change (drift_z b) with (pack mp (fun _ => y)).
  assert (Lz : length (pack mp (fun _ => y)) = nvars mp) by (rewrite length_pack; apply Nat.mul_1_l).
  assert (HS : same_traj mp (user_traj mp (pack mp (fun _ => y)) 0) y) by (apply (pack_traj mp (fun _ => y) 0 (ok_shapes _ _ _ (drift_ok lo hi ltac:(lra))) (drift_scales lo hi)); cbn; lia).
  assert (HS' : forall ph, (ph < 1)%nat -> same_traj mp (user_traj mp (pack mp (fun _ => y)) ph) ((fun _ => y) ph)) by (intros ph Hph; assert (ph = 0)%nat as -> by lia; exact HS).
  destruct (nlp_like mp _ _ _ [1] (fun _ => y) (drift_in lo hi _ ltac:(lra) Lz) HS') as (rs & n & Er & En & _ & HF & HC). injection Er as <-. split; [exact Lz|]. split; [exact HS|]. exists n. split; [exact En|]. split.
  - apply HF. split; [|split].
    + intros [|ph] Hph; [|cbn in Hph; lia]. split; [|split; [|split; [|split]]].
      * intros [|i] [|s] Hi Hs; [cbn; lra|cbn in Hs; lia| |cbn in Hs; lia]. split; exact I.
      * intros i [|s] Hi Hs; [|cbn in Hs; lia]. split; exact I.
      * split; cbn; apply Rle_refl.
      * split; cbn; apply Rle_refl.
      * intros [|[|i]] Hi; cbn in Hi; try lia; split; cbn; lra.
    + intros [|ph] Hph; [|cbn in Hph; lia]. quiet. intros i k j [|s] a Hoo Hs Hc; [|cbn in Hs; lia].
      destruct Hoo as (q & Eq & Hj & H & ->). pose proof (MeshR.nth_error_lt _ _ _ Eq) as Hk. cbn in Hk. assert (k = 0)%nat as -> by lia.
      pose proof (line_derive a _ _ (nth j [-1; 1] 0) (demo_line 1 0 _ a (le_n 1) Hc)) as X1.
      assert (Hh : seg_h (mp_cf mp) (width mp [1] 0) y 0 = 1 / 2) by (unfold seg_h, width; cbn; lra).
      assert (X2 : (y_x y 1 0 - y_x y 0 0) / 2 = seg_h (mp_cf mp) (width mp [1] 0) y 0 * (0 + b)) by (rewrite Hh; cbn; lra). exact (is_derive_ext_val _ _ _ _ X2 X1).
    + intros H. cbn in H. lia.
  - rewrite HC. change (o_nph (mp_ocp mp)) with 1%nat. cbn [Rsum]. etransitivity; [apply Rplus_0_l|]. apply no_run. reflexivity.
Qed.
Lemma drift_at_cost c (z : list R) n : length z = nvars (drift_at_mp c) -> nlp_at (drift_at_mp c) z [1] = Ok n -> n_f n = c.
Proof.
  intros Lz En. destruct (nlp_like (drift_at_mp c) _ _ z [1] (user_traj (drift_at_mp c) z) (drift_at_in c z Lz) (fun ph _ => same_refl _ _)) as (rs & m & Er & En' & _ & HF & HC).
  rewrite <- (same_ok _ _ _ _ _ En En') in *. rewrite HC. change (o_nph (mp_ocp (drift_at_mp c))) with 1%nat. cbn [Rsum]. etransitivity; [apply Rplus_0_l|]. apply no_run. reflexivity.
Qed.
