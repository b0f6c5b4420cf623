(** A cart steered by its speed (examples for C87). *)
From Coq Require Import Reals Lia Lra Bool Arith String.
From Coquelicot Require Import Coquelicot.
From Coq Require Import List.
From Verif Require Import Num PyList Mat Poly Roots Colloc Ocp Transcribe Spec SpecOcp SpecHadapt SpecSteer NumR ListR PolyR CollocR CompR CollocThm MeshR BlockR DiscR NlpR OcpR NlpThm ScaleR CostR ConvexR TransR SteerR ExOcp ExNlp ExTail.
Import ListNotations.
Open Scope R_scope.

(** x' = u from x = 0 at time 0 to time 1 *)
Definition cart : ocp Rnum :=
  Ocp (N := Rnum) 1 1 0 1
    [fun _ u _ _ => Ok [nth 0 u 0]] [fun _ _ _ _ => Ok None] [fun _ _ _ _ _ => Ok (Some 0)]
    [fun _ _ _ _ => Ok (Some 0)] [fun _ _ _ _ _ => Ok None] []
    [1] [1] [] 1 [[0]] [[0]] [[0]] [[0]] [[0]] [[1]] [[]]
    [[NInf]] [[PInf]] [[NInf]] [[PInf]] [[]] [[]]
    [[Fin 0]] [[Fin 0]] [[Fin 1]] [[Fin 1]] [] [] [false] [Fin (-15)] [Fin 15] [false] [false].
Lemma cart_ok : ocp_ok cart (fun _ => None) (fun _ => None).
Proof.
  constructor.
  { constructor; cbn; auto; try (apply shaped1; reflexivity).
    - split; [reflexivity|]. intros H. lia.
    - split; [reflexivity|]. intros H. lia.
    - intros [|i] [|j] Hi Hj; try lia; cbn; auto; lra.
    - intros [|i] [|j] Hi Hj; try lia; cbn; auto; lra.
    - intros i j Hi Hj; lia.
    - intros [|i] [|j] Hi Hj; try lia; cbn; auto; lra.
    - intros [|i] [|j] Hi Hj; try lia; cbn; auto; lra.
    - intros i j Hi Hj; lia. }
  - cbn; lia.
  - intros ph f x u t b H _ _ _. one ph H; eexists; split; reflexivity.
  - intros ph f x u t b H _ _ _. one ph H; eexists; reflexivity.
  - intros ph f xf tf y0 t0 b H _ _ _. one ph H; eexists; reflexivity.
  - intros ph f x u t b H _ _ _. one ph H; reflexivity.
  - intros ph f xf tf y0 t0 b H _ _ _. one ph H; reflexivity.
  - reflexivity.
  - reflexivity.
  - reflexivity.
  - reflexivity.
  - reflexivity.
  - intros; cbn; lia.
  - intros i j [].
  - cbn; lia.
  - cbn; intros H; lia.
Qed.
Lemma cart_scales : scales_pos cart.
Proof. constructor; cbn; [intros s [<-|[]]; lra|intros s [<-|[]]; lra|intros s []|lra]. Qed.
Lemma cart_steered : steered cart.
Proof.
  constructor; [reflexivity| | | |].
  - intros f x x' u t a H _ _. injection H as <-. reflexivity.
  - intros f x x' u t a H _ _. injection H as <-. reflexivity.
  - intros f x x' v v' t t' a H _ _ _ _. injection H as <-. reflexivity.
  - intros s r Hs. assert (s = 0)%nat as -> by (cbn in Hs; lia). split; exact I.
Qed.
(** two segments of degree one *)
Definition cart_mp : mpo Rnum := Mpo cart 2 [1; 1]%nat (demo_cf "LGL").
Lemma cart_in z : length z = nvars cart_mp -> input_ok cart_mp (fun _ => None) (fun _ => None) z [1 / 2; 1 / 2].
Proof.
  intros Hz. constructor; [|exact cart_ok|exact cart_scales|cbn [cart_mp mp_ocp cart o_nph]; rewrite Hz; symmetry; apply Nat.mul_1_l|reflexivity].
  constructor; [apply demo_cf_ok; cbn; auto|reflexivity|cbn; lia|]. intros q [<-|[<-|[]]]; lia.
Qed.
Lemma cart_halves : widths_ok 2 1 [1 / 2; 1 / 2].
Proof. split; [reflexivity|]. intros [|ph] Hph; [|lia]. split; [reflexivity|]. split; [intros w [<-|[<-|[]]]; lra|cbn; lra]. Qed.
(** the decision vector with speeds a, b, c *)
Definition cart_z (a b c : R) : list R := [0; 0; 0; a; b; c; 0; 1].
Lemma cart_traj a b c : let y := user_traj cart_mp (cart_z a b c) 0 in y_t0 y = 0 /\ y_tf y = 1 /\ y_u y 0 0 = a /\ y_u y 1 0 = b /\ y_u y 2 0 = c.
Proof. cbn. repeat split; lra. Qed.
Lemma cart_own a b c : steering_ok cart_mp [[-1; 1]; [-1; 1]] (width cart_mp [1 / 2; 1 / 2] 0) (user_traj cart_mp (cart_z a b c) 0).
Proof.
  set (y := user_traj cart_mp (cart_z a b c) 0). destruct (cart_traj a b c) as (T0 & TF & _). fold y in T0, TF.
  split; [intros i q _ Hq; assert (q = 0)%nat as -> by (cbn in Hq; lia); split; exact I|]. split; [rewrite T0; split; cbn; apply Rle_refl|]. split; [rewrite TF; split; cbn; apply Rle_refl|].
      split; [intros i Hi; cbn in Hi; lia|]. split; [intros i k j d _ Hd; destruct Hd|]. split; [intros X; discriminate X|]. split; [intros X; discriminate X|]. split; [intros X; discriminate X|]. intros d Hd. destruct Hd.
Qed.
Lemma cart_steer a b c : (exists (z' : list R) n', length z' = length (cart_z a b c) /\ nlp_at cart_mp z' [1 / 2; 1 / 2] = Ok n' /\ feasible n' /\ same_steering cart_mp (user_traj cart_mp (cart_z a b c) 0) (user_traj cart_mp z' 0)) <-> a = b.
Proof.
  set (y := user_traj cart_mp (cart_z a b c) 0). destruct (cart_traj a b c) as (T0 & TF & U0 & U1 & U2). fold y in T0, TF, U0, U1, U2.
  destruct (steer_thm cart_mp _ _ (cart_z a b c) [1 / 2; 1 / 2] (cart_in (cart_z a b c) eq_refl) cart_halves cart_steered) as (rs & Er & HI); [fold y; rewrite T0, TF; lra|]. fold y in HI. injection Er as <-.
  refine (iff_trans HI _). split.
  - intros (_ & HL). destruct (HL 0%nat ltac:(cbn; lia)) as (d & Ld & Ed). change (length d <= 1)%nat in Ld.
    pose proof (Ed 0%nat ltac:(cbn; lia)) as E0. pose proof (Ed 1%nat ltac:(cbn; lia)) as E1. change (peval d (-1) = y_u y 0 0) in E0. change (peval d 1 = y_u y 1 0) in E1.
    rewrite U0 in E0. rewrite U1 in E1. rewrite <- E0, <- E1. destruct d as [|d0 [|d1 d]]; [reflexivity| |destruct (Nat.nle_succ_0 _ (le_S_n _ _ Ld))]. cbn. lra.
  - intros ->. split.
    + exact (cart_own b b c).
    + intros s Hs. assert (s = 0)%nat as -> by (cbn in Hs; lia). exists [b]. split; [cbn; lia|]. intros j Hj. cbn in Hj. destruct j as [|[|j]]; [| |lia].
      * change (peval [b] (-1) = y_u y 0 0). rewrite U0. cbn. lra.
      * change (peval [b] 1 = y_u y 1 0). rewrite U1. cbn. lra.
Qed.
