(** A quantity that wanes at a rate chosen by the control (examples for C94). *)
From Coq Require Import Reals Lia Lra Bool Arith String.
From Coquelicot Require Import Coquelicot.
From Coq Require Import List.
From Verif Require Import Num PyList Mat Poly Roots Colloc Ocp Transcribe Spec SpecOcp SpecHadapt SpecTrack SpecEuler NumR ListR PolyR CollocR CompR CollocThm MeshR BlockR DiscR NlpR OcpR NlpThm ScaleR CostR ConvexR TransR TrackR ExOcp ExNlp ExTail ExDeterm ExContract.
Import ListNotations.
Open Scope R_scope.

(** x' = - u x from x = 1, u >= 0, times 0 to 2 *)
Definition wane : ocp Rnum :=
  Ocp (N := Rnum) 1 1 0 1
    [fun x u _ _ => Ok [- (nth 0 u 0 * nth 0 x 0)]] [fun _ _ _ _ => Ok None] [fun _ _ _ _ _ => Ok (Some 0)]
    [fun _ _ _ _ => Ok (Some 0)] [fun _ _ _ _ _ => Ok None] []
    [1] [1] [] 1 [[1]] [[0]] [[0]] [[0]] [[0]] [[2]] [[]]
    [[NInf]] [[PInf]] [[Fin 0]] [[PInf]] [[]] [[]]
    [[Fin 0]] [[Fin 0]] [[Fin 2]] [[Fin 2]] [] [] [false] [Fin (-15)] [Fin 15] [false] [false].
Lemma wane_ok : ocp_ok wane (fun _ => None) (fun _ => None).
Proof.
  constructor.
  { constructor; cbn; auto; try (apply shaped1; reflexivity).
    - split; [reflexivity|]. intros H. lia.
    - split; [reflexivity|]. intros H. lia.
    - intros [|i] [|j] Hi Hj; try lia; cbn; auto; lra.
    - intros [|i] [|j] Hi Hj; try lia; cbn; auto; lra.
    - intros i j Hi Hj; lia.
    - intros [|i] [|j] Hi Hj; try lia; cbn; auto; lra.
    - intros [|i] [|j] Hi Hj; try lia; cbn; auto; lra.
    - intros i j Hi Hj; lia. }
  - cbn; lia.
  - intros ph f x u t c H _ _ _. one ph H; eexists; split; reflexivity.
  - intros ph f x u t c H _ _ _. one ph H; eexists; reflexivity.
  - intros ph f xf tf y0 t0 c H _ _ _. one ph H; eexists; reflexivity.
  - intros ph f x u t c H _ _ _. one ph H; reflexivity.
  - intros ph f xf tf y0 t0 c H _ _ _. one ph H; reflexivity.
  - reflexivity.
  - reflexivity.
  - reflexivity.
  - reflexivity.
  - reflexivity.
  - intros; cbn; lia.
  - intros i j [].
  - cbn; lia.
  - cbn; intros H; lia.
Qed.
Lemma wane_scales : scales_pos wane.
Proof. constructor; cbn; [intros s [<-|[]]; lra|intros s [<-|[]]; lra|intros s []|lra]. Qed.
Definition wane_mp (orders : list nat) (s : string) : mpo Rnum := Mpo wane 2 orders (demo_cf s).
Lemma wane_in orders s z : length orders = 2%nat -> (forall q, In q orders -> (1 <= q)%nat) -> In s ["LGR"; "LGL"; "CGL"]%string -> length z = nvars (wane_mp orders s) ->
  input_ok (wane_mp orders s) (fun _ => None) (fun _ => None) z [1 / 2; 1 / 2].
Proof.
  intros Hlen Hq Hs Hz. constructor; [|exact wane_ok|exact wane_scales|cbn [wane_mp mp_ocp wane o_nph]; rewrite Hz; symmetry; apply Nat.mul_1_l|reflexivity].
  constructor; [apply demo_cf_ok; exact Hs|exact Hlen|cbn; lia|exact Hq].
Qed.
(** how far the quantity is below zero *)
Definition debt (x : nat -> R) : R := Rmax 0 (- x 0%nat).
Definition debt_slope (x : nat -> R) (_ : nat) : R := if Rlt_dec (x 0%nat) 0 then -1 else 0.
Lemma debt_supports : supports 1 debt debt_slope.
Proof.
  intros x x'. cbn [Rsum]. unfold debt, debt_slope. pose proof (Rmax_l 0 (- x' 0%nat)) as A. pose proof (Rmax_r 0 (- x' 0%nat)) as B.
  destruct (Rlt_dec (x 0%nat) 0) as [H|H]; [rewrite (Rmax_right 0 (- x 0%nat)) by lra|rewrite (Rmax_left 0 (- x 0%nat)) by lra]; lra.
Qed.
Lemma debt_not_growing a t0 tf : not_growing wane 0 a t0 tf debt_slope.
Proof.
  intros t u x _ _ Hu. cbn [o_nx wane Rsum]. change (0 + debt_slope x 0%nat * - (u 0%nat * x 0%nat) <= 0). pose proof (Hu 0%nat ltac:(cbn; lia)) as (U & _). cbn in U. unfold debt_slope. destruct (Rlt_dec (x 0%nat) 0); nra.
Qed.
Lemma wane_point orders sch (rs : list (list R)) y : length orders = 2%nat -> (forall q, In q orders -> (1 <= q)%nat) -> In sch ["LGR"; "LGL"; "CGL"]%string ->
  mapM (c_roots (demo_cf sch)) orders = Ok rs -> y_t0 y = 0 -> y_tf y = 2 -> y_x y 0 0 = 1 -> (forall i, (i < total_nodes orders)%nat -> 0 <= y_u y i 0) ->
  let mp := wane_mp orders sch in dynamics_ok mp rs (width mp [1 / 2; 1 / 2] 0) 0 y ->
  exists (z : list R) n, length z = nvars mp /\ same_traj mp (user_traj mp z 0) y /\ nlp_at mp z [1 / 2; 1 / 2] = Ok n /\ feasible n.
Proof.
  intros Hlen Hq Hs Er E0 E1 Ea Eu mp Hd. exists (pack mp (fun _ => y)).
  assert (Lz : length (pack mp (fun _ => y)) = nvars mp) by (rewrite length_pack; apply Nat.mul_1_l).
  assert (HS : forall ph, (ph < 1)%nat -> same_traj mp (user_traj mp (pack mp (fun _ => y)) ph) y) by (intros ph Hph; apply (pack_traj mp (fun _ => y) ph (ok_shapes _ _ _ wane_ok) wane_scales); exact Hph).
  destruct (nlp_like mp _ _ _ [1 / 2; 1 / 2] (fun _ => y) (wane_in orders sch _ Hlen Hq Hs Lz) HS) as (rs' & n & Er' & En & _ & HF & _).
  assert (rs' = rs) as -> by (pose proof (eq_trans (eq_sym Er') Er) as X; injection X as X; exact X).
  exists n. split; [exact Lz|]. split; [exact (HS 0%nat ltac:(lia))|]. split; [exact En|]. apply HF. split; [|split].
  - intros [|ph] Hph; [|cbn in Hph; lia]. split; [|split; [|split; [|split]]].
    + intros [|i] [|s] Hi Hss; try (cbn in Hss; lia); [exact Ea|split; exact I].
    + intros i [|s] Hi Hss; [|cbn in Hss; lia]. split; [exact (Eu i Hi)|exact I].
    + rewrite E0. split; cbn; lra.
    + rewrite E1. split; cbn; lra.
    + intros i Hi. cbn in Hi. lia.
  - intros [|ph] Hph; [|cbn in Hph; lia]. quiet. exact Hd.
  - intros H. cbn in H. lia.
Qed.
(** halved by one implicit Euler step; driven below zero by the Chebyshev nodes of degree two *)
Definition halved : utraj := Utraj (fun i _ => nth i [1; 1; 1 / 2] 0) (fun i _ => nth i [0; 0; 1] 0) 0 2 (fun _ => 0).
Definition overdrawn : utraj := Utraj (fun i _ => nth i [1; 1; 1 / 7; - (1 / 7)] 0) (fun i _ => nth i [0; 0; 8; 0] 0) 0 2 (fun _ => 0).
Lemma wane_half orders sch k y : y_t0 y = 0 -> y_tf y = 2 -> (k < 2)%nat -> let mp := wane_mp orders sch in seg_h (mp_cf mp) (width mp [1 / 2; 1 / 2] 0) y k = 1 / 2.
Proof. intros E0 E1 Hk mp. unfold seg_h. rewrite E0, E1. destruct k as [|[|k]]; [unfold width; cbn; lra|unfold width; cbn; lra|lia]. Qed.
Lemma halved_point : let mp := wane_mp [1; 1]%nat "LGR" in exists (z : list R) n, length z = nvars mp /\ same_traj mp (user_traj mp z 0) halved /\ nlp_at mp z [1 / 2; 1 / 2] = Ok n /\ feasible n.
Proof.
  apply (wane_point [1; 1]%nat "LGR" _ halved eq_refl ones_pos (or_introl eq_refl) roots_euler eq_refl eq_refl eq_refl); [intros [|[|[|i]]] Hi; [cbn; lra|cbn; lra|cbn; lra|cbn in Hi; lia]|].
  intros i k j s p (q & Eq & Hj & Hw & Ei) Hs Hc. pose proof (MeshR.nth_error_lt _ _ _ Eq) as Hk. cbn in Hk. rewrite wane_half by (reflexivity || exact Hk).
  destruct k as [|[|k]]; [| |lia]; injection Eq as <-; cbn in Ei; subst i; pose proof (seg_line p _ (nth j [-1; 1] 0) Hc) as X; refine (is_derive_ext_val _ _ _ _ _ X);
    (destruct j as [|[|j]]; [| |lia]); try (exfalso; destruct Hw; lia); (destruct s as [|s]; [|cbn in Hs; lia]); cbn; field.
Qed.
Lemma overdrawn_point : let mp := wane_mp [1; 2]%nat "CGL" in exists (z : list R) n, length z = nvars mp /\ same_traj mp (user_traj mp z 0) overdrawn /\ nlp_at mp z [1 / 2; 1 / 2] = Ok n /\ feasible n.
Proof.
  apply (wane_point [1; 2]%nat "CGL" _ overdrawn eq_refl wide_pos (or_intror (or_intror (or_introl eq_refl))) roots_wide eq_refl eq_refl eq_refl);
    [intros [|[|[|[|i]]]] Hi; [cbn; lra|cbn; lra|cbn; lra|cbn; lra|cbn in Hi; lia]|].
  intros i k j s p (q & Eq & Hj & Hw & Ei) Hs Hc. pose proof (MeshR.nth_error_lt _ _ _ Eq) as Hk. cbn in Hk. rewrite wane_half by (reflexivity || exact Hk).
  destruct k as [|[|k]]; [| |lia]; injection Eq as <-; cbn in Ei; subst i.
  - pose proof (seg_line p _ (nth j [-1; 1] 0) Hc) as X. refine (is_derive_ext_val _ _ _ _ _ X). destruct j as [|[|j]]; [| |lia]; (destruct s as [|s]; [|cbn in Hs; lia]); cbn; field.
  - pose proof (seg_parab p _ (nth j [-1; 0; 1] 0) Hc) as X. refine (is_derive_ext_val _ _ _ _ _ X). destruct j as [|[|[|j]]]; [exfalso; destruct Hw; lia| | |lia]; (destruct s as [|s]; [|cbn in Hs; lia]); cbn; field.
Qed.
