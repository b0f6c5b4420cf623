(** Nothing happens, but time is charged (examples for C88). *)
From Coq Require Import Reals Lia Lra Bool Arith String.
From Coquelicot Require Import Coquelicot.
From Coq Require Import List.
From Verif Require Import Num PyList Mat Poly Roots Colloc Ocp Transcribe Spec SpecOcp SpecCoord SpecLocal SpecScore NumR ListR PolyR CollocR CompR CollocThm MeshR BlockR DiscR NlpR OcpR NlpThm ScaleR CostR WeightR ConvexR TransR BesideR ExOcp ExNlp ExTail ExBeside.
Import ListNotations.
Open Scope R_scope.

(** x' = 0 from time 0 to a time between 0 and 1; terminal cost c of the final time, running cost r *)
Definition timed_mayer (c : R -> R) : list (@mayer_fn Rnum) := [fun _ tf _ _ _ => Ok (Some (c tf))].
Definition timed (c : R -> R) (r : R) : ocp Rnum :=
  Ocp (N := Rnum) 1 1 0 1
    [fun _ _ _ _ => Ok [0]] [fun _ _ _ _ => Ok None] (timed_mayer c)
    [fun _ _ _ _ => Ok (Some r)] [fun _ _ _ _ _ => Ok None] []
    [1] [1] [] 1 [[0]] [[0]] [[0]] [[0]] [[0]] [[1]] [[]]
    [[NInf]] [[PInf]] [[NInf]] [[PInf]] [[]] [[]]
    [[Fin 0]] [[Fin 0]] [[Fin 0]] [[Fin 1]] [] [] [false] [Fin (-15)] [Fin 15] [false] [false].
Lemma timed_ok c r : ocp_ok (timed c r) (fun _ => None) (fun _ => None).
Proof.
  constructor.
  { constructor; cbn; auto; try (apply shaped1; reflexivity).
    - split; [reflexivity|]. intros H. lia.
    - split; [reflexivity|]. intros H. lia.
    - intros [|i] [|j] Hi Hj; try lia; cbn; auto; lra.
    - intros [|i] [|j] Hi Hj; try lia; cbn; auto; lra.
    - intros i j Hi Hj; lia.
    - intros [|i] [|j] Hi Hj; try lia; cbn; auto; lra.
    - intros [|i] [|j] Hi Hj; try lia; cbn; auto; lra.
    - intros i j Hi Hj; lia. }
  - cbn; lia.
  - intros ph f x u t b H _ _ _. one ph H; eexists; split; reflexivity.
  - intros ph f x u t b H _ _ _. one ph H; eexists; reflexivity.
  - intros ph f xf tf y0 t0 b H _ _ _. one ph H; eexists; reflexivity.
  - intros ph f x u t b H _ _ _. one ph H; reflexivity.
  - intros ph f xf tf y0 t0 b H _ _ _. one ph H; reflexivity.
  - reflexivity.
  - reflexivity.
  - reflexivity.
  - reflexivity.
  - reflexivity.
  - intros; cbn; lia.
  - intros i j [].
  - cbn; lia.
  - cbn; intros H; lia.
Qed.
Lemma timed_scales c r : scales_pos (timed c r).
Proof. constructor; cbn; [intros s [<-|[]]; lra|intros s [<-|[]]; lra|intros s []|lra]. Qed.
Definition timed_mp (c : R -> R) (r : R) : mpo Rnum := Mpo (timed c r) 1 [1%nat] (demo_cf "LGL").
Lemma timed_in c r z : length z = nvars (timed_mp c r) -> input_ok (timed_mp c r) (fun _ => None) (fun _ => None) z [1].
Proof.
  intros Hz. constructor; [|exact (timed_ok c r)|exact (timed_scales c r)|cbn [timed_mp mp_ocp timed o_nph]; rewrite Hz; symmetry; apply Nat.mul_1_l|reflexivity].
  constructor; [apply demo_cf_ok; cbn; auto|reflexivity|cbn; lia|]. intros q [<-|[]]. lia.
Qed.
Lemma timed_one c : one_cost (timed c 0) 0.
Proof.
  split; [cbn; lia|]. split.
  - intros [|ph] f x u t a v E Ev; [|destruct ph; discriminate E]. injection E as <-. injection Ev as <-. reflexivity.
  - intros [|ph] f xf tf x0 t0 a v Hne E Ev; [contradiction|destruct ph; discriminate E].
Qed.
Lemma timed_scored c r g on : on 0%nat = true -> scored (timed c r) on g (timed_mayer (fun t => g (c t))).
Proof.
  intros Hon [|ph] f h xf tf x0 t0 a v E Eh Ev; [|destruct ph; discriminate E]. injection E as <-. injection Eh as <-. injection Ev as <-. rewrite Hon. reflexivity.
Qed.
Lemma timed_cost c r y : node_cost (timed_mp c r) [[-1; 1]] (width (timed_mp c r) [1] 0) 0 y = c (y_tf y) + r * (y_tf y - y_t0 y).
Proof.
  unfold node_cost. change (mayer_val (mp_ocp (timed_mp c r)) 0 y (total_nodes (mp_orders (timed_mp c r)) - 1)) with (c (y_tf y)). f_equal.
  change (length (mp_orders (timed_mp c r))) with 1%nat. cbn [Rsum]. rewrite Rplus_0_l.
  destruct (weights_at (demo_cf "LGL") 1 [-1; 1] ltac:(apply demo_cf_ok; cbn; auto) (le_n 1) eq_refl) as (w & Ew & Lw & HX).
  assert (HW : nth 0 w 0 + nth 1 w 0 = 2).
  { pose proof (HX [1] ltac:(cbn; lia)) as X. cbn [Rsum nth] in X. rewrite (RInt_ext _ (fun _ => 1)) in X by (intros; cbn; ring). rewrite RInt_const in X.
    change (0 + nth 0 w 0 * (1 + -1 * 0) + nth 1 w 0 * (1 + 1 * 0) = (1 - -1) * 1) in X. lra. }
  assert (E : wts (mp_cf (timed_mp c r)) (mp_orders (timed_mp c r)) 0 = w) by (unfold wts; change (nth 0 (mp_orders (timed_mp c r)) 0%nat) with 1%nat; change (mp_cf (timed_mp c r)) with (demo_cf "LGL"); rewrite Ew; reflexivity).
  unfold seg_cost. change (nth 0 (mp_orders (timed_mp c r)) 0%nat) with 1%nat. cbn [Rsum]. unfold omega. cbn [Nat.leb andb]. rewrite E.
  change (run_at (timed_mp c r) [[-1; 1]] (width (timed_mp c r) [1] 0) 0 y 0 0) with r. change (run_at (timed_mp c r) [[-1; 1]] (width (timed_mp c r) [1] 0) 0 y 0 1) with r.
  assert (Eh : seg_h (mp_cf (timed_mp c r)) (width (timed_mp c r) [1] 0) y 0 = (y_tf y - y_t0 y) / 2) by (unfold seg_h, width; cbn; field). rewrite Eh.
  assert (G : forall A B : R, A + B = 2 -> (y_tf y - y_t0 y) / 2 * (0 + A * r + B * r) = r * (y_tf y - y_t0 y)) by (intros A B HAB; replace B with (2 - A) by lra; field).
  exact (G _ _ HW).
Qed.
Definition timed_z (t : R) : list R := pack (timed_mp (fun _ => 0) 0) (fun _ => rest t).
Lemma timed_rest m r t : 0 <= t <= 1 -> length (timed_z t) = nvars (timed_mp m r) /\ exists n, nlp_at (timed_mp m r) (timed_z t) [1] = Ok n /\ feasible n /\ n_f n = m t + r * t.
Proof.
  intros Ht. set (mp := timed_mp m r). change (timed_z t) with (pack mp (fun _ => rest t)).
  assert (Lz : length (pack mp (fun _ => rest t)) = nvars mp) by (rewrite length_pack; apply Nat.mul_1_l).
  assert (HS : same_traj mp (user_traj mp (pack mp (fun _ => rest t)) 0) (rest t)) by (apply (pack_traj mp (fun _ => rest t) 0 (ok_shapes _ _ _ (timed_ok m r)) (timed_scales m r)); cbn; lia).
  assert (HS' : forall ph, (ph < 1)%nat -> same_traj mp (user_traj mp (pack mp (fun _ => rest t)) ph) ((fun _ => rest t) ph)) by (intros ph Hph; assert (ph = 0)%nat as -> by lia; exact HS).
  destruct (nlp_like mp _ _ _ [1] (fun _ => rest t) (timed_in m r _ Lz) HS') as (rs & n & Er & En & _ & HF & HC). injection Er as <-. split; [exact Lz|]. exists n. split; [exact En|]. split.
  - apply HF. split; [|split].
    + intros [|ph] Hph; [|cbn in Hph; lia]. split; [|split; [|split; [|split]]].
      * intros [|i] [|s] Hi Hs; [reflexivity|cbn in Hs; lia| |cbn in Hs; lia]. split; exact I.
      * intros i [|s] Hi Hs; [|cbn in Hs; lia]. split; exact I.
      * split; cbn; apply Rle_refl.
      * split; cbn; apply Ht.
      * intros i Hi. cbn in Hi. lia.
    + intros [|ph] Hph; [|cbn in Hph; lia]. quiet. intros i k j [|s] a Hoo Hs Hc; [|cbn in Hs; lia].
      destruct Hoo as (q & Eq & Hj & H & ->). pose proof (MeshR.nth_error_lt _ _ _ Eq) as Hk. cbn in Hk. assert (k = 0)%nat as -> by lia.
      pose proof (line_derive a _ _ (nth j [-1; 1] 0) (demo_line 1 0 _ a (le_n 1) Hc)) as X1. cbn [rest y_x] in X1.
      assert (X2 : (0 - 0) / 2 = seg_h (mp_cf mp) (width mp [1] 0) (rest t) 0 * 0) by lra. exact (is_derive_ext_val _ _ _ _ X2 X1).
    + intros H. cbn in H. lia.
  - rewrite HC. change (o_nph (mp_ocp mp)) with 1%nat. cbn [Rsum]. unfold mp. etransitivity; [apply Rplus_0_l|]. rewrite timed_cost. cbn [rest y_tf y_t0]. apply (f_equal (fun v : R => m t + r * v)), Rminus_0_r.
Qed.
Lemma timed_value c r (z : list R) n : length z = nvars (timed_mp c r) -> nlp_at (timed_mp c r) z [1] = Ok n -> feasible n -> exists t, 0 <= t <= 1 /\ n_f n = c t + r * t.
Proof.
  intros Lz En F. destruct (nlp_like (timed_mp c r) _ _ z [1] (user_traj (timed_mp c r) z) (timed_in c r z Lz) (fun ph _ => same_refl _ _)) as (rs & m & Er & En' & _ & HF & HC).
  rewrite <- (same_ok _ _ _ _ _ En En') in *. injection Er as <-. destruct (proj1 HF F) as (B & _). destruct (B 0%nat ltac:(cbn; lia)) as (_ & _ & (S1 & S2) & (T1 & T2) & _). cbn [bnd nth timed_mp mp_ocp timed o_lbtf o_ubtf o_lbt0 o_ubt0 above below] in S1, S2, T1, T2.
  set (y := user_traj (timed_mp c r) z 0) in *. exists (y_tf y). split; [split; [exact T1|exact T2]|]. rewrite HC. change (o_nph (mp_ocp (timed_mp c r))) with 1%nat. cbn [Rsum]. etransitivity; [apply Rplus_0_l|]. fold y. rewrite timed_cost.
  assert (E0 : y_t0 y = 0) by (apply Rle_antisym; [exact S2|exact S1]). rewrite E0. apply (f_equal (fun v : R => c (y_tf y) + r * v)), Rminus_0_r.
Qed.
