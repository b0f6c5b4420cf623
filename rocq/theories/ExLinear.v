(** Problems for C76: a point that is inexact on a later segment, and one of a nonlinear problem. *)
From Coq Require Import Reals Lia Lra Bool Arith String.
From Coquelicot Require Import Coquelicot.
From Coq Require Import List.
From Verif Require Import Num PyList Mat Poly Roots Colloc Ocp Transcribe Spec SpecOcp SpecHadapt SpecResid SpecExact SpecLinear NumR ListR PolyR CompR MeshR BlockR DiscR NlpR NlpThm CostR ScaleR ExactR TransR ExOcp ExTrack ExExist LinearR.
Import ListNotations.
Open Scope R_scope.

Lemma drift_linear lo hi g ph : (ph < 1)%nat -> linear_dyn (drift lo hi g) ph /\ linear_run (drift lo hi g) ph.
Proof.
  intros H. assert (ph = 0)%nat as -> by lia. split; intros a _.
  - exists (fun _ _ => 0), (fun _ _ => 1), (fun _ => 0), (fun _ => 0). intros f x u t d Ef Hx Hu Ed s Hs. cbn in Ef, Hs. injection Ef as <-. injection Ed as <-. assert (s = 0)%nat as -> by lia. unfold affine. cbn. ring.
  - exists (fun _ => 0), (fun _ => 0), 0, 0. intros f x u t l Ef Hx Hu El. cbn in Ef. injection Ef as <-. injection El as <-. unfold affine. cbn. ring.
Qed.
Lemma drift_unbounded g : unbounded (drift NInf PInf g) (fun _ => None).
Proof.
  intros ph H. cbn in H. assert (ph = 0)%nat as -> by lia. split; [reflexivity|]. split; intros s Hs; cbn in Hs; (assert (s = 0)%nat as -> by lia); split; reflexivity.
Qed.
Lemma drift_slopes lo hi g : no_slopes (drift lo hi g).
Proof. intros [|ph]; split; try reflexivity; destruct ph; reflexivity. Qed.

(** rest on the first segment, then drift *)
Definition late (K : nat) : utraj := Utraj (fun i _ => INR (i - 1) / INR K) (fun i _ => if Nat.leb i 1 then 0 else 1) 0 1 (fun _ => 0).
Section Late.
Variables (g : R -> R) (K : nat).
Hypothesis HK : (2 <= K)%nat.
Let mp := drift_mp NInf PInf g K.
Let y := late K.
Lemma late_thm : exists (z : list R) n rs, input_ok mp (fun _ => None) (fun _ => None) z (swing_p K) /\ nlp_at mp z (swing_p K) = Ok n /\ feasible n /\
  mapM (c_roots (mp_cf mp)) (mp_orders mp) = Ok rs /\
  forall cx cu, SpecResid.seg_polys mp rs (user_traj mp z 0) 1 cx cu -> defect mp (width mp (swing_p K) 0) 0 (user_traj mp z 0) 1 cx cu 0 (-1) <> 0.
Proof.
  assert (Ha : around NInf PInf) by (split; left; reflexivity). assert (HKp : 0 < INR K) by (apply lt_0_INR; lia).
  set (z := pack mp (fun _ => y)).
  assert (Hz : length z = nvars mp) by (unfold z; rewrite length_pack; change (o_nph (mp_ocp mp)) with 1%nat; lia).
  pose proof (drift_input NInf PInf g K z ltac:(lia) Ha Hz) as I.
  assert (ST : forall ph, (ph < o_nph (mp_ocp mp))%nat -> same_traj mp (user_traj mp z ph) y) by (intros ph Hph; exact (pack_traj mp (fun _ => y) ph (ok_shapes _ _ _ (drift_ok _ _ _ Ha)) (drift_scales _ _ _) Hph)).
  destruct (nlp_like mp _ _ z (swing_p K) (fun _ => y) I ST) as (rs & n & Er & En & Hlen & Hf & Hc).
  assert (rs = repeat [-1; 1] K) as -> by (pose proof (eq_trans (eq_sym Er) (swing_roots K)) as X; injection X as X; exact X).
  assert (SN : (total_nodes (repeat 1 K) = S K)%nat) by exact (swing_nodes K).
  exists z, n, (repeat [-1; 1] K). split; [exact I|]. split; [exact En|]. split; [|split; [exact Er|]].
  - apply Hf. split; [|split].
    + intros ph Hph. cbn in Hph. assert (ph = 0)%nat as -> by lia. split; [|split; [|split; [|split]]].
      * intros i s Hi Hs. cbn in Hs. assert (s = 0)%nat as -> by lia. cbn. destruct (Nat.eqb_spec i 0) as [-> |Hn]; cbn; [nred; field; lra|]. split; exact Logic.I.
      * intros i c Hi Hs. cbn in Hs. assert (c = 0)%nat as -> by lia. split; exact Logic.I.
      * split; cbn; lra.
      * split; cbn; lra.
      * intros i Hi. cbn in Hi. lia.
    + intros ph Hph. cbn in Hph. assert (ph = 0)%nat as -> by lia. split; [|split; [|split; [|split; [|split]]]].
      * intros i k j s c Ho Hs Hc'. cbn in Hs. assert (s = 0)%nat as -> by lia. pose proof Ho as Ho'.
        assert (Hk : (k < K)%nat) by (destruct Ho as (q & Eq & _); pose proof (nth_error_lt _ _ _ Eq) as X; cbn in X; rewrite repeat_length in X; exact X).
        pose proof (demo_line K k _ c Hk Hc') as L. cbn beta in L.
        assert (Hi : (y_x y (S k) 0%nat - y_x y k 0%nat = y_u y i 0%nat / INR K)).
        { destruct Ho as (q & Eq & Hj & Hkj & ->). assert (q = 1)%nat as -> by (apply nth_error_In, repeat_spec in Eq; exact Eq). change (mp_orders mp) with (repeat 1%nat K). rewrite offset_ones by lia.
          unfold y, late. cbn [y_x y_u]. destruct k as [|k].
          - destruct j as [|[|j]]; [| |lia]; cbn; field; lra.
          - assert (j = 1)%nat as -> by lia. replace (S (S k) - 1)%nat with (S k) by lia. replace (S k - 1)%nat with k by lia. rewrite S_INR. replace (Nat.leb (S k + 1) 1) with false by (symmetry; apply Nat.leb_gt; lia). field. lra. }
        replace (seg_h (mp_cf mp) (width mp (swing_p K) 0) y k * _) with ((y_x y (S k) 0 - y_x y k 0) / 2).
        -- eapply line_derive. exact L.
        -- rewrite Hi. unfold seg_h. change (width mp (swing_p K) 0 k) with (width (swing_mp K) (swing_p K) 0 k). rewrite swing_width by exact Hk.
           match goal with |- _ = _ * ?d => change d with (y_u y i 0%nat) end. change (cf_tau1 (mp_cf mp)) with 1. change (cf_tau0 (mp_cf mp)) with (-1). change (y_tf y) with 1. change (y_t0 y) with 0. field. lra.
      * intros i k j c _ [].
      * intros H; discriminate H.
      * intros H; discriminate H.
      * intros H; discriminate H.
      * intros c [].
    + intros H. cbn in H. lia.
  - intros cx cu [HX HU]. pose proof (HX 0%nat ltac:(cbn; lia)) as HX0. pose proof (HU 0%nat ltac:(cbn; lia)) as HU0.
    pose proof (demo_line K 1 _ _ ltac:(lia) HX0) as LX. pose proof (demo_line K 1 _ _ ltac:(lia) HU0) as LU. cbn beta in LX, LU.
    destruct (ST 0%nat ltac:(cbn; lia)) as (Tx & Tu & T0 & Tf & _). change (mp_orders mp) with (repeat 1%nat K) in Tx, Tu. rewrite SN in Tx, Tu.
    pose proof (Tx 1%nat 0%nat ltac:(lia) ltac:(cbn; lia)) as X1. pose proof (Tx 2%nat 0%nat ltac:(lia) ltac:(cbn; lia)) as X2.
    pose proof (Tu 1%nat 0%nat ltac:(lia) ltac:(cbn; lia)) as U1. pose proof (Tu 2%nat 0%nat ltac:(lia) ltac:(cbn; lia)) as U2.
    unfold defect, rate. rewrite (is_derive_unique _ _ _ (line_derive _ _ _ _ LX)).
    match goal with |- ?a - _ * ?d <> 0 => change d with (peval (cu 0%nat) (-1)) end. rewrite LU.
    rewrite X1, X2, U1, U2. unfold y, late. cbn. nred. intros E.
    assert (E1 : (1 / INR K - 0 / INR K) / 2 = 0) by lra. assert (0 < / INR K) by (apply Rinv_0_lt_compat; exact HKp). lra.
Qed.
End Late.

(** x' = u^2 on one segment of order 1, controls 1 and -1 at its ends *)
Lemma curved_thm : exists (z : list R) n rs, input_ok (swing_mp 1) (fun _ => None) (fun _ => None) z (swing_p 1) /\ nlp_at (swing_mp 1) z (swing_p 1) = Ok n /\ feasible n /\
  mapM (c_roots (mp_cf (swing_mp 1))) (mp_orders (swing_mp 1)) = Ok rs /\
  forall cx cu, SpecResid.seg_polys (swing_mp 1) rs (user_traj (swing_mp 1) z 0) 0 cx cu -> defect (swing_mp 1) (width (swing_mp 1) (swing_p 1) 0) 0 (user_traj (swing_mp 1) z 0) 0 cx cu 0 0 <> 0.
Proof.
  destruct (swing_feasible 1 ltac:(lia)) as (n & En & F). exists (swing_z 1), n, (repeat [-1; 1] 1).
  split; [exact (swing_input 1 ltac:(lia))|]. split; [exact En|]. split; [exact F|]. split; [exact (swing_roots 1)|]. intros cx cu [HX HU].
  pose proof (HX 0%nat ltac:(cbn; lia)) as HX0. pose proof (HU 0%nat ltac:(cbn; lia)) as HU0.
  pose proof (demo_line 1 0 _ _ ltac:(lia) HX0) as LX. pose proof (swing_control 1 (cu 0%nat) 0 0 ltac:(lia) HU0) as LU. cbn beta in LX.
  destruct (swing_traj 1 0%nat ltac:(lia)) as (Tx & _). change (mp_orders (swing_mp 1)) with (repeat 1%nat 1) in Tx. 
  pose proof (Tx 0%nat 0%nat ltac:(cbn; lia) ltac:(cbn; lia)) as X1. pose proof (Tx 1%nat 0%nat ltac:(cbn; lia) ltac:(cbn; lia)) as X2.
  unfold defect, rate. rewrite (is_derive_unique _ _ _ (line_derive _ _ _ _ LX)).
  match goal with |- ?a - _ * ?d <> 0 => change d with (peval (cu 0%nat) 0 * peval (cu 0%nat) 0) end. rewrite LU, X1, X2. cbn. nred. lra.
Qed.
