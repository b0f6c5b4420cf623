(** Convex functions along segments of degree one (proofs of C94). *)
From Coq Require Import Reals Lia Lra Psatz Bool Arith String.
From Coquelicot Require Import Coquelicot.
From Coq Require Import List.
From Verif Require Import Num PyList Mat Poly Roots Colloc Ocp Transcribe Spec SpecOcp SpecHadapt SpecTrack SpecEuler NumR ListR PolyR CollocR CompR CollocThm MeshR BlockR DiscR NlpR OcpR ScaleR NlpThm CostR WeightR ConvexR UniqueR TransR TaylorR ExactR SmoothR TrackR.
Import ListNotations.
Open Scope R_scope.

Lemma line_slope t0 t1 (r : list R) (c : list R) ys x : t0 < t1 -> good_nodes t0 t1 1 r -> interpolates c r ys -> peval (@pder Rnum c) x * (t1 - t0) = ys 1%nat - ys 0%nat.
Proof.
  intros Ht (Lr & _ & R0 & R1) (Lc & Ec). pose proof (Ec 0%nat ltac:(lia)) as E0. pose proof (Ec 1%nat ltac:(lia)) as E1. rewrite R0 in E0. rewrite R1 in E1.
  assert (L2 : (length c <= 2)%nat) by (eapply Nat.le_trans; [exact Lc|]; rewrite Lr; apply le_n).
  destruct c as [|c0 [|c1 [|c2 c]]]; [| | |cbn in L2; lia]; cbn in *; nred; nra.
Qed.
Section One.
Variables (mp : mpo Rnum) (rs : list (list R)) (w : nat -> R) (ph : nat) (y : utraj) (V : (nat -> R) -> R) (G : (nat -> R) -> nat -> R).
Let o := mp_ocp mp.
Let cf := mp_cf mp.
Let orders := mp_orders mp.
Hypothesis Hcf : cfg_ok cf.
Hypothesis Hgood : forall k q, nth_error orders k = Some q -> good_nodes (cf_tau0 cf) (cf_tau1 cf) q (nth k rs []).
Hypothesis Hw : forall k, (k < length orders)%nat -> 0 < w k.
Hypothesis Hsum : Rsum (length orders) w = 1.
Hypothesis Hy : y_t0 y < y_tf y.
Hypothesis D1 : dynamics_ok mp rs w ph y.
Hypothesis B1 : bounds_ok mp ph y.
Hypothesis HV : supports (o_nx o) V G.
Hypothesis HG : not_growing o ph (a_of o y) (y_t0 y) (y_tf y) G.
Lemma euler_step k : nth_error orders k = Some 1%nat -> V (y_x y (offset orders (S k))) <= V (y_x y (offset orders k)).
Proof.
  intros Eq. pose proof (MeshR.nth_error_lt _ _ _ Eq) as Hk. rewrite (offset_S _ _ _ Eq). set (b := offset orders k) in *. set (r := nth k rs []) in *. pose proof (Hgood k 1%nat Eq) as Hg. fold r in Hg.
  pose proof (co_taus _ Hcf) as Ht. pose proof (h_pos mp w y Ht Hw Hy k Hk) as Hh. fold cf in Hh. set (h := seg_h cf w y k) in *. set (i := (b + 1)%nat). set (t := seg_time cf w y k (nth 1 r 0)).
  assert (Hown : owned orders i k 1) by (exists 1%nat; repeat split; auto).
  pose proof (owned_lt _ _ _ _ Hown) as Hi. set (f := rhs o ph (a_of o y) (y_x y i) (y_u y i) t).
  assert (Key : forall s, (s < o_nx o)%nat -> y_x y b s - y_x y i s = - (h * (cf_tau1 cf - cf_tau0 cf)) * nth s f 0).
  { intros s Hs. destruct (interp_exists r (fun j => y_x y (b + j)%nat s) (good_nodup _ _ _ _ Hg)) as (c & Hc).
    pose proof (line_slope _ _ r c _ (nth 1 r 0) Ht Hg Hc) as X. cbn beta in X. rewrite Nat.add_0_r in X. fold i in X.
    pose proof (D1 _ k 1%nat s c Hown Hs Hc) as X1. pose proof (is_derive_unique2 _ _ _ _ (is_derive_peval c (nth 1 r 0)) X1) as Y1.
    change (peval (@pder Rnum c) (nth 1 r 0) = h * nth s f 0) in Y1. rewrite Y1 in X. clear - X. nred. lra. }
  assert (P : Rsum (o_nx o) (fun s => G (y_x y i) s * nth s f 0) <= 0).
  { destruct B1 as (Bx & Bu & _). apply (HG t (y_u y i) (y_x y i)).
    - apply (T_range mp w y Ht Hw Hsum Hy k _ Hk). apply (good_range _ _ 1%nat); [exact Ht|exact Hg|lia].
    - intros s Hs. pose proof (Bx i s Hi Hs) as Q. replace (Nat.eqb i 0) with false in Q by (unfold i; rewrite Nat.add_1_r; reflexivity). rewrite andb_false_r in Q. exact Q.
    - intros c Hc. exact (Bu i c Hi Hc). }
  pose proof (HV (y_x y i) (y_x y b)) as X.
  rewrite (Rsum_ext (o_nx o) _ (fun s => - (h * (cf_tau1 cf - cf_tau0 cf)) * (G (y_x y i) s * nth s f 0))) in X by (intros s Hs; rewrite (Key s Hs); ring). rewrite Rsum_scal in X.
  assert (0 < h * (cf_tau1 cf - cf_tau0 cf)) by (apply Rmult_lt_0_compat; [exact Hh|lra]). nra.
Qed.
Lemma euler_all : (forall q, In q orders -> q = 1%nat) -> forall k k', (k <= k')%nat -> (k' <= length orders)%nat -> V (y_x y (offset orders k')) <= V (y_x y (offset orders k)).
Proof.
  intros H1 k k' H. induction H as [|m H IH]; intros Hk; [apply Rle_refl|]. eapply Rle_trans; [|apply IH; lia].
  destruct (nth_error orders m) as [q|] eqn:Eq; [|apply nth_error_None in Eq; lia]. rewrite (H1 q (nth_error_In _ _ Eq)) in Eq. exact (euler_step m Eq).
Qed.
Lemma ones_offset : (forall q, In q orders -> q = 1%nat) -> forall k, (k <= length orders)%nat -> offset orders k = k.
Proof.
  intros H1. induction k as [|k IH]; intros Hk; [apply offset_0|]. destruct (nth_error orders k) as [q|] eqn:Eq; [|apply nth_error_None in Eq; lia].
  rewrite (offset_S _ _ _ Eq), (H1 q (nth_error_In _ _ Eq)), IH by lia. lia.
Qed.
End One.
Theorem euler_thm mp npath nterm (z p : list R) n ph V G : input_ok mp npath nterm z p -> widths_ok (mp_nseg mp) (o_nph (mp_ocp mp)) p -> nlp_at mp z p = Ok n -> feasible n -> (ph < o_nph (mp_ocp mp))%nat ->
  let o := mp_ocp mp in let y := user_traj mp z ph in y_t0 y < y_tf y -> supports (o_nx o) V G -> not_growing o ph (a_of o y) (y_t0 y) (y_tf y) G ->
    (forall k, nth_error (mp_orders mp) k = Some 1%nat -> V (y_x y (offset (mp_orders mp) (S k))) <= V (y_x y (offset (mp_orders mp) k))) /\
    ((forall q, In q (mp_orders mp) -> q = 1%nat) -> (forall i i', (i <= i')%nat -> (i' < total_nodes (mp_orders mp))%nat -> V (y_x y i') <= V (y_x y i)) /\
      (ph = 0%nat -> forall i, (i < total_nodes (mp_orders mp))%nat -> V (y_x y i) <= V (fun s => nth s (nth 0 (o_x00 o) []) 0))).
Proof.
  intros Hin Hw En Hf Hph o y Hy HV HG.
  destruct (nlp_like _ _ _ _ _ (user_traj mp z) Hin (fun ph _ => same_refl _ _)) as (rs & m & R1 & R2 & _ & R3 & _).
  assert (m = n) as -> by (pose proof (eq_trans (eq_sym R2) En) as X; injection X as X; exact X). apply R3 in Hf. destruct Hf as (Hb & Hp & _). destruct (Hp ph Hph) as (Hdyn & _). specialize (Hb ph Hph).
  pose proof (in_mpo _ _ _ _ _ Hin) as Hmp. destruct (part_widths mp p Hmp Hw ph Hph) as (W1 & W2).
  assert (Hg : forall k q, nth_error (mp_orders mp) k = Some q -> good_nodes (cf_tau0 (mp_cf mp)) (cf_tau1 (mp_cf mp)) q (nth k rs [])).
  { intros k q Eq. apply (rs_good mp npath nterm z p Hin rs R1 k q _ Eq). apply nth_error_nth'. exact (Nat.lt_le_trans _ _ _ (MeshR.nth_error_lt _ _ _ Eq) (Nat.eq_le_incl _ _ (eq_sym (rs_len mp rs R1)))). }
  split; [intros k Ek; exact (euler_step mp rs (width mp p ph) ph y V G (mo_cfg _ Hmp) Hg W1 W2 Hy Hdyn Hb HV HG k Ek)|]. intros H1.
  pose proof (euler_all mp rs (width mp p ph) ph y V G (mo_cfg _ Hmp) Hg W1 W2 Hy Hdyn Hb HV HG H1) as GA.
  assert (GN : forall i i', (i <= i')%nat -> (i' < total_nodes (mp_orders mp))%nat -> V (y_x y i') <= V (y_x y i)).
  { intros i i' Hi Hi'. unfold total_nodes in Hi'. assert (EL : offset (mp_orders mp) (length (mp_orders mp)) = length (mp_orders mp)) by (apply (ones_offset mp H1); lia). rewrite EL in Hi'.
    pose proof (GA i i' Hi ltac:(lia)) as X. rewrite !(ones_offset mp H1) in X by lia. exact X. }
  split; [exact GN|]. intros -> i Hi. eapply Rle_trans; [exact (GN 0%nat i (Nat.le_0_l i) Hi)|].
  destruct Hb as (Bx & _). eapply Rle_trans; [|apply (HV (y_x y 0))]. rewrite Rsum_0; [rewrite Rplus_0_r; apply Rle_refl|].
  intros s Hs. assert (H0 : (0 < total_nodes (mp_orders mp))%nat) by lia. pose proof (Bx 0%nat s H0 Hs) as Q. cbn [Nat.eqb andb] in Q. fold y o in Q. rewrite Q. ring.
Qed.
