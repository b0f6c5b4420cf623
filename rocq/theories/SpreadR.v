(** Distances of states on segments of degree one (proofs of C96). *)
From Coq Require Import Reals Lia Lra Psatz Bool Arith String.
From Coquelicot Require Import Coquelicot.
From Coq Require Import List.
From Verif Require Import Num PyList Mat Poly Roots Colloc Ocp Transcribe Spec SpecOcp SpecHadapt SpecTrack SpecContract SpecSpread NumR ListR PolyR CollocR CompR CollocThm MeshR BlockR DiscR NlpR OcpR ScaleR NlpThm CostR WeightR ConvexR UniqueR TransR TaylorR ExactR SmoothR TrackR ContractR EulerR.
Import ListNotations.
Open Scope R_scope.

Lemma squares n (d0 d1 : nat -> R) a : 0 <= a -> a * Rsum n (fun s => d1 s * d1 s) <= Rsum n (fun s => d0 s * d1 s) -> Rsum n (fun s => d1 s * d1 s) * (a * a) <= Rsum n (fun s => d0 s * d0 s).
Proof.
  intros Ha H. assert (P : 0 <= Rsum n (fun s => (d0 s - a * d1 s) * (d0 s - a * d1 s))) by (apply Rsum_nonneg; intros s _; apply Rle_0_sqr).
  assert (E : Rsum n (fun s => (d0 s - a * d1 s) * (d0 s - a * d1 s)) = Rsum n (fun s => d0 s * d0 s) - 2 * a * Rsum n (fun s => d0 s * d1 s) + a * a * Rsum n (fun s => d1 s * d1 s)).
  { clear. induction n as [|n IH]; cbn [Rsum]; [ring|]. rewrite IH. ring. }
  rewrite E in P. nra.
Qed.
Section Two.
Variables (mp : mpo Rnum) (rs : list (list R)) (w : nat -> R) (ph : nat) (y : utraj) (x2 u2 : nat -> nat -> R) (L : R).
Let o := mp_ocp mp.
Let cf := mp_cf mp.
Let orders := mp_orders mp.
Let y2 := Utraj x2 u2 (y_t0 y) (y_tf y) (y_a y).
Hypothesis Hcf : cfg_ok cf.
Hypothesis Hgood : forall k q, nth_error orders k = Some q -> good_nodes (cf_tau0 cf) (cf_tau1 cf) q (nth k rs []).
Hypothesis Hw : forall k, (k < length orders)%nat -> 0 < w k.
Hypothesis Hsum : Rsum (length orders) w = 1.
Hypothesis Hy : y_t0 y < y_tf y.
Hypothesis D1 : dynamics_ok mp rs w ph y.
Hypothesis D2 : dynamics_ok mp rs w ph y2.
Hypothesis Hu : forall i c, (i < total_nodes orders)%nat -> (c < o_nu o)%nat -> y_u y i c = u2 i c.
Hypothesis HL : spreading o ph (a_of o y) (y_t0 y) (y_tf y) L.
Lemma step_gap k : nth_error orders k = Some 1%nat -> L * lasts w y k <= 1 ->
  gap2 o y y2 (offset orders (S k)) * ((1 - L * lasts w y k) * (1 - L * lasts w y k)) <= gap2 o y y2 (offset orders k).
Proof.
  intros Eq Hl. pose proof (MeshR.nth_error_lt _ _ _ Eq) as Hk. rewrite (offset_S _ _ _ Eq). set (b := offset orders k) in *. set (r := nth k rs []) in *. pose proof (Hgood k 1%nat Eq) as Hg. fold r in Hg.
  pose proof (co_taus _ Hcf) as Ht. set (h := seg_h cf w y k). set (i := (b + 1)%nat). set (t := seg_time cf w y k (nth 1 r 0)).
  assert (Hown : owned orders i k 1) by (exists 1%nat; repeat split; auto). pose proof (owned_lt _ _ _ _ Hown) as Hi.
  assert (El : lasts w y k = h * (cf_tau1 cf - cf_tau0 cf)) by (unfold lasts, h, seg_h; field; lra). assert (Pl : 0 < lasts w y k) by (unfold lasts; apply Rmult_lt_0_compat; [lra|apply Hw; exact Hk]).
  set (l := lasts w y k) in *. set (f := rhs o ph (a_of o y) (y_x y i) (y_u y i) t). set (f2 := rhs o ph (a_of o y) (x2 i) (y_u y i) t).
  assert (EU : rhs o ph (a_of o y) (x2 i) (u2 i) t = f2).
  { unfold f2, rhs. rewrite (ResidThm.vec_ext (o_nu o) (u2 i) (y_u y i)); [reflexivity|]. intros c' Hc'. symmetry. apply Hu; [exact Hi|exact Hc']. }
  assert (Key : forall s, (s < o_nx o)%nat -> y_x y i s - y_x y b s = l * nth s f 0 /\ x2 i s - x2 b s = l * nth s f2 0).
  { intros s Hs. split.
    - destruct (interp_exists r (fun j => y_x y (b + j)%nat s) (good_nodup _ _ _ _ Hg)) as (c & Hc).
      pose proof (line_slope _ _ r c _ (nth 1 r 0) Ht Hg Hc) as X. cbn beta in X. rewrite Nat.add_0_r in X. fold i in X.
      pose proof (D1 _ k 1%nat s c Hown Hs Hc) as X1. pose proof (is_derive_unique2 _ _ _ _ (is_derive_peval c (nth 1 r 0)) X1) as Y1.
      change (peval (@pder Rnum c) (nth 1 r 0) = h * nth s f 0) in Y1. rewrite Y1 in X. rewrite El. clear - X. nred. lra.
    - destruct (interp_exists r (fun j => x2 (b + j)%nat s) (good_nodup _ _ _ _ Hg)) as (c & Hc).
      pose proof (line_slope _ _ r c _ (nth 1 r 0) Ht Hg Hc) as X. cbn beta in X. rewrite Nat.add_0_r in X. fold i in X.
      pose proof (D2 _ k 1%nat s c Hown Hs Hc) as X1. pose proof (is_derive_unique2 _ _ _ _ (is_derive_peval c (nth 1 r 0)) X1) as Y1.
      change (peval (@pder Rnum c) (nth 1 r 0) = h * nth s (rhs o ph (a_of o y) (x2 i) (u2 i) t) 0) in Y1. rewrite EU in Y1. rewrite Y1 in X. rewrite El. clear - X. nred. lra. }
  assert (P : dotdiff (o_nx o) (y_x y i) (x2 i) (fun s => nth s f 0) (fun s => nth s f2 0) <= L * dotdiff (o_nx o) (y_x y i) (x2 i) (y_x y i) (x2 i)).
  { apply HL. apply (T_range mp w y Ht Hw Hsum Hy k _ Hk). apply (good_range _ _ 1%nat); [exact Ht|exact Hg|lia]. }
  apply (squares (o_nx o) (fun s => y_x y b s - x2 b s) (fun s => y_x y i s - x2 i s) (1 - L * l)); [lra|].
  rewrite (Rsum_ext (o_nx o) (fun s => (y_x y b s - x2 b s) * (y_x y i s - x2 i s)) (fun s => (y_x y i s - x2 i s) * (y_x y i s - x2 i s) - l * ((y_x y i s - x2 i s) * (nth s f 0 - nth s f2 0)))).
  - rewrite Rsum_minus, Rsum_scal. unfold dotdiff in P. nra.
  - intros s Hs. destruct (Key s Hs) as (A & B). replace (y_x y b s) with (y_x y i s - l * nth s f 0) by lra. replace (x2 b s) with (x2 i s - l * nth s f2 0) by lra. ring.
Qed.
End Two.
Theorem spread_thm mp npath nterm (z z' p : list R) n n' ph : input_ok mp npath nterm z p -> input_ok mp npath nterm z' p -> widths_ok (mp_nseg mp) (o_nph (mp_ocp mp)) p ->
  nlp_at mp z p = Ok n -> nlp_at mp z' p = Ok n' -> feasible n -> feasible n' -> (ph < o_nph (mp_ocp mp))%nat ->
  let o := mp_ocp mp in let w := width mp p ph in let y := user_traj mp z ph in let y' := user_traj mp z' ph in y_t0 y < y_tf y ->
    y_t0 y' = y_t0 y -> y_tf y' = y_tf y -> (forall i, (i < o_na o)%nat -> y_a y' i = y_a y i) -> (forall i c, (i < total_nodes (mp_orders mp))%nat -> (c < o_nu o)%nat -> y_u y i c = y_u y' i c) ->
    forall L, spreading o ph (a_of o y) (y_t0 y) (y_tf y) L -> forall k, nth_error (mp_orders mp) k = Some 1%nat -> L * lasts w y k <= 1 ->
    gap2 o y y' (offset (mp_orders mp) (S k)) * ((1 - L * lasts w y k) * (1 - L * lasts w y k)) <= gap2 o y y' (offset (mp_orders mp) k).
Proof.
  intros Hin Hin' Hw En En' Hf Hf' Hph o w y y' Hy E1 E2 E3 E4 L HL.
  destruct (nlp_like _ _ _ _ _ (user_traj mp z) Hin (fun ph _ => same_refl _ _)) as (rs & m & R1 & R2 & _ & R3 & _).
  assert (m = n) as -> by (pose proof (eq_trans (eq_sym R2) En) as X; injection X as X; exact X). apply R3 in Hf. destruct Hf as (_ & Hp & _). destruct (Hp ph Hph) as (Hdyn & _).
  destruct (nlp_like _ _ _ _ _ (user_traj mp z') Hin' (fun ph _ => same_refl _ _)) as (rs' & m' & R1' & R2' & R4 & R3' & _).
  assert (m' = n') as -> by (pose proof (eq_trans (eq_sym R2') En') as X; injection X as X; exact X). apply R3' in Hf'. destruct Hf' as (_ & Hp' & _). destruct (Hp' ph Hph) as (Hdyn' & _).
  assert (rs' = rs) as -> by (pose proof (eq_trans (eq_sym R1') R1) as X; injection X as X; exact X).
  set (y2 := Utraj (y_x y') (y_u y') (y_t0 y) (y_tf y) (y_a y)).
  assert (HS : same_traj mp y' y2) by (split; [reflexivity|]; split; [reflexivity|]; split; [exact E1|]; split; [exact E2|exact E3]).
  assert (Hdyn2 : dynamics_ok mp rs (width mp p ph) ph y2) by exact (dynamics_congr mp rs (width mp p ph) ph R4 y' y2 HS Hdyn').
  pose proof (in_mpo _ _ _ _ _ Hin) as Hmp. destruct (part_widths mp p Hmp Hw ph Hph) as (W1 & W2).
  assert (Hg : forall k q, nth_error (mp_orders mp) k = Some q -> good_nodes (cf_tau0 (mp_cf mp)) (cf_tau1 (mp_cf mp)) q (nth k rs [])).
  { intros k q Eq. apply (rs_good mp npath nterm z p Hin rs R1 k q _ Eq). apply nth_error_nth'. exact (Nat.lt_le_trans _ _ _ (MeshR.nth_error_lt _ _ _ Eq) (Nat.eq_le_incl _ _ (eq_sym (rs_len mp rs R1)))). }
  exact (step_gap mp rs (width mp p ph) ph y (y_x y') (y_u y') L (mo_cfg _ Hmp) Hg W1 W2 Hy Hdyn Hdyn2 E4 HL).
Qed.
