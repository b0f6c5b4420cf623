(** Damped states on Radau meshes (proofs of C93). *)
From Coq Require Import Reals Lia Lra Psatz Bool Arith String.
From Coquelicot Require Import Coquelicot.
From Coq Require Import List.
From Verif Require Import Num PyList Mat Poly Roots Colloc Ocp Transcribe Spec SpecOcp SpecHadapt SpecTrack SpecDamp NumR ListR PolyR CollocR CompR CollocThm MeshR BlockR DiscR NlpR OcpR ScaleR NlpThm CostR WeightR ConvexR UniqueR TransR TaylorR ExactR SmoothR TrackR ContractR.
Import ListNotations.
Open Scope R_scope.

Section One.
Variables (mp : mpo Rnum) (rs : list (list R)) (w : nat -> R) (ph : nat) (y : utraj) (e : nat -> R).
Let o := mp_ocp mp.
Let cf := mp_cf mp.
Let orders := mp_orders mp.
Hypothesis Hcf : cfg_ok cf.
Hypothesis Hpos : forall q, In q orders -> (1 <= q)%nat.
Hypothesis Hsch : forall q, In q orders -> cf_scheme cf = "LGR"%string \/ q = 1%nat.
Hypothesis Hroot : forall k q, nth_error orders k = Some q -> c_roots cf q = Ok (nth k rs []).
Hypothesis Hgood : forall k q, nth_error orders k = Some q -> good_nodes (cf_tau0 cf) (cf_tau1 cf) q (nth k rs []).
Hypothesis Hw : forall k, (k < length orders)%nat -> 0 < w k.
Hypothesis Hsum : Rsum (length orders) w = 1.
Hypothesis Hy : y_t0 y < y_tf y.
Hypothesis D1 : dynamics_ok mp rs w ph y.
Hypothesis B1 : bounds_ok mp ph y.
Let T k j := seg_time cf w y k (nth (S j) (nth k rs []) 0).
Let out k j := let i := (offset orders k + S j)%nat in
  Rsum (o_nx o) (fun s => (y_x y i s - e s) * nth s (rhs o ph (a_of o y) (y_x y i) (y_u y i) (T k j)) 0).
Lemma seg_energy k q : nth_error orders k = Some q -> exists W, (forall j, (j < q)%nat -> 0 < W j) /\
  energy o e (y_x y (offset orders (S k))) <= energy o e (y_x y (offset orders k)) + Rsum q (fun j => W j * out k j).
Proof.
  intros Eq. pose proof (MeshR.nth_error_lt _ _ _ Eq) as Hk. set (b := offset orders k) in *. set (r := nth k rs []) in *. pose proof (Hgood k q Eq) as Hg. fold r in Hg.
  pose proof (nth_error_In _ _ Eq) as Hin. destruct (radau_exists cf q r Hcf (Hpos q Hin) (Hsch q Hin) (Hroot k q Eq)) as (W & HW). pose proof HW as (HW0 & _).
  pose proof (h_pos mp w y (co_taus _ Hcf) Hw Hy k Hk) as Hh. fold cf in Hh. set (h := seg_h cf w y k) in *.
  exists (fun j => W j * (2 * h)). split; [intros j Hj; apply Rmult_lt_0_compat; [exact (HW0 j Hj)|lra]|].
  assert (Lr : length r = S q) by apply Hg. pose proof (good_nodup _ _ _ _ Hg) as Hnd.
  assert (Key : forall s, (s < o_nx o)%nat -> (y_x y (b + q)%nat s - e s) * (y_x y (b + q)%nat s - e s) - (y_x y b s - e s) * (y_x y b s - e s) <=
    Rsum q (fun j => W j * (2 * h) * ((y_x y (b + S j)%nat s - e s) * nth s (rhs o ph (a_of o y) (y_x y (b + S j)%nat) (y_u y (b + S j)%nat) (T k j)) 0))).
  { intros s Hs. destruct (interp_exists r (fun j => y_x y (b + j)%nat s) Hnd) as (c & Lc & Ec).
    destruct (poly_minus c [e s] (S q)) as (d & Ld & Ed); [rewrite <- Lr; exact Lc|cbn; lia|].
    assert (Ee : forall x, peval [e s] x = e s) by (intros x; cbn; ring).
    assert (Ed' : forall x, peval (@pder Rnum d) x = peval (@pder Rnum c) x).
    { intros x. apply (is_derive_unique2 (peval d) x); [apply is_derive_peval|]. apply (is_derive_ext (fun x => peval c x - e s)); [intros t; rewrite Ed, Ee; reflexivity|].
      refine (is_derive_ext_val _ _ _ _ _ (is_derive_minus (K := R_AbsRing) (V := R_NormedModule) (peval c) (fun _ => e s) x _ _ (is_derive_peval c x) (@is_derive_const R_AbsRing R_NormedModule (e s) x))).
      change (peval (@pder Rnum c) x - 0 = peval (@pder Rnum c) x). ring. }
    assert (Ev : forall j, (j <= q)%nat -> peval d (nth j r 0) = y_x y (b + j)%nat s - e s) by (intros j Hj; rewrite Ed, Ee, (Ec j) by (rewrite Lr; lia); reflexivity).
    pose proof (radau_key _ _ q r W d Hg (Hpos q Hin) HW Ld) as X. destruct Hg as (_ & _ & R0 & R1). rewrite <- R0, <- R1 in X. rewrite (Ev q (le_n q)), (Ev 0%nat (Nat.le_0_l q)), Nat.add_0_r in X.
    eapply Rle_trans; [exact X|]. apply Req_le, Rsum_ext. intros j Hj. rewrite (Ev (S j) Hj), Ed'.
    assert (Hown : owned orders (b + S j) k (S j)) by (exists q; repeat split; auto; lia).
    pose proof (D1 _ k (S j) s c Hown Hs (conj Lc Ec)) as X1. pose proof (is_derive_unique2 _ _ _ _ (is_derive_peval c (nth (S j) r 0)) X1) as Y1.
    change (peval (@pder Rnum c) (nth (S j) r 0) = h * nth s (rhs o ph (a_of o y) (y_x y (b + S j)%nat) (y_u y (b + S j)%nat) (T k j)) 0) in Y1. rewrite Y1. ring. }
  rewrite (offset_S _ _ _ Eq). fold b. unfold energy.
  apply Rplus_le_reg_l with (- Rsum (o_nx o) (fun s => (y_x y b s - e s) * (y_x y b s - e s))). rewrite <- Rplus_assoc, Rplus_opp_l, Rplus_0_l, Rplus_comm.
  change (Rsum (o_nx o) (fun s => (y_x y (b + q)%nat s - e s) * (y_x y (b + q)%nat s - e s)) - Rsum (o_nx o) (fun s => (y_x y b s - e s) * (y_x y b s - e s)) <= Rsum q (fun j => W j * (2 * h) * out k j)).
  rewrite <- Rsum_minus. eapply Rle_trans; [apply Rsum_le; exact Key|]. rewrite Rsum_exchange. apply Req_le, Rsum_ext. intros j Hj. rewrite Rsum_scal. reflexivity.
Qed.
Lemma ends_energy : damped o ph (a_of o y) (y_t0 y) (y_tf y) e -> forall k k', (k <= k')%nat -> (k' <= length orders)%nat -> energy o e (y_x y (offset orders k')) <= energy o e (y_x y (offset orders k)).
Proof.
  intros Hd k k' H. induction H as [|m H IH]; intros Hk; [apply Rle_refl|]. eapply Rle_trans; [|apply IH; lia].
  destruct (nth_error orders m) as [q|] eqn:Eq; [|apply nth_error_None in Eq; lia]. destruct (seg_energy m q Eq) as (W & HW & X). eapply Rle_trans; [exact X|].
  assert (G : Rsum q (fun j => W j * out m j) <= Rsum q (fun _ => 0)).
  { apply Rsum_le. intros j Hj. pose proof (HW j Hj) as Wj. destruct B1 as (Bx & Bu & _). set (i := (offset orders m + S j)%nat).
    assert (Hi : (i < total_nodes orders)%nat) by (apply (owned_lt orders i m (S j)); exists q; repeat split; auto; lia).
    assert (P : out m j <= 0).
    { apply (Hd (T m j) (y_u y i) (y_x y i)).
      - apply (T_range mp w y (co_taus _ Hcf) Hw Hsum Hy m _ (MeshR.nth_error_lt _ _ _ Eq)). apply (good_range _ _ q); [exact (co_taus _ Hcf)|exact (Hgood m q Eq)|lia].
      - intros s Hs. pose proof (Bx i s Hi Hs) as Q. replace (Nat.eqb i 0) with false in Q by (unfold i; rewrite Nat.add_succ_r; reflexivity). rewrite andb_false_r in Q. exact Q.
      - intros c Hc. exact (Bu i c Hi Hc). }
    nra. }
  rewrite (Rsum_0 q (fun _ => 0)) in G by reflexivity. lra.
Qed.
End One.
Theorem damp_thm mp npath nterm (z p : list R) n ph e : input_ok mp npath nterm z p -> widths_ok (mp_nseg mp) (o_nph (mp_ocp mp)) p -> nlp_at mp z p = Ok n -> feasible n -> (ph < o_nph (mp_ocp mp))%nat ->
  (forall q, In q (mp_orders mp) -> cf_scheme (mp_cf mp) = "LGR"%string \/ q = 1%nat) -> let o := mp_ocp mp in let y := user_traj mp z ph in y_t0 y < y_tf y -> damped o ph (a_of o y) (y_t0 y) (y_tf y) e ->
    (forall k k', (k <= k')%nat -> (k' <= length (mp_orders mp))%nat -> energy o e (y_x y (offset (mp_orders mp) k')) <= energy o e (y_x y (offset (mp_orders mp) k))) /\
    (ph = 0%nat -> forall k, (k <= length (mp_orders mp))%nat -> energy o e (y_x y (offset (mp_orders mp) k)) <= energy o e (fun s => nth s (nth 0 (o_x00 o) []) 0)).
Proof.
  intros Hin Hw En Hf Hph Hsch o y Hy Hd.
  destruct (nlp_like _ _ _ _ _ (user_traj mp z) Hin (fun ph _ => same_refl _ _)) as (rs & m & R1 & R2 & _ & R3 & _).
  assert (m = n) as -> by (pose proof (eq_trans (eq_sym R2) En) as X; injection X as X; exact X). apply R3 in Hf. destruct Hf as (Hb & Hp & _). destruct (Hp ph Hph) as (Hdyn & _). specialize (Hb ph Hph).
  pose proof (in_mpo _ _ _ _ _ Hin) as Hmp. destruct (part_widths mp p Hmp Hw ph Hph) as (W1 & W2).
  assert (Hg : forall k q, nth_error (mp_orders mp) k = Some q -> good_nodes (cf_tau0 (mp_cf mp)) (cf_tau1 (mp_cf mp)) q (nth k rs [])).
  { intros k q Eq. apply (rs_good mp npath nterm z p Hin rs R1 k q _ Eq). apply nth_error_nth'. exact (Nat.lt_le_trans _ _ _ (MeshR.nth_error_lt _ _ _ Eq) (Nat.eq_le_incl _ _ (eq_sym (rs_len mp rs R1)))). }
  pose proof (ends_energy mp rs (width mp p ph) ph y e (mo_cfg _ Hmp) (mo_pos _ Hmp) Hsch (rs_root mp rs R1) Hg W1 W2 Hy Hdyn Hb Hd) as G. split; [exact G|].
  intros -> k Hk. eapply Rle_trans; [exact (G 0%nat k (Nat.le_0_l k) Hk)|]. rewrite offset_0. apply Req_le, Rsum_ext. intros s Hs.
  destruct Hb as (Bx & _). assert (H0 : (0 < total_nodes (mp_orders mp))%nat) by (unfold total_nodes; lia). pose proof (Bx 0%nat s H0 Hs) as Q. cbn [Nat.eqb andb] in Q. fold y in Q. rewrite Q. reflexivity.
Qed.
