(** Running costs that are combinations of derivatives (proofs of C58). *)
From Coq Require Import Reals Lia Lra Bool Arith String.
From Coquelicot Require Import Coquelicot.
From Coq Require Import List.
From Verif Require Import Num PyList Mat Poly Roots Colloc Ocp Transcribe Spec SpecOcp SpecBalance NumR ListR PolyR CollocR CompR CollocThm MeshR BlockR DiscR NlpR OcpR NlpThm CostR.
Import ListNotations.
Open Scope R_scope.

Lemma length_pder (c : list R) : (@length R (pder c) <= length c)%nat.
Proof.
  destruct c as [|a c]; [cbn; lia|]. cbn [Poly.pder]. cbn [length]. assert (G : forall k (l : list R), @length R (@pder_from Rnum k l) = length l).
  { intros k l. revert k. induction l as [|b l IH]; intros k; cbn; [reflexivity|]. now rewrite IH. }
  nred. rewrite G. lia.
Qed.
Lemma comb_poly n (alpha : nat -> R) (c : nat -> list R) m : (forall s, (s < n)%nat -> (length (c s) <= m)%nat) ->
  exists g, (length g <= m)%nat /\ forall x, peval g x = Rsum n (fun s => alpha s * peval (c s) x).
Proof.
  induction n as [|n IH]; intros H; [exists []; split; [cbn; lia|reflexivity]|].
  destruct IH as (g & Hg & E); [intros; apply H; lia|]. exists (@padd Rnum g (@pscale Rnum (alpha n) (c n))). split.
  - rewrite length_padd, length_pscale. specialize (H n ltac:(lia)). lia.
  - intros x. rewrite peval_padd, peval_pscale, E. reflexivity.
Qed.
Lemma RInt_combine (L A B : list R) h b t0 t1 : (forall x, h * peval L x = peval A x + b * peval B x) ->
  h * RInt (peval L) t0 t1 = RInt (peval A) t0 t1 + b * RInt (peval B) t0 t1.
Proof.
  intros H. rewrite !RInt_peval.
  transitivity (RInt (fun x => h * peval L x) t0 t1); [symmetry; exact (is_RInt_unique _ _ _ _ (is_RInt_scal _ _ _ h _ (is_RInt_peval L t0 t1)))|].
  rewrite (RInt_ext _ (fun x => peval A x + b * peval B x)) by (intros x _; apply H).
  exact (is_RInt_unique _ _ _ _ (is_RInt_plus _ _ _ _ _ _ (is_RInt_peval A t0 t1) (is_RInt_scal _ _ _ b _ (is_RInt_peval B t0 t1)))).
Qed.

Section Segment.
Variables (t0 t1 h beta : R) (p n : nat) (r : list R) (alpha : nat -> R) (c : nat -> list R) (f : nat -> R) (C B : list R) (first : bool).
Hypothesis Hr : good_nodes t0 t1 p r.
Hypothesis Hp : (1 <= p)%nat.
Hypothesis Hc : forall s, (s < n)%nat -> (length (c s) <= S p)%nat.
Hypothesis Hf : forall j, (j <= p)%nat -> first = true \/ (1 <= j)%nat ->
  h * f j = Rsum n (fun s => alpha s * Derive (peval (c s)) (nth j r 0)) + beta * h.
Hypothesis HC : interpolates C r f.
Hypothesis HB : interpolates B r (fun j => if Nat.eqb j 0 then 1 else 0).

Lemma seg_balance : h * RInt (peval C) t0 t1 =
  Rsum n (fun s => alpha s * (peval (c s) t1 - peval (c s) t0)) + beta * h * (t1 - t0) +
  (h * f 0%nat - (Rsum n (fun s => alpha s * Derive (peval (c s)) t0) + beta * h)) * RInt (peval B) t0 t1.
Proof.
  destruct (comb_poly n alpha c (S p) Hc) as (g0 & Hg0 & E0). set (g := @padd Rnum g0 [0; beta * h]).
  assert (Eg : forall x, peval g x = Rsum n (fun s => alpha s * peval (c s) x) + beta * h * x).
  { intros x. unfold g. rewrite peval_padd, E0. cbn [peval]. nred. ring. }
  assert (Lg : (@length R g <= S p)%nat) by (unfold g; rewrite length_padd; cbn [length]; lia).
  assert (Dg : forall x, peval (@pder Rnum g) x = Rsum n (fun s => alpha s * Derive (peval (c s)) x) + beta * h).
  { intros x. apply (is_derive_unique2 (peval g) x); [apply is_derive_peval|].
    apply is_derive_ext with (f := fun x => Rsum n (fun s => alpha s * peval (c s) x) + beta * h * x); [intros t; symmetry; apply Eg|].
    apply (is_derive_plus (fun x => Rsum n (fun s => alpha s * peval (c s) x)) (fun x => beta * h * x)).
    - apply (is_derive_Rsum n (fun s x => alpha s * peval (c s) x) (fun s => alpha s * Derive (peval (c s)) x)). intros s Hs. apply is_derive_scal. apply Derive_correct, ex_derive_peval.
    - evar_last; [apply is_derive_scal, is_derive_id|unfold one; cbn; ring]. }
  destruct Hr as (Lr & Hinc & R0 & R1). pose proof (good_nodup _ _ _ _ Hr) as Hnd. destruct HC as [LC EC]. destruct HB as [LB EB].
  set (b := h * f 0%nat - peval (@pder Rnum g) t0).
  assert (U : forall x, h * peval C x = peval (@pder Rnum g) x + b * peval B x).
  { intros x. rewrite <- peval_pscale. rewrite <- (peval_pscale b B). rewrite <- peval_padd. apply (interp_unique r); auto.
    - rewrite length_pscale. exact LC.
    - rewrite length_padd, length_pscale. pose proof (length_pder g). nred. lia.
    - intros j Hj. rewrite peval_padd, !peval_pscale, (EC j Hj), (EB j Hj). destruct (Nat.eqb_spec j 0) as [->|Hj0].
      + rewrite R0. unfold b. ring.
      + rewrite Dg, Hf by lia. ring. }
  rewrite (RInt_combine _ _ _ _ _ t0 t1 U). rewrite <- (Dg t0). fold b. f_equal.
  transitivity (peval g t1 - peval g t0).
  - apply is_RInt_unique. apply (is_RInt_derive (peval g)).
    + intros x _. apply is_derive_peval.
    + intros x _. apply continuous_peval.
  - rewrite !Eg. rewrite (Rsum_ext n (fun s => alpha s * (peval (c s) t1 - peval (c s) t0)) (fun s => alpha s * peval (c s) t1 - alpha s * peval (c s) t0)) by (intros s Hs; cbv beta; ring). rewrite Rsum_minus. match goal with |- @eq _ ?a ?b => change (@eq R a b) end. ring.
Qed.
End Segment.

Lemma Rsum_tele n (g : nat -> R) : Rsum n (fun k => g (S k) - g k) = g n - g 0%nat.
Proof. induction n as [|n IH]; cbn [Rsum]; [lra|]. rewrite IH. lra. Qed.

Section Phase.
Variables (mp : mpo Rnum) (npath nterm : nat -> option nat) (rs : list (list R)) (w : nat -> R) (ph : nat) (y : utraj) (alpha : nat -> R) (beta : R).
Let o := mp_ocp mp.
Let cf := mp_cf mp.
Let orders := mp_orders mp.
Hypothesis Hmp : mpo_ok mp.
Hypothesis Hok : ocp_ok o npath nterm.
Hypothesis Hph : (ph < o_nph o)%nat.
Hypothesis Hrs : length rs = length orders.
Hypothesis Hgood : forall k q r, nth_error orders k = Some q -> nth_error rs k = Some r -> good_nodes (cf_tau0 cf) (cf_tau1 cf) q r.
Hypothesis Hdyn : dynamics_ok mp rs w ph y.
Hypothesis Hrate : cost_rate o ph alpha beta.

Lemma arg_of : arg_ok o (a_of o y).
Proof. unfold arg_ok, a_of. destruct (Nat.eqb (o_na o) 0); [reflexivity|]. eexists. split; [reflexivity|]. unfold vec. now rewrite map_length, seq_length. Qed.
Lemma rate_val i t : run_val o ph y i t = Rsum (o_nx o) (fun s => alpha s * nth s (dyn_val o ph y i t) 0) + beta.
Proof.
  assert (Lx : length (vec (o_nx o) (y_x y i)) = o_nx o) by (unfold vec; now rewrite map_length, seq_length).
  assert (Lu : length (vec (o_nu o) (y_u y i)) = o_nu o) by (unfold vec; now rewrite map_length, seq_length).
  pose proof (sh_dyn _ (ok_shapes _ _ _ Hok)) as L1. pose proof (sh_run _ (ok_shapes _ _ _ Hok)) as L2.
  unfold run_val, dyn_val. destruct (nth_error (o_dyn o) ph) as [f|] eqn:Ef; [|apply nth_error_None in Ef; nred; lia].
  destruct (nth_error (o_run o) ph) as [g|] eqn:Eg; [|apply nth_error_None in Eg; nred; lia].
  destruct (ok_dyn _ _ _ Hok ph f _ _ t _ Ef Lx Lu arg_of) as (d & Ed & _). destruct (ok_run _ _ _ Hok ph g _ _ t _ Eg Lx Lu arg_of) as (l & El).
  nred. rewrite Ed, El. exact (Hrate f g _ _ t _ d l Ef Eg Lx Lu arg_of Ed El).
Qed.

Lemma phase_balance C B c : cost_interp mp rs w ph y C -> start_basis mp rs B -> state_polys mp rs y c ->
  phase_cost mp w ph y C - start_cost mp rs w ph y B = balance mp w ph y alpha beta - start_rate mp w y alpha beta B c.
Proof.
  intros HC HB Hc. set (t0 := cf_tau0 cf) in *. set (t1 := cf_tau1 cf) in *. set (h := seg_h cf w y).
  assert (Hlen : (1 <= length orders)%nat) by (unfold orders; rewrite (mo_len _ Hmp); apply (mo_nseg _ Hmp)).
  set (rate := fun k => Rsum (o_nx o) (fun s => alpha s * Derive (peval (c k s)) t0) + beta * h k).
  set (X := fun k => Rsum (o_nx o) (fun s => alpha s * y_x y (offset orders k) s)).
  assert (S1 : forall k, (k < length orders)%nat ->
    h k * RInt (peval (C k)) t0 t1 = (X (S k) - X k) + beta * (h k * (t1 - t0)) +
      (h k * run_at mp rs w ph y k 0 - rate k) * RInt (peval (B k)) t0 t1 /\ (k = 0%nat -> h k * run_at mp rs w ph y k 0 = rate k)).
  { intros k Hk. destruct (nth_error orders k) as [q|] eqn:Eq; [|apply nth_error_None in Eq; lia].
    assert (Er : nth_error rs k = Some (nth k rs [])) by (apply nth_error_nth'; lia). pose proof (Hgood k q _ Eq Er) as Hg.
    assert (Hq : (1 <= q)%nat) by (apply (mo_pos _ Hmp), (nth_error_In _ _ Eq)). pose proof Hg as (Lr & _ & R0 & R1).
    assert (Hf : forall j, (j <= q)%nat -> (if Nat.eqb k 0 then true else false) = true \/ (1 <= j)%nat ->
      h k * run_at mp rs w ph y k j = Rsum (o_nx o) (fun s => alpha s * Derive (peval (c k s)) (nth j (nth k rs []) 0)) + beta * h k).
    { intros j Hj Hb. assert (Ho : owned orders (offset orders k + j) k j).
      { exists q. split; [exact Eq|]. split; [exact Hj|]. split; [|reflexivity]. destruct (Nat.eqb_spec k 0) as [->|]; [auto|]. destruct Hb as [Hb|Hb]; [discriminate|auto]. }
      unfold run_at. fold o cf orders. rewrite rate_val. rewrite Rmult_plus_distr_l, <- Rsum_scal. rewrite (Rmult_comm beta). f_equal. apply Rsum_ext. intros s Hs.
      pose proof (Hdyn _ k j s (c k s) Ho Hs (Hc k s Hk Hs)) as D. apply derive_iff in D. rewrite D. fold cf o. fold (h k). ring. }
    split.
    - pose proof (seg_balance t0 t1 (h k) beta q (o_nx o) (nth k rs []) alpha (c k) (run_at mp rs w ph y k) (C k) (B k) (if Nat.eqb k 0 then true else false) Hg Hq) as SB.
      rewrite SB; [|intros s Hs; pose proof (proj1 (Hc k s Hk Hs)); nred; lia|exact Hf|exact (HC k Hk)|exact (HB k Hk)].
      fold (rate k). rewrite Rmult_assoc. f_equal. f_equal. unfold X. rewrite <- Rsum_minus. apply Rsum_ext. intros s Hs.
      destruct (Hc k s Hk Hs) as [_ Ec]. fold orders in Ec. pose proof (Ec 0%nat ltac:(nred; lia)) as E0. pose proof (Ec q ltac:(nred; lia)) as E1.
      fold t0 in R0. fold t1 in R1. rewrite R0, Nat.add_0_r in E0. rewrite R1 in E1. rewrite (offset_S _ _ _ Eq). rewrite E0, E1. ring.
    - intros ->. rewrite (Hf 0%nat) by (cbn; auto; lia). fold t0 in R0. rewrite R0. reflexivity. }
  unfold phase_cost, balance, start_cost, start_rate. fold o cf orders. fold t0 t1. fold h. unfold h at 1. fold h.
  assert (S2 : Rsum (length orders) (fun k => h k * RInt (peval (C k)) t0 t1) =
    (X (length orders) - X 0%nat) + beta * ((y_tf y - y_t0 y) * Rsum (length orders) w) +
    Rsum (length orders - 1) (fun k => (h (S k) * run_at mp rs w ph y (S k) 0 - rate (S k)) * RInt (peval (B (S k))) t0 t1)).
  { rewrite (Rsum_ext _ _ (fun k => (X (S k) - X k) + beta * (h k * (t1 - t0)) + (h k * run_at mp rs w ph y k 0 - rate k) * RInt (peval (B k)) t0 t1)) by (intros k Hk; apply (S1 k Hk)).
    rewrite !Rsum_plus, Rsum_tele, Rsum_scal. f_equal; [f_equal; f_equal|].
    - rewrite <- Rsum_scal. apply Rsum_ext. intros k Hk. unfold h, seg_h. fold t0 t1. pose proof (co_taus _ (mo_cfg _ Hmp)) as Ht. fold cf in Ht. fold t0 t1 in Ht. nred. field. lra.
    - destruct (length orders) as [|m] eqn:El; [lia|]. rewrite Rsum_S_l. replace (S m - 1)%nat with m by lia.
      rewrite (proj2 (S1 0%nat ltac:(lia)) eq_refl). rewrite Rminus_diag_eq by reflexivity. rewrite Rmult_0_l, Rplus_0_l. reflexivity. }
  nred. rewrite S2. clear S2.
  assert (EX : X (length orders) - X 0%nat = Rsum (o_nx o) (fun s => alpha s * (y_x y (total_nodes orders - 1) s - y_x y 0 s))).
  { unfold X. rewrite <- Rsum_minus. apply Rsum_ext. intros s Hs. unfold total_nodes. rewrite Nat.add_sub. replace (offset orders 0) with 0%nat by (unfold offset; destruct orders; reflexivity). ring. }
  rewrite EX. rewrite (Rsum_ext _ (fun k => (h (S k) * run_at mp rs w ph y (S k) 0 - rate (S k)) * RInt (peval (B (S k))) t0 t1)
    (fun k => h (S k) * RInt (peval (B (S k))) t0 t1 * run_at mp rs w ph y (S k) 0 - RInt (peval (B (S k))) t0 t1 * rate (S k))) by (intros k Hk; ring).
  rewrite Rsum_minus. unfold rate. lra.
Qed.
End Phase.

Section Program.
Variables (mp : mpo Rnum) (npath nterm : nat -> option nat) (z p : list R) (alpha : nat -> nat -> R) (beta : nat -> R).
Hypothesis Hin : input_ok mp npath nterm z p.
Let o := mp_ocp mp.
Let cf := mp_cf mp.
Let orders := mp_orders mp.
Hypothesis Hrate : forall ph, (ph < o_nph o)%nat -> cost_rate o ph (alpha ph) (beta ph).
Local Notation y ph := (user_traj mp z ph).
Local Notation w ph := (width mp p ph).

Theorem balance_thm : exists rs n, mapM (c_roots cf) orders = Ok rs /\ nlp_at mp z p = Ok n /\
  (exists B c, start_basis mp rs B /\ forall ph, (ph < o_nph o)%nat -> state_polys mp rs (y ph) (c ph)) /\
  (feasible n ->
   (forall B c, start_basis mp rs B -> (forall ph, (ph < o_nph o)%nat -> state_polys mp rs (y ph) (c ph)) ->
      n_f n = Rsum (o_nph o) (fun ph => balance mp (w ph) ph (y ph) (alpha ph) (beta ph) -
                                        start_rate mp (w ph) (y ph) (alpha ph) (beta ph) B (c ph))) /\
   (cf_scheme cf = "LGR"%string /\ (forall q, In q (tl orders) -> (2 <= q)%nat) \/ length orders = 1%nat ->
      n_f n = Rsum (o_nph o) (fun ph => balance mp (w ph) ph (y ph) (alpha ph) (beta ph)))).
Proof.
  pose proof Hin as [Hmp Hok Hsc Hz Hp].
  destruct (nlp_at_ok mp Hmp npath nterm Hok Hsc z p Hz Hp) as (rs & n & E1 & E2 & Hl & Hg & _ & _ & _ & _ & _ & Hsat & E3).
  exists rs, n. split; [exact E1|]. split; [exact E2|]. fold o in Hsat, E3. fold orders in Hl, Hg.
  destruct (cost_polys_exist mp npath nterm z p Hin rs E1) as (C0 & B0 & HC0 & HB0). fold o in HC0.
  assert (Hnd := rs_nodup mp npath nterm z p Hin rs E1). fold orders in Hnd.
  assert (P : exists c, forall ph, (ph < o_nph o)%nat -> state_polys mp rs (y ph) (c ph)).
  { apply (finite_choice (fun ph c => state_polys mp rs (y ph) c) (fun _ _ => [])). intros ph _.
    destruct (finite_choice (fun k c => forall s, (s < o_nx o)%nat -> seg_interp orders k (nth k rs []) (fun i => y_x (y ph) i s) (c s)) (fun _ => []) (length orders)) as [c Hc].
    - intros k Hk. apply (finite_choice (fun s c => seg_interp orders k (nth k rs []) (fun i => y_x (y ph) i s) c) []). intros s Hs. apply interp_exists. auto.
    - exists c. intros k s Hk Hs. apply Hc; auto. }
  destruct P as (c0 & Hc0). split; [exists B0, c0; auto|]. intros Hf.
  assert (G : forall B c, start_basis mp rs B -> (forall ph, (ph < o_nph o)%nat -> state_polys mp rs (y ph) (c ph)) ->
      n_f n = Rsum (o_nph o) (fun ph => balance mp (w ph) ph (y ph) (alpha ph) (beta ph) -
                                        start_rate mp (w ph) (y ph) (alpha ph) (beta ph) B (c ph))).
  { intros B c HB Hc. nred. rewrite (E3 C0 B HC0 HB). apply Rsum_ext. intros ph Hph. destruct Hf as [_ Hf]. apply Hsat in Hf. destruct Hf as [Hf _].
    destruct (Hf ph Hph) as (Hd & _).
    exact (phase_balance mp npath nterm rs (w ph) ph (y ph) (alpha ph) (beta ph) Hmp Hok Hph Hl Hg Hd (Hrate ph Hph) (C0 ph) B (c ph) (HC0 ph Hph) HB (Hc ph Hph)). }
  split; [exact G|]. intros Hcase. rewrite (G B0 c0 HB0 Hc0). apply Rsum_ext. intros ph Hph.
  replace (start_rate mp (w ph) (y ph) (alpha ph) (beta ph) B0 (c0 ph)) with 0; [lra|]. symmetry. unfold start_rate. destruct Hcase as [[Hs Ho]|H1].
  - apply Rsum_0. intros k Hk. nred. rewrite (basis_int_lgr mp npath nterm z p Hin rs B0 k E1 Hs Ho HB0 Hk). ring.
  - fold orders. rewrite H1. reflexivity.
Qed.
End Program.
