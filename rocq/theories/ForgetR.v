(** Strongly dissipative problems on Radau meshes (proofs of C95). *)
From Coq Require Import Reals Lia Lra Psatz Bool Arith String.
From Coquelicot Require Import Coquelicot.
From Coq Require Import List.
From Verif Require Import Num PyList Mat Poly Roots Colloc Ocp Transcribe Spec SpecOcp SpecHadapt SpecTrack SpecContract SpecForget NumR ListR PolyR CollocR CompR CollocThm MeshR BlockR DiscR NlpR OcpR ScaleR NlpThm CostR WeightR ConvexR UniqueR TransR TaylorR ExactR SmoothR TrackR ContractR.
Import ListNotations.
Open Scope R_scope.

Definition last_heavy (cf : ccfg Rnum) (c : R) (q : nat) : Prop := forall r, c_roots cf q = Ok r -> exists W, radau_rule (cf_tau0 cf) (cf_tau1 cf) q r W /\ c * (cf_tau1 cf - cf_tau0 cf) <= 2 * W (q - 1)%nat.
Lemma last_weight (cf : ccfg Rnum) Q : cfg_ok cf -> exists c, 0 < c /\ forall q, (1 <= q <= Q)%nat -> cf_scheme cf = "LGR"%string \/ q = 1%nat -> last_heavy cf c q.
Proof.
  intros Hcf. pose proof (co_taus _ Hcf) as Ht. induction Q as [|Q (c & Hc & IH)]; [exists 1; split; [lra|intros q Hq; lia]|].
  assert (X : exists c', 0 < c' /\ (cf_scheme cf = "LGR"%string \/ S Q = 1%nat -> last_heavy cf c' (S Q))).
  { destruct (c_roots cf (S Q)) as [r|e] eqn:Er; [|exists 1; split; [lra|intros _ r E; pose proof (eq_trans (eq_sym Er) E) as Z; discriminate Z]].
    destruct (string_dec (cf_scheme cf) "LGR") as [Es|Es]; [|destruct (Nat.eq_dec (S Q) 1) as [Eq|Eq]; [|exists 1; split; [lra|intros [E|E]; [destruct (Es E)|destruct (Eq E)]]]].
    - destruct (radau_exists cf (S Q) r Hcf ltac:(lia) (or_introl Es) Er) as (W & HW). pose proof (proj1 HW (S Q - 1)%nat ltac:(lia)) as P. exists (2 * W (S Q - 1)%nat / (cf_tau1 cf - cf_tau0 cf)).
      split; [apply Rdiv_lt_0_compat; lra|]. intros _ r' Er'. assert (r' = r) as -> by (pose proof (eq_trans (eq_sym Er') Er) as Z; injection Z as Z; exact Z). exists W. split; [exact HW|]. apply Req_le. field. lra.
    - destruct (radau_exists cf (S Q) r Hcf ltac:(lia) (or_intror Eq) Er) as (W & HW). pose proof (proj1 HW (S Q - 1)%nat ltac:(lia)) as P. exists (2 * W (S Q - 1)%nat / (cf_tau1 cf - cf_tau0 cf)).
      split; [apply Rdiv_lt_0_compat; lra|]. intros _ r' Er'. assert (r' = r) as -> by (pose proof (eq_trans (eq_sym Er') Er) as Z; injection Z as Z; exact Z). exists W. split; [exact HW|]. apply Req_le. field. lra. }
  destruct X as (c' & Hc' & X). exists (Rmin c c'). split; [apply Rmin_glb_lt; assumption|]. intros q Hq Hs r Er. destruct (Nat.eq_dec q (S Q)) as [->|Hne].
  - destruct (X Hs r Er) as (W & HW & P). exists W. split; [exact HW|]. pose proof (Rmin_r c c'). nra.
  - destruct (IH q ltac:(lia) Hs r Er) as (W & HW & P). exists W. split; [exact HW|]. pose proof (Rmin_l c c'). nra.
Qed.
Section Two.
Variables (mp : mpo Rnum) (rs : list (list R)) (w : nat -> R) (ph : nat) (y : utraj) (x2 u2 : nat -> nat -> R) (c mu : R).
Let o := mp_ocp mp.
Let cf := mp_cf mp.
Let orders := mp_orders mp.
Let y2 := Utraj x2 u2 (y_t0 y) (y_tf y) (y_a y).
Hypothesis Hcf : cfg_ok cf.
Hypothesis Hpos : forall q, In q orders -> (1 <= q)%nat.
Hypothesis Hroot : forall k q, nth_error orders k = Some q -> c_roots cf q = Ok (nth k rs []).
Hypothesis Hgood : forall k q, nth_error orders k = Some q -> good_nodes (cf_tau0 cf) (cf_tau1 cf) q (nth k rs []).
Hypothesis Hw : forall k, (k < length orders)%nat -> 0 < w k.
Hypothesis Hsum : Rsum (length orders) w = 1.
Hypothesis Hy : y_t0 y < y_tf y.
Hypothesis D1 : dynamics_ok mp rs w ph y.
Hypothesis D2 : dynamics_ok mp rs w ph y2.
Hypothesis Hu : forall i c, (i < total_nodes orders)%nat -> (c < o_nu o)%nat -> y_u y i c = u2 i c.
Hypothesis Hmu : 0 <= mu.
Hypothesis Hc : 0 < c.
Hypothesis Hheavy : forall q, In q orders -> last_heavy cf c q.
Hypothesis Hd : strongly_dissipative o ph (a_of o y) (y_t0 y) (y_tf y) mu.
Lemma seg_shrinks k : (k < length orders)%nat -> gap2 o y y2 (offset orders (S k)) * (1 + c * mu * lasts w y k) <= gap2 o y y2 (offset orders k).
Proof.
  intros Hk. destruct (nth_error orders k) as [q|] eqn:Eq; [|apply nth_error_None in Eq; lia]. pose proof (nth_error_In _ _ Eq) as Hin. pose proof (co_taus _ Hcf) as Ht.
  destruct (Hheavy q Hin _ (Hroot k q Eq)) as (W & HW & P). pose proof (h_pos mp w y Ht Hw Hy k Hk) as Hh. fold cf in Hh.
  pose proof (seg_gapW mp rs w ph y x2 u2 Hcf Hpos Hgood Hw Hy D1 D2 Hu k q W Eq HW) as X. fold o cf orders y2 in X. cbv zeta in X.
  assert (In1 : forall j, (j < q)%nat -> dotdiff (o_nx o) (y_x y (offset orders k + S j)%nat) (x2 (offset orders k + S j)%nat)
     (fun s => nth s (rhs o ph (a_of o y) (y_x y (offset orders k + S j)%nat) (y_u y (offset orders k + S j)%nat) (seg_time cf w y k (nth (S j) (nth k rs []) 0))) 0)
     (fun s => nth s (rhs o ph (a_of o y) (x2 (offset orders k + S j)%nat) (y_u y (offset orders k + S j)%nat) (seg_time cf w y k (nth (S j) (nth k rs []) 0))) 0) <= - (mu * gap2 o y y2 (offset orders k + S j))).
  { intros j Hj. apply Hd. apply (T_range mp w y Ht Hw Hsum Hy k _ Hk). apply (good_range _ _ q); [exact Ht|exact (Hgood k q Eq)|lia]. }
  pose proof (Hpos q Hin) as Hq. rewrite (offset_S _ _ _ Eq) in *. destruct q as [|m]; [lia|]. rewrite Nat.sub_succ, Nat.sub_0_r in P. cbn [Rsum] in X.
  set (F := fun j => W j * (2 * seg_h cf w y k) * dotdiff (o_nx o) (y_x y (offset orders k + S j)%nat) (x2 (offset orders k + S j)%nat)
     (fun s => nth s (rhs o ph (a_of o y) (y_x y (offset orders k + S j)%nat) (y_u y (offset orders k + S j)%nat) (seg_time cf w y k (nth (S j) (nth k rs []) 0))) 0)
     (fun s => nth s (rhs o ph (a_of o y) (x2 (offset orders k + S j)%nat) (y_u y (offset orders k + S j)%nat) (seg_time cf w y k (nth (S j) (nth k rs []) 0))) 0)).
  change (gap2 o y y2 (offset orders k + S m) <= gap2 o y y2 (offset orders k) + (Rsum m F + F m)) in X.
  assert (A : Rsum m F <= Rsum m (fun _ => 0)).
  { apply Rsum_le. intros j Hj. pose proof (In1 j ltac:(lia)) as I1. pose proof (proj1 HW j ltac:(lia)) as Wj. pose proof (gap2_pos o y y2 (offset orders k + S j)) as G0. unfold F.
    assert (0 < W j * (2 * seg_h cf w y k)) by (apply Rmult_lt_0_compat; lra). assert (0 <= mu * gap2 o y y2 (offset orders k + S j)) by (apply Rmult_le_pos; lra). nra. }
  rewrite (Rsum_0 m (fun _ => 0)) in A by reflexivity. pose proof (In1 m ltac:(lia)) as I1. pose proof (gap2_pos o y y2 (offset orders k + S m)) as G0. set (g := gap2 o y y2 (offset orders k + S m)) in *.
  assert (B : F m <= - (c * mu * lasts w y k * g)).
  { assert (E : lasts w y k = seg_h cf w y k * (cf_tau1 cf - cf_tau0 cf)) by (unfold lasts, seg_h; field; lra). rewrite E. unfold F.
    apply Rle_trans with (W m * (2 * seg_h cf w y k) * - (mu * g)).
    - apply Rmult_le_compat_l; [|exact I1]. pose proof (proj1 HW m ltac:(lia)). apply Rmult_le_pos; lra.
    - assert (0 <= seg_h cf w y k * (mu * g)) by (apply Rmult_le_pos; [lra|apply Rmult_le_pos; lra]). nra. }
  nra.
Qed.
Lemma all_shrinks k : (k <= length orders)%nat -> gap2 o y y2 (offset orders k) * (1 + c * mu * (seg_start w y k - y_t0 y)) <= gap2 o y y2 0.
Proof.
  induction k as [|k IH]; intros Hk.
  - rewrite offset_0. unfold seg_start. cbn [Rsum]. rewrite Rmult_0_r. replace (y_t0 y + 0 - y_t0 y) with 0 by ring. lra.
  - pose proof (seg_shrinks k ltac:(lia)) as X. specialize (IH ltac:(lia)). pose proof (gap2_pos o y y2 (offset orders (S k))) as G0. set (g := gap2 o y y2 (offset orders (S k))) in *.
    assert (E : seg_start w y (S k) - y_t0 y = (seg_start w y k - y_t0 y) + lasts w y k) by (unfold seg_start, lasts; cbn [Rsum]; ring). rewrite E. clear E.
    assert (L : 0 <= lasts w y k) by (unfold lasts; apply Rmult_le_pos; [lra|left; apply Hw; lia]).
    assert (S0 : 0 <= seg_start w y k - y_t0 y).
    { unfold seg_start. replace (y_t0 y + (y_tf y - y_t0 y) * Rsum k w - y_t0 y) with ((y_tf y - y_t0 y) * Rsum k w) by ring. apply Rmult_le_pos; [lra|]. apply Rsum_nonneg. intros j Hj. left. apply Hw. lia. }
    set (l := lasts w y k) in *. set (d := seg_start w y k - y_t0 y) in *. assert (cm : 0 <= c * mu) by (apply Rmult_le_pos; lra). set (v := c * mu) in *.
    assert (0 <= v * l) by (apply Rmult_le_pos; assumption). assert (0 <= v * d) by (apply Rmult_le_pos; assumption).
    eapply Rle_trans; [|exact IH]. apply Rle_trans with (g * (1 + v * l) * (1 + v * d)); [|apply Rmult_le_compat_r; [lra|exact X]].
    assert (0 <= g * (v * l * (v * d))) by (apply Rmult_le_pos; [exact G0|apply Rmult_le_pos; assumption]). nra.
Qed.
End Two.
Theorem forget_thm (cf : ccfg Rnum) Q : cfg_ok cf -> exists c, 0 < c /\ forall mp npath nterm (z z' p : list R) n n' ph,
  mp_cf mp = cf -> (forall q, In q (mp_orders mp) -> (q <= Q)%nat /\ (cf_scheme cf = "LGR"%string \/ q = 1%nat)) -> input_ok mp npath nterm z p -> input_ok mp npath nterm z' p -> widths_ok (mp_nseg mp) (o_nph (mp_ocp mp)) p ->
  nlp_at mp z p = Ok n -> nlp_at mp z' p = Ok n' -> feasible n -> feasible n' -> (ph < o_nph (mp_ocp mp))%nat ->
  let o := mp_ocp mp in let w := width mp p ph in let y := user_traj mp z ph in let y' := user_traj mp z' ph in y_t0 y < y_tf y ->
    y_t0 y' = y_t0 y -> y_tf y' = y_tf y -> (forall i, (i < o_na o)%nat -> y_a y' i = y_a y i) -> (forall i c, (i < total_nodes (mp_orders mp))%nat -> (c < o_nu o)%nat -> y_u y i c = y_u y' i c) ->
    forall mu, 0 <= mu -> strongly_dissipative o ph (a_of o y) (y_t0 y) (y_tf y) mu ->
    (forall k, (k < length (mp_orders mp))%nat -> gap2 o y y' (offset (mp_orders mp) (S k)) * (1 + c * mu * lasts w y k) <= gap2 o y y' (offset (mp_orders mp) k)) /\
    (forall k, (k <= length (mp_orders mp))%nat -> gap2 o y y' (offset (mp_orders mp) k) * (1 + c * mu * (seg_start w y k - y_t0 y)) <= gap2 o y y' 0).
Proof.
  intros Hcf. destruct (last_weight cf Q Hcf) as (c & Hc & HH). exists c. split; [exact Hc|].
  intros mp npath nterm z z' p n n' ph Ecf Hq Hin Hin' Hw En En' Hf Hf' Hph o w y y' Hy E1 E2 E3 E4 mu Hmu Hd.
  destruct (nlp_like _ _ _ _ _ (user_traj mp z) Hin (fun ph _ => same_refl _ _)) as (rs & m & R1 & R2 & _ & R3 & _).
  assert (m = n) as -> by (pose proof (eq_trans (eq_sym R2) En) as X; injection X as X; exact X). apply R3 in Hf. destruct Hf as (_ & Hp & _). destruct (Hp ph Hph) as (Hdyn & _).
  destruct (nlp_like _ _ _ _ _ (user_traj mp z') Hin' (fun ph _ => same_refl _ _)) as (rs' & m' & R1' & R2' & R4 & R3' & _).
  assert (m' = n') as -> by (pose proof (eq_trans (eq_sym R2') En') as X; injection X as X; exact X). apply R3' in Hf'. destruct Hf' as (_ & Hp' & _). destruct (Hp' ph Hph) as (Hdyn' & _).
  assert (rs' = rs) as -> by (pose proof (eq_trans (eq_sym R1') R1) as X; injection X as X; exact X).
  set (y2 := Utraj (y_x y') (y_u y') (y_t0 y) (y_tf y) (y_a y)).
  assert (HS : same_traj mp y' y2) by (split; [reflexivity|]; split; [reflexivity|]; split; [exact E1|]; split; [exact E2|exact E3]).
  assert (Hdyn2 : dynamics_ok mp rs (width mp p ph) ph y2) by exact (dynamics_congr mp rs (width mp p ph) ph R4 y' y2 HS Hdyn').
  pose proof (in_mpo _ _ _ _ _ Hin) as Hmp. destruct (part_widths mp p Hmp Hw ph Hph) as (W1 & W2).
  assert (Hg : forall k q, nth_error (mp_orders mp) k = Some q -> good_nodes (cf_tau0 (mp_cf mp)) (cf_tau1 (mp_cf mp)) q (nth k rs [])).
  { intros k q Eq. apply (rs_good mp npath nterm z p Hin rs R1 k q _ Eq). apply nth_error_nth'. exact (Nat.lt_le_trans _ _ _ (MeshR.nth_error_lt _ _ _ Eq) (Nat.eq_le_incl _ _ (eq_sym (rs_len mp rs R1)))). }
  assert (HV : forall q, In q (mp_orders mp) -> last_heavy (mp_cf mp) c q) by (intros q Hi; rewrite Ecf; apply HH; [split; [exact (mo_pos _ Hmp q Hi)|apply Hq; exact Hi]|apply Hq; exact Hi]).
  split.
  - exact (seg_shrinks mp rs (width mp p ph) ph y (y_x y') (y_u y') c mu (mo_cfg _ Hmp) (mo_pos _ Hmp) (rs_root mp rs R1) Hg W1 W2 Hy Hdyn Hdyn2 E4 Hmu HV Hd).
  - exact (all_shrinks mp rs (width mp p ph) ph y (y_x y') (y_u y') c mu (mo_cfg _ Hmp) (mo_pos _ Hmp) (rs_root mp rs R1) Hg W1 W2 Hy Hdyn Hdyn2 E4 Hmu Hc HV Hd).
Qed.
