(** On fine meshes the controls determine the states (proofs of C86). *)
From Coq Require Import Reals Lia Lra Psatz Bool Arith String.
From Coquelicot Require Import Coquelicot.
From Coq Require Import List.
From Verif Require Import Num PyList Mat Poly Roots Colloc Ocp Transcribe Spec SpecOcp SpecHadapt SpecTrack SpecFlow NumR ListR PolyR CollocR CompR CollocThm MeshR BlockR DiscR NlpR OcpR ScaleR NlpThm CostR ConvexR TransR TaylorR ExactR SmoothR TrackR.
Import ListNotations.
Open Scope R_scope.

Lemma arg_max1 n (f : nat -> R) : (0 < n)%nat -> exists i, (i < n)%nat /\ forall j, (j < n)%nat -> f j <= f i.
Proof.
  induction n as [|n IH]; [lia|]. intros _. destruct n as [|n]; [exists 0%nat; split; [lia|]; intros j Hj; assert (j = 0)%nat as -> by lia; lra|].
  destruct IH as (i & Hi & H); [lia|]. destruct (Rle_lt_dec (f (S n)) (f i)) as [X|X].
  - exists i. split; [lia|]. intros j Hj. destruct (Nat.eq_dec j (S n)) as [->|]; [exact X|]. apply H. lia.
  - exists (S n). split; [lia|]. intros j Hj. destruct (Nat.eq_dec j (S n)) as [->|]; [lra|]. pose proof (H j ltac:(lia)). lra.
Qed.
Lemma arg_max2 n m (f : nat -> nat -> R) : (0 < n)%nat -> (0 < m)%nat -> exists i j, (i < n)%nat /\ (j < m)%nat /\ forall i' j', (i' < n)%nat -> (j' < m)%nat -> f i' j' <= f i j.
Proof.
  intros Hn Hm. induction n as [|n IH]; [lia|]. destruct (arg_max1 m (f n) Hm) as (j & Hj & H). destruct n as [|n].
  - exists 0%nat, j. split; [lia|]. split; [exact Hj|]. intros i' j' Hi' Hj'. assert (i' = 0)%nat as -> by lia. auto.
  - destruct IH as (i1 & j1 & Hi1 & Hj1 & H1); [lia|]. destruct (Rle_lt_dec (f (S n) j) (f i1 j1)) as [X|X].
    + exists i1, j1. split; [lia|]. split; [exact Hj1|]. intros i' j' Hi' Hj'. destruct (Nat.eq_dec i' (S n)) as [->|]; [pose proof (H j' Hj'); lra|]. apply H1; [lia|exact Hj'].
    + exists (S n), j. split; [lia|]. split; [exact Hj|]. intros i' j' Hi' Hj'. destruct (Nat.eq_dec i' (S n)) as [->|]; [apply H; exact Hj'|]. pose proof (H1 i' j' ltac:(lia) Hj'). lra.
Qed.
(** a polynomial that is zero at the first node is small when its derivative is small at the others *)
Definition det_const (cf : ccfg Rnum) (q : nat) (C : R) : Prop := 0 <= C /\ forall r : list R, c_roots cf q = Ok r ->
  forall (d : list R) B, (length d <= S q)%nat -> 0 <= B -> peval d (nth 0 r 0) = 0 -> (forall j, (1 <= j <= q)%nat -> Rabs (peval (@pder Rnum d) (nth j r 0)) <= B) ->
    forall j, (j <= q)%nat -> Rabs (peval d (nth j r 0)) <= C * (B * (cf_tau1 cf - cf_tau0 cf)).
Lemma det_exists cf q : cfg_ok cf -> (1 <= q)%nat -> exists C, det_const cf q C.
Proof.
  intros Hcf Hq. pose proof (co_taus _ Hcf) as Ht. destruct (c_roots_good cf q Hcf Hq) as (r & Er & Hg).
  set (t0 := cf_tau0 cf) in *. set (t1 := cf_tau1 cf) in *. pose proof (good_nodup _ _ _ _ Hg) as Hnd. assert (Lr : length r = S q) by apply Hg.
  assert (Hrange : forall j, (j <= q)%nat -> t0 <= nth j r 0 <= t1) by (intros j Hj; exact (good_range t0 t1 q r j Ht Hg Hj)).
  destruct r as [|r0 r]; [discriminate|]. cbn [length] in Lr. inversion Hnd as [|? ? _ Hnd']; subst.
  destruct (small_between r t0 t1 Hnd') as (C & HC & HB). exists C. split; [exact HC|]. intros r' Er'.
  assert (r' = r0 :: r) as -> by (pose proof (eq_trans (eq_sym Er') Er) as X; injection X as X; exact X). clear Er'.
  intros d B Ld HB0 D0 HD j Hj. fold t0 t1. pose proof (Hrange 0%nat ltac:(lia)) as R0. pose proof (Hrange j Hj) as Rj. cbn [nth] in R0, D0. set (x := nth j (r0 :: r) 0) in *.
  assert (HS : forall c, t0 <= c <= t1 -> Rabs (peval (@pder Rnum d) c) <= C * B).
  { apply (HB (@pder Rnum d) B); [pose proof (length_pder d q Ld); clear - H Lr; nred; lia|exact HB0|]. intros i Hi. apply (HD (S i)). clear - Hi Lr. nred. lia. }
  destruct (MVT_gen (peval d) r0 x (peval (@pder Rnum d))) as (c & Hc & E).
  { intros c _. apply is_derive_peval. }
  { intros c _. apply continuity_pt_filterlim, continuous_peval. }
  assert (Hc' : t0 <= c <= t1) by (unfold Rmin, Rmax in Hc; destruct (Rle_dec r0 x); lra).
  assert (E' : peval d x = peval (@pder Rnum d) c * (x - r0)) by (rewrite <- E; lra).
  assert (G : Rabs (peval d x) <= C * (B * (t1 - t0))); [|exact G]. rewrite E', Rabs_mult.
  rewrite <- Rmult_assoc. apply Rmult_le_compat; [apply Rabs_pos|apply Rabs_pos|exact (HS c Hc')|]. apply Rabs_le. lra.
Qed.
Lemma det_le cf q C C' : C <= C' -> cf_tau0 cf < cf_tau1 cf -> det_const cf q C -> det_const cf q C'.
Proof.
  intros Hle Ht [H0 H]. split; [lra|]. intros r Er d B Ld HB D0 HD j Hj. eapply Rle_trans; [exact (H r Er d B Ld HB D0 HD j Hj)|].
  apply Rmult_le_compat_r; [|exact Hle]. apply Rmult_le_pos; lra.
Qed.
Lemma dets_exist cf Q : cfg_ok cf -> exists C, 0 <= C /\ forall q, (1 <= q <= Q)%nat -> det_const cf q C.
Proof.
  intros Hcf. induction Q as [|Q (C & HC & H)]; [exists 0; split; [lra|intros; lia]|]. pose proof (co_taus _ Hcf) as Ht.
  destruct (det_exists cf (S Q) Hcf ltac:(lia)) as (C' & H'). assert (0 <= C') by apply H'. exists (C + C'). split; [lra|].
  intros q Hq. destruct (Nat.eq_dec q (S Q)) as [->|]; [apply (det_le cf _ C'); [lra|exact Ht|exact H']|]. apply (det_le cf _ C); [lra|exact Ht|]. apply H. lia.
Qed.
Lemma none_left C L h e : 0 <= e -> e <= C * (h * (L * e)) -> C * L * h < 1 -> e = 0.
Proof. intros He H1 H2. nra. Qed.

Section Two.
Variables (mp : mpo Rnum) (rs : list (list R)) (w : nat -> R) (ph : nat) (y : utraj) (x2 : nat -> nat -> R) (C L : R) (Q : nat).
Let o := mp_ocp mp.
Let cf := mp_cf mp.
Let orders := mp_orders mp.
Let y2 := Utraj x2 (y_u y) (y_t0 y) (y_tf y) (y_a y).
Hypothesis Ht : cf_tau0 cf < cf_tau1 cf.
Hypothesis Hpos : forall q, In q orders -> (1 <= q)%nat.
Hypothesis HQ : forall q, In q orders -> (q <= Q)%nat.
Hypothesis Hroot : forall k q, nth_error orders k = Some q -> c_roots cf q = Ok (nth k rs []).
Hypothesis Hgood : forall k q, nth_error orders k = Some q -> good_nodes (cf_tau0 cf) (cf_tau1 cf) q (nth k rs []).
Hypothesis Hw : forall k, (k < length orders)%nat -> 0 < w k.
Hypothesis Hsum : Rsum (length orders) w = 1.
Hypothesis Hy : y_t0 y < y_tf y.
Hypothesis HC : forall q, (1 <= q <= Q)%nat -> det_const cf q C.
Hypothesis Hlip : lipschitz o ph (a_of o y) (y_t0 y) (y_tf y) L.
Hypothesis Hfine : forall k, (k < length orders)%nat -> C * L * lasts w y k < 1.
Hypothesis Hnx : (0 < o_nx o)%nat.
Hypothesis D1 : dynamics_ok mp rs w ph y.
Hypothesis D2 : dynamics_ok mp rs w ph y2.
Lemma seg_same k q : nth_error orders k = Some q -> (forall s, (s < o_nx o)%nat -> x2 (offset orders k) s = y_x y (offset orders k) s) ->
  forall j s, (j <= q)%nat -> (s < o_nx o)%nat -> x2 (offset orders k + j)%nat s = y_x y (offset orders k + j)%nat s.
Proof.
  intros Eq H0. pose proof (MeshR.nth_error_lt _ _ _ Eq) as Hk. set (b := offset orders k) in *. set (r := nth k rs []) in *. pose proof (Hgood k q Eq) as Hg. fold r in Hg.
  pose proof (nth_error_In _ _ Eq) as Hin. destruct (HC q (conj (Hpos q Hin) (HQ q Hin))) as (HC0 & HCq). specialize (HCq r (Hroot k q Eq)).
  destruct (arg_max2 (o_nx o) (S q) (fun s j => Rabs (y_x y (b + j)%nat s - x2 (b + j)%nat s)) Hnx (Nat.lt_0_succ q)) as (s & i & Hs & Hi & HM).
  set (e := Rabs (y_x y (b + i)%nat s - x2 (b + i)%nat s)) in *.
  assert (Lr : length r = S q) by apply Hg. pose proof (good_nodup _ _ _ _ Hg) as Hnd.
  destruct (interp_exists r (fun j => y_x y (b + j)%nat s) Hnd) as (c & Lc & Ec). destruct (interp_exists r (fun j => x2 (b + j)%nat s) Hnd) as (c2 & Lc2 & Ec2).
  destruct (poly_minus c c2 (S q)) as (d & Ld & Ed); [rewrite <- Lr; exact Lc|rewrite <- Lr; exact Lc2|].
  assert (Ed' : forall x, peval (@pder Rnum d) x = peval (@pder Rnum c) x - peval (@pder Rnum c2) x).
  { intros x. apply (is_derive_unique2 (peval d) x); [apply is_derive_peval|]. apply (is_derive_ext (fun x => peval c x - peval c2 x)); [intros; symmetry; apply Ed|].
    exact (is_derive_minus (K := R_AbsRing) (V := R_NormedModule) (peval c) (peval c2) x _ _ (is_derive_peval c x) (is_derive_peval c2 x)). }
  pose proof (h_pos mp w y Ht Hw Hy k Hk) as Hh. fold cf in Hh. set (h := seg_h cf w y k) in *.
  assert (HLe : 0 <= L * e).
  { pose proof (Hlip (y_t0 y) (y_u y b) (y_x y b) (y_x y b) e s ltac:(lra) Hs) as X. eapply Rle_trans; [|apply X; intros i' _]; [apply Rabs_pos|]. rewrite Rminus_diag_eq by reflexivity. rewrite Rabs_R0. apply Rabs_pos. }
  assert (HE : e <= C * (h * (L * e) * (cf_tau1 cf - cf_tau0 cf))).
  { assert (E1 : e = Rabs (peval d (nth i r 0))) by (unfold e; rewrite Ed, (Ec i), (Ec2 i) by (rewrite Lr; exact Hi); reflexivity). rewrite E1 at 1.
    apply HCq; [exact Ld|apply Rmult_le_pos; lra| | |lia].
    - rewrite Ed, (Ec 0%nat), (Ec2 0%nat) by (rewrite Lr; lia). rewrite Nat.add_0_r, (H0 s Hs). apply Rminus_diag_eq. reflexivity.
    - intros j Hj. assert (Hown : owned orders (b + j) k j) by (exists q; repeat split; auto; lia).
      pose proof (D1 _ k j s c Hown Hs (conj Lc Ec)) as X1. pose proof (D2 _ k j s c2 Hown Hs (conj Lc2 Ec2)) as X2.
      pose proof (is_derive_unique2 _ _ _ _ (is_derive_peval c (nth j r 0)) X1) as Y1. pose proof (is_derive_unique2 _ _ _ _ (is_derive_peval c2 (nth j r 0)) X2) as Y2.
      change (peval (@pder Rnum c) (nth j r 0) = h * nth s (rhs o ph (a_of o y) (y_x y (b + j)%nat) (y_u y (b + j)%nat) (seg_time cf w y k (nth j r 0))) 0) in Y1.
      change (peval (@pder Rnum c2) (nth j r 0) = h * nth s (rhs o ph (a_of o y) (x2 (b + j)%nat) (y_u y (b + j)%nat) (seg_time cf w y k (nth j r 0))) 0) in Y2.
      rewrite Ed', Y1, Y2.
      rewrite <- Rmult_minus_distr_l, Rabs_mult, (Rabs_pos_eq h) by lra. apply Rmult_le_compat_l; [lra|].
      apply (Hlip (seg_time cf w y k (nth j r 0)) (y_u y (b + j)) (y_x y (b + j)) (x2 (b + j)%nat) e s); [|exact Hs|intros i' Hi'; apply HM; [exact Hi'|lia]].
      apply (T_range mp w y Ht Hw Hsum Hy k _ Hk). apply (good_range _ _ q); [exact Ht|exact Hg|lia]. }
  assert (E0 : e = 0).
  { apply (none_left C L (lasts w y k)); [apply Rabs_pos| |exact (Hfine k Hk)]. eapply Rle_trans; [exact HE|]. apply Req_le. unfold h, seg_h, lasts. field. lra. }
  intros j s' Hj Hs'. pose proof (HM s' j Hs' ltac:(lia)) as X. rewrite E0 in X. pose proof (Rabs_pos (y_x y (b + j) s' - x2 (b + j)%nat s')) as Y.
  assert (Z : Rabs (y_x y (b + j) s' - x2 (b + j)%nat s') = 0) by lra. destruct (Req_dec (y_x y (b + j) s' - x2 (b + j)%nat s') 0) as [W|W]; [lra|]. exfalso. exact (Rabs_no_R0 _ W Z).
Qed.
Lemma all_same : (forall s, (s < o_nx o)%nat -> x2 0%nat s = y_x y 0 s) -> forall i s, (i < total_nodes orders)%nat -> (s < o_nx o)%nat -> x2 i s = y_x y i s.
Proof.
  intros H0. assert (G : forall k, (k <= length orders)%nat -> forall i s, (i <= offset orders k)%nat -> (s < o_nx o)%nat -> x2 i s = y_x y i s).
  { induction k as [|k IH]; intros Hk i s Hi Hs; [rewrite offset_0 in Hi; assert (i = 0)%nat as -> by lia; apply H0; exact Hs|].
    destruct (nth_error orders k) as [q|] eqn:Eq; [|apply nth_error_None in Eq; lia]. rewrite (offset_S _ _ _ Eq) in Hi.
    destruct (Nat.le_gt_cases i (offset orders k)) as [X|X]; [apply IH; [lia|exact X|exact Hs]|].
    replace i with (offset orders k + (i - offset orders k))%nat by lia. apply (seg_same k q Eq); [|lia|exact Hs]. intros s' Hs'. apply IH; [lia|lia|exact Hs']. }
  intros i s Hi Hs. apply (G (length orders) (le_n _)); [unfold total_nodes in Hi; lia|exact Hs].
Qed.
End Two.
Theorem determined_thm cf Q : cfg_ok cf -> exists C, 0 <= C /\ forall mp npath nterm (z z' p : list R) n n' ph,
  mp_cf mp = cf -> (forall q, In q (mp_orders mp) -> (q <= Q)%nat) -> input_ok mp npath nterm z p -> input_ok mp npath nterm z' p -> widths_ok (mp_nseg mp) (o_nph (mp_ocp mp)) p ->
  nlp_at mp z p = Ok n -> nlp_at mp z' p = Ok n' -> feasible n -> feasible n' -> (ph < o_nph (mp_ocp mp))%nat ->
  let o := mp_ocp mp in let w := width mp p ph in let y := user_traj mp z ph in let y' := user_traj mp z' ph in y_t0 y < y_tf y ->
  forall L, lipschitz o ph (a_of o y) (y_t0 y) (y_tf y) L -> (forall k, (k < length (mp_orders mp))%nat -> C * L * lasts w y k < 1) ->
    y_t0 y' = y_t0 y -> y_tf y' = y_tf y -> (forall i, (i < o_na o)%nat -> y_a y' i = y_a y i) ->
    (forall i c, (i < total_nodes (mp_orders mp))%nat -> (c < o_nu o)%nat -> y_u y' i c = y_u y i c) -> (forall s, (s < o_nx o)%nat -> y_x y' 0 s = y_x y 0 s) ->
    same_traj mp y' y.
Proof.
  intros Hcf. destruct (dets_exist cf Q Hcf) as (C & HC & Hd). exists C. split; [exact HC|].
  intros mp npath nterm z z' p n n' ph Ecf HQ Hin Hin' Hw En En' Hf Hf' Hph o w y y' Hy L HL Hfine E1 E2 E3 E4 E5. subst cf.
  destruct (nlp_like _ _ _ _ _ (user_traj mp z) Hin (fun ph _ => same_refl _ _)) as (rs & m & R1 & R2 & _ & R3 & _).
  assert (m = n) as -> by (pose proof (eq_trans (eq_sym R2) En) as X; injection X as X; exact X). apply R3 in Hf. destruct Hf as (_ & Hp & _). destruct (Hp ph Hph) as (Hdyn & _).
  destruct (nlp_like _ _ _ _ _ (user_traj mp z') Hin' (fun ph _ => same_refl _ _)) as (rs' & m' & R1' & R2' & R4 & R3' & _).
  assert (m' = n') as -> by (pose proof (eq_trans (eq_sym R2') En') as X; injection X as X; exact X). apply R3' in Hf'. destruct Hf' as (_ & Hp' & _). destruct (Hp' ph Hph) as (Hdyn' & _).
  assert (rs' = rs) as -> by (pose proof (eq_trans (eq_sym R1') R1) as X; injection X as X; exact X).
  set (y2 := Utraj (y_x y') (y_u y) (y_t0 y) (y_tf y) (y_a y)).
  assert (HS : same_traj mp y' y2) by (split; [reflexivity|]; split; [exact E4|]; split; [exact E1|]; split; [exact E2|exact E3]).
  assert (Hdyn2 : dynamics_ok mp rs (width mp p ph) ph y2) by exact (dynamics_congr mp rs (width mp p ph) ph R4 y' y2 HS Hdyn').
  destruct (part_widths mp p (in_mpo _ _ _ _ _ Hin) Hw ph Hph) as (W1 & W2).
  assert (Hg : forall k q, nth_error (mp_orders mp) k = Some q -> good_nodes (cf_tau0 (mp_cf mp)) (cf_tau1 (mp_cf mp)) q (nth k rs [])).
  { intros k q Eq. apply (rs_good mp npath nterm z p Hin rs R1 k q _ Eq). apply nth_error_nth'. exact (Nat.lt_le_trans _ _ _ (MeshR.nth_error_lt _ _ _ Eq) (Nat.eq_le_incl _ _ (eq_sym (rs_len mp rs R1)))). }
  pose proof (all_same mp rs (width mp p ph) ph y (y_x y') C L Q (co_taus _ Hcf) (mo_pos _ (in_mpo _ _ _ _ _ Hin)) HQ (rs_root mp rs R1) Hg W1 W2 Hy Hd HL Hfine (ok_nx _ _ _ (in_ocp _ _ _ _ _ Hin)) Hdyn Hdyn2 E5) as G.
  split; [exact G|]. split; [exact E4|]. split; [exact E1|]. split; [exact E2|exact E3].
Qed.
