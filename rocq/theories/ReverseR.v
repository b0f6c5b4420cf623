(** Problems of one phase and one segment, forwards and backwards in time (proofs of C83). *)
From Coq Require Import Reals Lia Lra Bool Arith String.
From Coquelicot Require Import Coquelicot.
From Coq Require Import List.
From Verif Require Import Num PyList Mat Poly Roots Colloc Ocp Transcribe Spec SpecOcp SpecHadapt SpecReverse NumR ListR PolyR CollocR CompR CollocThm MeshR BlockR DiscR NlpR OcpR NlpThm CostR BalanceR WeightR ScaleR ConvexR TransR NodesR.
Import ListNotations.
Open Scope R_scope.

Lemma mirror_poly (s : R) (c : list R) : exists c' : list R, length c' = length c /\ forall x, peval c' x = peval c (s - x).
Proof.
  induction c as [|a c (c' & L & E)]; [exists []; split; reflexivity|].
  exists (@padd Rnum [a] (@padd Rnum (@pscale Rnum s c') (0 :: @pscale Rnum (-1) c'))). split.
  - rewrite !length_padd. cbn [length]. rewrite !length_pscale. nred. lia.
  - intros x. rewrite !peval_padd, peval_pscale. cbn [peval]. rewrite peval_pscale, E. nred. ring.
Qed.
Lemma Rsum_rev n (f : nat -> R) : Rsum n f = Rsum n (fun i => f (n - 1 - i)%nat).
Proof.
  revert f. induction n as [|n IH]; intros f; [reflexivity|]. rewrite Rsum_S_l. cbn [Rsum]. replace (S n - 1 - n)%nat with 0%nat by lia. rewrite (IH (fun i => f (S i))), Rplus_comm. f_equal.
  apply Rsum_ext. intros i Hi. f_equal. lia.
Qed.
Lemma neg_neg b : neg (neg b) = b.
Proof. destruct b as [|x| |]; cbn; try reflexivity. rewrite Ropp_involutive. reflexivity. Qed.
Lemma within_neg lo hi x : within lo hi x -> within (neg hi) (neg lo) (- x).
Proof. intros (A & B). split; [destruct hi as [|b| |]|destruct lo as [|b| |]]; cbn in *; auto; lra. Qed.
Lemma map_opp_opp (d : list R) : map Ropp (map Ropp d) = d.
Proof. rewrite map_map. rewrite <- (map_id d) at 2. apply map_ext. intros. apply Ropp_involutive. Qed.
Lemma nth_opp s (d : list R) : nth s (map Ropp d) 0 = - nth s d 0.
Proof. destruct (Nat.lt_ge_cases s (length d)) as [H|H]; [rewrite (nth_indep _ 0 (- 0)) by (rewrite map_length; exact H); apply map_nth|rewrite !nth_overflow by (rewrite ?map_length; exact H); ring]. Qed.
Lemma reverse_sym o o' : reverse o o' -> reverse o' o.
Proof.
  intros [A (B1 & B2 & B3) C (f & f' & D1 & D2 & D3) (g & g' & E1 & E2 & E3) (h & h' & F1 & F2 & F3) (k & k' & G1 & G2 & G3) (m & m' & I1 & I2 & I3) (J1 & J2 & J3 & J4 & J5 & J6) (K1 & K2 & K3 & K4) (L1 & L2 & L3) M].
  constructor.
  - tauto.
  - auto.
  - auto.
  - exists f', f. split; [exact D2|]. split; [exact D1|]. intros x u t a. rewrite D3, Ropp_involutive. destruct (f x u t a); [rewrite map_opp_opp|]; reflexivity.
  - exists g', g. split; [exact E2|]. split; [exact E1|]. intros x u t a. rewrite E3, Ropp_involutive. reflexivity.
  - exists h', h. split; [exact F2|]. split; [exact F1|]. intros x u t a. rewrite F3, Ropp_involutive. reflexivity.
  - exists k', k. split; [exact G2|]. split; [exact G1|]. intros xf tf x0 t0 a. rewrite G3, !Ropp_involutive. reflexivity.
  - exists m', m. split; [exact I2|]. split; [exact I1|]. intros xf tf x0 t0 a. rewrite I3, !Ropp_involutive. reflexivity.
  - auto 10.
  - rewrite K1, K2, K3, K4, !neg_neg. auto.
  - rewrite L1, L2, L3, !neg_neg. auto.
  - auto.
Qed.

(** ** the nodes and weights of one segment *)
Lemma mirror_interp (t0 t1 : R) q (r : list R) (ys : nat -> R) c : symmetric t0 t1 q r -> length r = S q -> interpolates c r ys ->
  exists c', interpolates c' r (fun j => ys (q - j)%nat) /\ forall x, peval c' x = peval c (t0 + t1 - x).
Proof.
  intros Sy L (Hl & Hc). destruct (mirror_poly (t0 + t1) c) as (c' & L' & E). exists c'. split; [|exact E]. split; [lia|].
  intros k Hk. rewrite E, <- Sy by lia. apply Hc. lia.
Qed.
Lemma weights_symmetric (t0 t1 : R) q (r W : list R) : NoDup r -> length r = S q -> symmetric t0 t1 q r -> exact_to t0 t1 q r W (S q) -> forall j, (j <= q)%nat -> nth (q - j) W 0 = nth j W 0.
Proof.
  intros Hnd L Sy HW j Hj.
  assert (V : forall i c, (i <= q)%nat -> interpolates c r (fun k => if Nat.eqb k i then 1 else 0) -> nth i W 0 = RInt (peval c) t0 t1).
  { intros i c Hi (Hl & Hc). rewrite <- (HW c) by lia. rewrite (Rsum_single (S q) _ i); [|lia|intros k Hk Hki; rewrite Hc by lia; destruct (Nat.eqb_spec k i); [lia|ring]]. rewrite Hc by lia. rewrite Nat.eqb_refl. ring. }
  destruct (interp_exists r (fun k => if Nat.eqb k j then 1 else 0) Hnd) as (c & Hc). destruct (mirror_interp t0 t1 q r _ c Sy L Hc) as (c' & Hc' & E).
  rewrite (V j c Hj Hc), (V (q - j)%nat c' ltac:(lia)).
  - rewrite <- (RInt_mirror (peval c) t0 t1 (continuous_peval c)). apply RInt_ext. intros x _. apply E.
  - destruct Hc' as (A & B). split; [exact A|]. intros k Hk. rewrite B by exact Hk. destruct (Nat.eqb_spec (q - k) j), (Nat.eqb_spec k (q - j)); try reflexivity; lia.
Qed.

Lemma one_total q : total_nodes [q] = S q.
Proof. unfold total_nodes. cbn. lia. Qed.
Section One.
Variables (o o' : ocp Rnum) (cf : ccfg Rnum) (q : nat) (r : list R) (w : nat -> R) (y : utraj).
Let mp := Mpo o 1 [q] cf.
Let mp' := Mpo o' 1 [q] cf.
Let t0 := cf_tau0 cf.
Let t1 := cf_tau1 cf.
Let y' := backwards q y.
Hypothesis Hr : reverse o o'.
Hypothesis Ht : t0 < t1.
Hypothesis L : length r = S q.
Hypothesis Sy : symmetric t0 t1 q r.
Hypothesis Hw : w 0%nat = 1.

Lemma one_owned i k j : owned [q] i k j -> k = 0%nat /\ i = j /\ (j <= q)%nat.
Proof. intros (p & E & Hj & _ & ->). destruct k as [|k]; [|destruct k; discriminate E]. injection E as <-. cbn. auto. Qed.
Lemma own_one j : (j <= q)%nat -> owned [q] j 0 j.
Proof. intros Hj. exists q. repeat split; auto. Qed.
Lemma h_back k : seg_h cf w y' k = seg_h cf w y k.
Proof. unfold seg_h, y', backwards. cbn [y_t0 y_tf]. f_equal. ring. Qed.
Lemma time_back j : (j <= q)%nat -> seg_time cf w y' 0 (nth j r 0) = - seg_time cf w y 0 (nth (q - j) r 0).
Proof.
  intros Hj. rewrite (Sy j Hj). unfold seg_time. rewrite h_back. unfold seg_start, seg_h, y', backwards. cbn [y_t0 y_tf Rsum]. rewrite Hw. fold t0 t1. field. lra.
Qed.
Lemma a_back : a_of o' y' = a_of o y.
Proof. destruct (rv_dims _ _ Hr) as (_ & _ & E). unfold a_of, y', backwards. cbn [y_a]. rewrite E. reflexivity. Qed.
Lemma dyn_back i t : dyn_val o' 0 y' i t = map Ropp (dyn_val o 0 y (q - i) (- t)).
Proof.
  destruct (rv_dyn _ _ Hr) as (f & f' & D1 & D2 & D3). destruct (rv_dims _ _ Hr) as (E1 & E2 & _). unfold dyn_val. nred. rewrite D1, D2, D3, a_back, E1, E2. unfold y', backwards. cbn [y_x y_u].
  destruct (f _ _ _ _); reflexivity.
Qed.
Lemma path_back i t : path_val o' 0 y' i t = path_val o 0 y (q - i) (- t).
Proof.
  destruct (rv_path _ _ Hr) as (f & f' & D1 & D2 & D3). destruct (rv_dims _ _ Hr) as (E1 & E2 & _). unfold path_val. nred. rewrite D1, D2, D3, a_back, E1, E2. reflexivity.
Qed.
Lemma run_back i t : run_val o' 0 y' i t = run_val o 0 y (q - i) (- t).
Proof.
  destruct (rv_run _ _ Hr) as (f & f' & D1 & D2 & D3). destruct (rv_dims _ _ Hr) as (E1 & E2 & _). unfold run_val. nred. rewrite D1, D2, D3, a_back, E1, E2. reflexivity.
Qed.
Lemma term_back : term_val o' 0 y' q = term_val o 0 y q.
Proof.
  destruct (rv_term _ _ Hr) as (f & f' & D1 & D2 & D3). destruct (rv_dims _ _ Hr) as (E1 & _). unfold term_val. nred. rewrite D1, D2, D3, a_back, E1. unfold y', backwards. cbn [y_x y_t0 y_tf]. rewrite !Ropp_involutive, Nat.sub_0_r, Nat.sub_diag. reflexivity.
Qed.
Lemma mayer_back : mayer_val o' 0 y' q = mayer_val o 0 y q.
Proof.
  destruct (rv_mayer _ _ Hr) as (f & f' & D1 & D2 & D3). destruct (rv_dims _ _ Hr) as (E1 & _). unfold mayer_val. nred. rewrite D1, D2, D3, a_back, E1. unfold y', backwards. cbn [y_x y_t0 y_tf]. rewrite !Ropp_involutive, Nat.sub_0_r, Nat.sub_diag. reflexivity.
Qed.
(** the polynomial through the reversed values *)
Lemma poly_back (v : nat -> R) c : interpolates c r (fun j => v (q - j)%nat) -> exists c', seg_interp [q] 0 r v c' /\ (forall x, peval c x = peval c' (t0 + t1 - x)) /\
  forall x, Derive (peval c) x = - Derive (peval c') (t0 + t1 - x).
Proof.
  intros Hc. destruct (mirror_interp t0 t1 q r _ c Sy L Hc) as (c' & (A & B) & E). exists c'.
  assert (E' : forall x, peval c x = peval c' (t0 + t1 - x)) by (intros x; rewrite E; f_equal; ring).
  split; [|split; [exact E'|]].
  - split; [exact A|]. intros k Hk. rewrite B by exact Hk. cbn [offset firstn fold_right Nat.add]. f_equal. lia.
  - intros x. apply is_derive_unique. apply is_derive_ext with (f := fun x => peval c' (t0 + t1 - x)); [intros t; symmetry; apply E'|].
    assert (X : is_derive (fun x => peval c' (t0 + t1 - x)) x (scal (-1) (Derive (peval c') (t0 + t1 - x)))).
    { apply (is_derive_comp (peval c') (fun x => t0 + t1 - x)); [apply Derive_correct; eexists; apply is_derive_peval|auto_derive; [exact I|ring]]. }
    replace (- Derive (peval c') (t0 + t1 - x)) with (scal (-1) (Derive (peval c') (t0 + t1 - x))) by (unfold scal; cbn; unfold mult; cbn; ring). exact X.
Qed.
Lemma phase_back : phase_ok mp [r] w 0 y -> phase_ok mp' [r] w 0 y'.
Proof.
  intros (D & P & S1 & M & _ & T). destruct (rv_dims _ _ Hr) as (E1 & E2 & _). destruct (rv_bounds _ _ Hr) as (_ & _ & B3 & B4 & _). destruct (rv_slopes _ _ Hr) as (F1 & F2 & F3).
  assert (Sy' : forall j, (j <= q)%nat -> t0 + t1 - nth j r 0 = nth (q - j) r 0) by (intros; symmetry; apply Sy; assumption).
  split; [|split; [|split; [|split; [|split]]]].
  - intros i k j s c Ho Hs Hc. destruct (one_owned i k j Ho) as (-> & -> & Hj). cbn [mp' mp_ocp mp_cf mp_orders nth] in *.
    destruct (poly_back (fun i => y_x y i s) c Hc) as (c' & Hc' & _ & DC). rewrite dyn_back, h_back, time_back, Ropp_involutive, nth_opp by exact Hj.
    pose proof (D (q - j)%nat 0%nat (q - j)%nat s c' (own_one (q - j)%nat (Nat.le_sub_l q j)) ltac:(cbn; rewrite <- E1; exact Hs) Hc') as X. apply is_derive_unique in X. cbn [mp mp_ocp mp_cf mp_orders nth] in X.
    specialize (DC (nth j r 0)). rewrite (Sy' j Hj), X in DC. rewrite Ropp_mult_distr_r in DC. rewrite <- DC. apply Derive_correct. eexists. apply is_derive_peval.
  - intros i k j c Ho Hc. destruct (one_owned i k j Ho) as (-> & -> & Hj). cbn [mp' mp_ocp mp_cf mp_orders nth] in *. rewrite path_back, time_back, Ropp_involutive in Hc by exact Hj.
    exact (P (q - j)%nat 0%nat (q - j)%nat c (own_one (q - j)%nat (Nat.le_sub_l q j)) Hc).
  - intros Hd i k j c0 c Ho Hs Hc. destruct (one_owned i k j Ho) as (-> & -> & Hj). cbn [mp' mp_ocp mp_cf mp_orders nth] in *.
    destruct (poly_back (fun i => y_u y i c0) c Hc) as (c' & Hc' & _ & DC). rewrite F1 in Hd.
    pose proof (S1 Hd (q - j)%nat 0%nat (q - j)%nat c0 c' (own_one (q - j)%nat (Nat.le_sub_l q j)) ltac:(cbn; rewrite <- E2; exact Hs) Hc') as X. cbn [mp mp_ocp mp_cf mp_orders nth] in X.
    rewrite F2, F3, (DC (nth j r 0)), (Sy' j Hj), (rv_scale _ _ Hr). apply within_neg in X. rewrite <- Ropp_mult_distr_r. exact X.
  - intros Hm k p j c0 c Hk Hj Hs Hc. destruct k as [|k]; [|destruct k; discriminate Hk]. cbn [mp' mp_ocp mp_cf mp_orders nth] in *. injection Hk as <-.
    destruct (poly_back (fun i => y_u y i c0) c Hc) as (c' & Hc' & EC & _). rewrite (rv_mid _ _ Hr) in Hm.
    pose proof (M Hm 0%nat q (q - S j)%nat c0 c' eq_refl ltac:(lia) ltac:(cbn; rewrite <- E2; exact Hs) Hc') as X. cbn [mp mp_ocp mp_cf mp_orders nth] in X.
    unfold bnd in *. rewrite B3, B4, EC. replace (t0 + t1 - (nth j r 0 + nth (S j) r 0) / 2) with ((nth (q - S j) r 0 + nth (S (q - S j)) r 0) / 2); [exact X|].
    replace (S (q - S j)) with (q - j)%nat by lia. rewrite (Sy j), (Sy (S j)) by lia. field.
  - intros _ k c0 c c' Hk. cbn in Hk. lia.
  - intros c Hc. cbn [mp' mp_ocp mp_orders] in Hc. rewrite one_total in Hc. replace (S q - 1)%nat with q in Hc by lia. rewrite term_back in Hc. apply T. cbn [mp mp_ocp mp_orders]. rewrite one_total. replace (S q - 1)%nat with q by lia. exact Hc.
Qed.
Lemma bounds_back : (1 <= q)%nat -> start_within o -> arrives mp o' y -> bounds_ok mp 0 y -> bounds_ok mp' 0 y' /\ arrives mp' o y'.
Proof.
  intros Hq Hst Ha (X & U & T0 & TF & A). destruct (rv_dims _ _ Hr) as (E1 & E2 & E3). destruct (rv_bounds _ _ Hr) as (B1 & B2 & B3 & B4 & B5 & B6). destruct (rv_times _ _ Hr) as (K1 & K2 & K3 & K4).
  unfold bounds_ok, bnd, arrives in *. cbn [mp mp' mp_ocp mp_orders] in *. rewrite one_total in *. replace (S q - 1)%nat with q in * by lia. rewrite E1, E2, E3, B1, B2, B3, B4, B5, B6 in *.
  split; [split; [|split; [|split; [|split]]]|].
  - intros i s Hi Hs. destruct i as [|i]; cbn [Nat.eqb andb].
    + unfold y', backwards. cbn [y_x]. rewrite Nat.sub_0_r. exact (Ha s Hs).
    + unfold y', backwards. cbn [y_x]. specialize (X (q - S i)%nat s ltac:(lia) Hs). destruct (q - S i)%nat as [|m] eqn:Em; cbn [Nat.eqb andb] in X; [rewrite X; exact (Hst s Hs)|exact X].
  - intros i c Hi Hc. unfold y', backwards. cbn [y_u]. apply U; [lia|exact Hc].
  - unfold first in K1, K2. rewrite K1, K2. apply within_neg. exact TF.
  - unfold first in K3, K4. rewrite K3, K4. apply within_neg. exact T0.
  - exact A.
  - intros s Hs. unfold y', backwards. cbn [y_x]. rewrite Nat.sub_diag. specialize (X 0%nat s ltac:(lia) Hs). exact X.
Qed.
Lemma cost_back W : (forall j, (j <= q)%nat -> nth (q - j) (W 0%nat) 0 = nth j (W 0%nat) 0) ->
  mayer_val o' 0 y' q + Rsum 1 (seg_cost mp' [r] w 0 y' W) = mayer_val o 0 y q + Rsum 1 (seg_cost mp [r] w 0 y W).
Proof.
  intros HW. rewrite mayer_back. f_equal. cbn [Rsum]. f_equal. unfold seg_cost. cbn [mp mp' mp_cf mp_orders nth]. rewrite h_back. f_equal.
  rewrite (Rsum_rev (S q)). apply Rsum_ext. intros j Hj. unfold omega. cbn [Nat.leb andb]. replace (S q - 1 - j)%nat with (q - j)%nat by lia. rewrite HW by lia. f_equal.
  unfold run_at. cbn [mp mp' mp_ocp mp_cf mp_orders nth]. rewrite time_back, run_back by lia. rewrite Ropp_involutive. cbn [offset firstn fold_right Nat.add]. replace (q - (q - j))%nat with j by lia. reflexivity.
Qed.
End One.

(** ** whole problems *)
Lemma one_width p : widths_ok 1 1 p -> nth 0 p 0 = 1.
Proof.
  intros (Lp & H). destruct p as [|a [|b p]]; [discriminate Lp| |discriminate Lp]. destruct (H 0%nat ltac:(lia)) as (_ & _ & T). cbn in T. cbn. lra.
Qed.
Lemma back_back mp mp' q y y' : mp_orders mp = [q] -> mp_orders mp' = [q] -> reverse (mp_ocp mp) (mp_ocp mp') -> same_traj mp' y' (backwards q y) -> same_traj mp y (backwards q y').
Proof.
  intros E E' Hr (A & B & C & D & F). destruct (rv_dims _ _ Hr) as (E1 & E2 & E3). rewrite E1 in A. rewrite E2 in B. rewrite E3 in F. rewrite E', one_total in A. rewrite E', one_total in B. unfold same_traj. rewrite E, one_total. unfold backwards in *. cbn [y_x y_u y_t0 y_tf y_a] in *.
  split; [|split; [|split; [|split]]].
  - intros i s Hi Hs. rewrite A by (exact Hs || lia). f_equal. lia.
  - intros i s Hi Hs. rewrite B by (exact Hs || lia). f_equal. lia.
  - rewrite D. ring.
  - rewrite C. ring.
  - intros i Hi. symmetry. apply F. exact Hi.
Qed.
Lemma arrives_congr mp o' y y' : same_traj mp y y' -> o_nx o' = o_nx (mp_ocp mp) -> arrives mp o' y -> arrives mp o' y'.
Proof. intros (A & _) E H s Hs. rewrite <- A; [exact (H s Hs)|unfold total_nodes; lia|rewrite <- E; exact Hs]. Qed.
Theorem weights_thm cf q : cfg_ok cf -> In (cf_scheme cf) ["LGL"; "CGL"]%string -> (1 <= q)%nat ->
  exists w, quad_weights cf q (cf_tau0 cf) (cf_tau1 cf) = Ok w /\ length w = S q /\ forall j, (j <= q)%nat -> nth (q - j) w 0 = nth j w 0.
Proof.
  intros H Sc Hq. destruct (c_roots_good cf q H Hq) as (r & Er & Hg). destruct (weights_at cf q r H Hq Er) as (w & Ew & Lw & HX). exists w. split; [exact Ew|]. split; [exact Lw|].
  apply (weights_symmetric (cf_tau0 cf) (cf_tau1 cf) q r w); [exact (good_nodup _ _ _ _ Hg)|exact (proj1 Hg)|exact (nodes_symmetric cf q r H Sc Hq Er)|exact HX].
Qed.
(** from one problem to the other *)
Lemma reverse_one o o' cf q npath nterm npath' nterm' (z z' p : list R) :
  let mp := Mpo o 1 [q] cf in let mp' := Mpo o' 1 [q] cf in
  input_ok mp npath nterm z p -> input_ok mp' npath' nterm' z' p -> reverse o o' -> In (cf_scheme cf) ["LGL"; "CGL"]%string -> widths_ok 1 1 p -> start_within o ->
  same_traj mp' (user_traj mp' z' 0) (backwards q (user_traj mp z 0)) ->
  exists n n', nlp_at mp z p = Ok n /\ nlp_at mp' z' p = Ok n' /\ n_f n' = n_f n /\
    (feasible n /\ arrives mp o' (user_traj mp z 0) -> feasible n' /\ arrives mp' o (user_traj mp' z' 0)).
Proof.
  intros mp mp' Hin Hin' Hr Sc Hp Hst HS. pose proof (one_width p Hp) as Hw. destruct (rv_phases _ _ Hr) as (N1 & N1'). pose proof (in_mpo _ _ _ _ _ Hin) as Hmp.
  pose proof (mo_cfg _ Hmp) as Hcf. cbn [mp mp_cf] in Hcf. assert (Hq : (1 <= q)%nat) by (apply (mo_pos _ Hmp); left; reflexivity).
  set (y := user_traj mp z 0) in *.
  destruct (nlp_like mp _ _ z p (user_traj mp z) Hin (fun ph _ => same_refl _ _)) as (rs & n & Er & En & _ & HF & HC).
  assert (HS' : forall ph, (ph < o_nph (mp_ocp mp'))%nat -> same_traj mp' (user_traj mp' z' ph) ((fun _ => backwards q y) ph)).
  { intros ph Hph. cbn [mp' mp_ocp] in Hph. rewrite N1' in Hph. assert (ph = 0)%nat as -> by lia. exact HS. }
  destruct (nlp_like mp' _ _ z' p (fun _ => backwards q y) Hin' HS') as (rs' & n' & Er' & En' & _ & HF' & HC').
  assert (rs' = rs) as -> by (pose proof (eq_trans (eq_sym Er') Er) as X; injection X as X; exact X). clear Er'.
  destruct (c_roots_good cf q Hcf Hq) as (r & Ec & Hg). cbn [mp mp_cf mp_orders mapM bind] in Er. rewrite Ec in Er. cbn [bind] in Er.
  assert (rs = [r]) as -> by (injection Er as Er; symmetry; exact Er). clear Er.
  pose proof (nodes_symmetric cf q r Hcf Sc Hq Ec) as Sy. pose proof (proj1 Hg) as L. pose proof (co_taus _ Hcf) as Ht.
  exists n, n'. split; [exact En|]. split; [exact En'|]. split.
  - rewrite HC, HC'. cbn [mp mp' mp_ocp]. rewrite N1, N1'. cbn [Rsum]. f_equal. unfold node_cost. cbn [mp mp' mp_ocp mp_cf mp_orders length]. rewrite one_total. replace (S q - 1)%nat with q by lia.
    apply (cost_back o o' cf q r (width mp p 0) y Hr Ht L Sy Hw (wts cf [q])).
    destruct (weights_thm cf q Hcf Sc Hq) as (W & EW & _ & HW). unfold wts. cbn [nth]. rewrite EW. exact HW.
  - intros (Hf & Ha). apply HF in Hf. destruct Hf as (B & P & _). specialize (B 0%nat ltac:(cbn [mp mp_ocp]; rewrite N1; lia)). specialize (P 0%nat ltac:(cbn [mp mp_ocp]; rewrite N1; lia)). fold y in B, P.
    destruct (bounds_back o o' cf q r y Hr L Hq Hst Ha B) as (B' & A'). split.
    + apply HF'. split; [|split].
      * intros ph Hph. cbn [mp' mp_ocp] in Hph. rewrite N1' in Hph. assert (ph = 0)%nat as -> by lia. exact B'.
      * intros ph Hph. cbn [mp' mp_ocp] in Hph. rewrite N1' in Hph. assert (ph = 0)%nat as -> by lia. exact (phase_back o o' cf q r (width mp p 0) y Hr Ht L Sy Hw P).
      * intros H. cbn [mp' mp_ocp] in H. rewrite N1' in H. lia.
    + apply (arrives_congr mp' o (backwards q y)); [apply same_sym; exact HS|cbn [mp' mp_ocp]; symmetry; apply (rv_dims _ _ Hr)|exact A'].
Qed.
Theorem reverse_thm o o' cf q npath nterm npath' nterm' (z z' p : list R) :
  let mp := Mpo o 1 [q] cf in let mp' := Mpo o' 1 [q] cf in
  input_ok mp npath nterm z p -> input_ok mp' npath' nterm' z' p -> reverse o o' -> In (cf_scheme cf) ["LGL"; "CGL"]%string -> widths_ok 1 1 p -> start_within o -> start_within o' ->
  same_traj mp' (user_traj mp' z' 0) (backwards q (user_traj mp z 0)) ->
  exists n n', nlp_at mp z p = Ok n /\ nlp_at mp' z' p = Ok n' /\ n_f n' = n_f n /\
    (feasible n /\ arrives mp o' (user_traj mp z 0) <-> feasible n' /\ arrives mp' o (user_traj mp' z' 0)).
Proof.
  intros mp mp' Hin Hin' Hr Sc Hp Hst Hst' HS.
  destruct (reverse_one o o' cf q _ _ _ _ z z' p Hin Hin' Hr Sc Hp Hst HS) as (n & n' & En & En' & Ef & H1).
  destruct (reverse_one o' o cf q _ _ _ _ z' z p Hin' Hin (reverse_sym _ _ Hr) Sc Hp Hst' (back_back mp mp' q _ _ eq_refl eq_refl Hr HS)) as (m' & m & Em' & Em & _ & H2).
  assert (m = n) as -> by (pose proof (eq_trans (eq_sym Em) En) as X; injection X as X; exact X).
  assert (m' = n') as -> by (pose proof (eq_trans (eq_sym Em') En') as X; injection X as X; exact X).
  exists n, n'. split; [exact En|]. split; [exact En'|]. split; [exact Ef|]. split; [exact H1|exact H2].
Qed.
