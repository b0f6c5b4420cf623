(** Relations between the programs of two problems (proofs of C64 - C66). *)
From Coq Require Import Reals Lia Lra Psatz Bool Arith String.
From Coquelicot Require Import Coquelicot.
From Coq Require Import List.
From Verif Require Import Num PyList Mat Poly Roots Colloc Ocp Transcribe Spec SpecOcp SpecHadapt SpecExact SpecConvex SpecTrans NumR ListR PolyR CollocR CompR CollocThm MeshR BlockR DiscR NlpR OcpR ScaleR NlpThm CostR WeightR ChebR ExactR ConvexR.
Import ListNotations.
Open Scope R_scope.

(** ** the program of a problem at a point with given trajectories *)
Definition wts (cf : ccfg Rnum) (orders : list nat) (k : nat) : list R :=
  match quad_weights cf (nth k orders 0%nat) (cf_tau0 cf) (cf_tau1 cf) with Ok w => w | Raise _ => [] end.
Definition node_cost (mp : mpo Rnum) (rs : list (list R)) (w : nat -> R) (ph : nat) (y : utraj) : R :=
  mayer_val (mp_ocp mp) ph y (total_nodes (mp_orders mp) - 1) +
  Rsum (length (mp_orders mp)) (seg_cost mp rs w ph y (wts (mp_cf mp) (mp_orders mp))).
Lemma nlp_like mp npath nterm z p ys : input_ok mp npath nterm z p -> (forall ph, (ph < o_nph (mp_ocp mp))%nat -> same_traj mp (user_traj mp z ph) (ys ph)) ->
  exists rs n, mapM (c_roots (mp_cf mp)) (mp_orders mp) = Ok rs /\ nlp_at mp z p = Ok n /\
    (forall k q, nth_error (mp_orders mp) k = Some q -> length (nth k rs []) = S q) /\
    (feasible n <-> (forall ph, (ph < o_nph (mp_ocp mp))%nat -> bounds_ok mp ph (ys ph)) /\
       (forall ph, (ph < o_nph (mp_ocp mp))%nat -> phase_ok mp rs (width mp p ph) ph (ys ph)) /\ links_ok mp ys) /\
    n_f n = Rsum (o_nph (mp_ocp mp)) (fun ph => node_cost mp rs (width mp p ph) ph (ys ph)).
Proof.
  intros Hin Hs. pose proof Hin as [Hmp Hok Hsc Hz Hp].
  destruct (nlp_at_ok mp Hmp npath nterm Hok Hsc z p Hz Hp) as (rs & n & R1 & R2 & R3 & R4 & _ & _ & _ & _ & R5 & R6 & R7).
  exists rs, n. split; [exact R1|]. split; [exact R2|].
  assert (Hlen : forall k q, nth_error (mp_orders mp) k = Some q -> length (nth k rs []) = S q).
  { intros k q Hk. assert (Hkl : (k < length rs)%nat) by (rewrite R3; apply nth_error_Some; congruence).
    destruct (R4 k q (nth k rs []) Hk (nth_error_nth' _ _ Hkl)) as (A & _). exact A. }
  split; [exact Hlen|].
  set (y := user_traj mp z) in *.
  assert (Hs1 : forall ph, (ph < o_nph (mp_ocp mp))%nat -> same_traj mp (ys ph) (y ph)) by (intros; apply same_sym; auto).
  split.
  - unfold feasible. rewrite R5, R6. split; intros (A & B & C); (split; [|split]).
    + intros ph Hph. apply (bounds_congr mp ph (y ph)); auto.
    + intros ph Hph. apply (phase_congr mp rs (width mp p ph) ph Hlen (y ph)); auto.
    + apply (links_congr mp y ys); auto. right. exact (ok_links _ _ _ Hok).
    + intros ph Hph. apply (bounds_congr mp ph (ys ph)); auto.
    + intros ph Hph. apply (phase_congr mp rs (width mp p ph) ph Hlen (ys ph)); auto.
    + apply (links_congr mp ys y); auto. right. exact (ok_links _ _ _ Hok).
  - destruct (cost_polys_exist mp npath nterm z p Hin rs R1) as (C & B & HC & HB). rewrite (R7 C B HC HB). apply Rsum_ext. intros ph Hph.
    fold y. rewrite (phase_cost_eq mp (width mp p ph) ph (y ph) (ys ph) (C ph) (Hs ph Hph)), (start_cost_eq mp rs (width mp p ph) ph Hlen (y ph) (ys ph) B (Hs ph Hph)).
    assert (HW : forall k q, nth_error (mp_orders mp) k = Some q -> exact_to (cf_tau0 (mp_cf mp)) (cf_tau1 (mp_cf mp)) q (nth k rs []) (wts (mp_cf mp) (mp_orders mp) k) (S q)).
    { intros k q Eq. destruct (mapM_inv _ _ _ R1) as [_ HI]. destruct (HI k _ Eq) as (r & E1 & E2). rewrite (nth_error_nth _ _ _ E1).
      destruct (weights_at (mp_cf mp) q r (mo_cfg _ Hmp) (mo_pos _ Hmp _ (nth_error_In _ _ Eq)) E2) as (W & EW & _ & HX). unfold wts. rewrite (nth_error_nth _ _ _ Eq), EW. exact HX. }
    assert (Hlo : (1 <= length (mp_orders mp))%nat) by (rewrite (mo_len _ Hmp); exact (mo_nseg _ Hmp)).
    apply (cost_nodes mp rs (width mp p ph) ph (ys ph) (wts (mp_cf mp) (mp_orders mp)) R4 R3 HW Hlo (C ph) B); [|exact HB].
    apply (cost_interp_congr mp rs (width mp p ph) ph Hlen (y ph)); [exact (Hs ph Hph)|]. apply HC. exact Hph.
Qed.
Lemma same_refl mp y : same_traj mp y y.
Proof. repeat split; auto. Qed.

(** ** problems with the same variables *)
Section Same.
Variables (o o' : ocp Rnum) (K : nat) (orders : list nat) (cf : ccfg Rnum).
Hypothesis Hv : same_vars o o'.
Let mp := Mpo o K orders cf.
Let mp' := Mpo o' K orders cf.
Lemma nvars_same : nvars mp' = nvars mp.
Proof. destruct Hv. unfold nvars. cbn [mp_ocp mp_orders mp mp']. nred. congruence. Qed.
Lemma traj_same z ph : user_traj mp' z ph = user_traj mp z ph.
Proof. unfold user_traj. rewrite nvars_same. cbn [mp_ocp mp_orders mp mp']. destruct Hv as [E1 E2 E3 E4 E5 E6 E7 E8]. nred. rewrite E1, E2, E5, E6, E7, E8. reflexivity. Qed.
Lemma same_same y y1 : same_traj mp y y1 -> same_traj mp' y y1.
Proof. unfold same_traj. cbn [mp_ocp mp_orders mp mp']. destruct Hv as [E1 E2 E3 E4 E5 E6 E7 E8]. nred. rewrite E1, E2, E3. auto. Qed.
Lemma input_same npath nterm npath' nterm' z p : input_ok mp npath nterm z p -> ocp_ok o' npath' nterm' -> input_ok mp' npath' nterm' z p.
Proof.
  intros [Hmp Hok Hsc Hz Hp] Hok'. constructor; [|exact Hok'| | |].
  - destruct Hmp. constructor; assumption.
  - destruct Hsc as [A B C D]. destruct Hv as [E1 E2 E3 E4 E5 E6 E7 E8]. cbn [mp_ocp mp mp'] in *. constructor; nred; [rewrite E5; exact A|rewrite E6; exact B|rewrite E7; exact C|rewrite E8; exact D].
  - rewrite nvars_same. rewrite Hz. cbn [mp_ocp mp mp']. nred. rewrite (sd_nph _ _ Hv). reflexivity.
  - rewrite Hp. cbn [mp_ocp mp_nseg mp mp']. nred. rewrite (sd_nph _ _ Hv). reflexivity.
Qed.
End Same.

(** ** relaxed problems *)
Lemma wider_within lo hi lo' hi' x : wider lo hi lo' hi' -> within lo hi x -> within lo' hi' x.
Proof. intros [A B] [C D]. destruct lo, lo', hi, hi'; cbn in *; split; cbn; try tauto; try lra. Qed.
Section Relax.
Variables (o o' : ocp Rnum) (K : nat) (orders : list nat) (cf : ccfg Rnum) (npath nterm npath' nterm' : nat -> option nat).
Let mp := Mpo o K orders cf.
Let mp' := Mpo o' K orders cf.
Hypothesis Hok : ocp_ok o npath nterm.
Hypothesis Hr : relaxed o o'.
Lemma rl_bounds ph y : (ph < o_nph o)%nat -> bounds_ok mp ph y -> bounds_ok mp' ph y.
Proof.
  intros Hph (A & B & C & D & E). destruct (rl_same _ _ Hr) as [E1 E2 E3 E4 _ _ _ _]. unfold bounds_ok in *. cbn [mp_ocp mp_orders mp mp'] in *. nred. rewrite E1, E2, E3. split; [|split; [|split; [|split]]].
  - intros i s Hi Hs. specialize (A i s Hi Hs). destruct (Nat.eqb ph 0 && Nat.eqb i 0); [etransitivity; [exact A|exact (f_equal (fun l => nth s l 0) (eq_sym (rl_start _ _ Hr)))]|].
    exact (wider_within _ _ _ _ _ (rl_x _ _ Hr ph s Hph Hs) A).
  - intros i c Hi Hc. exact (wider_within _ _ _ _ _ (rl_u _ _ Hr ph c Hph Hc) (B i c Hi Hc)).
  - exact (wider_within _ _ _ _ _ (rl_t0 _ _ Hr ph Hph) C).
  - exact (wider_within _ _ _ _ _ (rl_tf _ _ Hr ph Hph) D).
  - intros i Hi. exact (wider_within _ _ _ _ _ (rl_a _ _ Hr ph i Hph Hi) (E i Hi)).
Qed.
Lemma dyn_val_same ph y i t : dyn_val o' ph y i t = dyn_val o ph y i t.
Proof. destruct (rl_same _ _ Hr) as [E1 E2 E3 E4 _ _ _ _]. unfold dyn_val, a_of. rewrite (rl_dyn _ _ Hr). nred. rewrite E1, E2, E3. reflexivity. Qed.
Lemma rl_phase rs w ph y : (ph < o_nph o)%nat -> phase_ok mp rs w ph y -> phase_ok mp' rs w ph y.
Proof.
  intros Hph (A & B & C & D & E & F). destruct (rl_same _ _ Hr) as [E1 E2 E3 E4 E5 E6 E7 E8].
  split; [|split; [|split; [|split; [|split]]]]; unfold dynamics_ok, path_ok, slope_ok, midu_ok, ducont_ok, terminal_ok in *; cbn [mp_ocp mp_orders mp_cf mp mp'] in *; nred.
  - intros i k j s c Ho Hs Hc. rewrite dyn_val_same. rewrite E1 in Hs. exact (A i k j s c Ho Hs Hc).
  - intros i k j c Ho Hc. refine (rl_path _ _ Hr ph y i _ Hph _ c Hc). intros c' Hc'. exact (B i k j c' Ho Hc').
  - intros Hd. destruct (rl_diff_u _ _ Hr ph Hph Hd) as [Hd' Hw]. intros i k j q c Ho Hq Hc. rewrite E2 in Hq. rewrite E6. exact (wider_within _ _ _ _ _ Hw (C Hd' i k j q c Ho Hq Hc)).
  - intros Hd. pose proof (rl_midu _ _ Hr ph Hph Hd) as Hd'. intros k p j q c Ek Hj Hq Hc. rewrite E2 in Hq. exact (wider_within _ _ _ _ _ (rl_u _ _ Hr ph q Hph Hq) (D Hd' k p j q c Ek Hj Hq Hc)).
  - intros Hd. pose proof (rl_ducont _ _ Hr ph Hph Hd) as Hd'. intros k q c c' Hk Hq. rewrite E2 in Hq. exact (E Hd' k q c c' Hk Hq).
  - exact (rl_term _ _ Hr ph y _ Hph F).
Qed.
Lemma rl_links_ok ys : links_ok mp ys -> links_ok mp' ys.
Proof.
  intros H Hn k i j Ek. destruct (rl_same _ _ Hr) as [E1 E2 E3 E4 _ _ _ _]. unfold links_ok, link_ok in *. cbn [mp_ocp mp_orders mp mp'] in *. nred. rewrite (rl_links _ _ Hr) in Ek. rewrite E4 in Hn. rewrite E1, E2.
  destruct (H Hn k i j Ek) as (A & B & C). split; [|auto]. intros s Hs. exact (wider_within _ _ _ _ _ (rl_e _ _ Hr k s (nth_error_lt _ _ _ Ek) Hs) (A s Hs)).
Qed.
End Relax.
Theorem relax_thm (mp : mpo Rnum) o' npath nterm npath' nterm' z p : input_ok mp npath nterm z p -> ocp_ok o' npath' nterm' -> relaxed (mp_ocp mp) o' ->
  exists n n', nlp_at mp z p = Ok n /\ nlp_at (Mpo o' (mp_nseg mp) (mp_orders mp) (mp_cf mp)) z p = Ok n' /\ (feasible n -> feasible n').
Proof.
  intros Hin Hok' Hr. destruct mp as [o K orders cf]. cbn [mp_ocp mp_nseg mp_orders mp_cf] in *. pose proof (rl_same _ _ Hr) as Hv.
  pose proof (input_same o o' K orders cf Hv _ _ _ _ z p Hin Hok') as Hin'.
  destruct (nlp_like _ _ _ _ _ (user_traj (Mpo o K orders cf) z) Hin (fun ph _ => same_refl _ _)) as (rs & n & R1 & R2 & _ & R4 & _).
  destruct (nlp_like _ _ _ _ _ (user_traj (Mpo o K orders cf) z) Hin') as (rs' & n' & R1' & R2' & _ & R4' & _).
  { intros ph _. rewrite (traj_same o o' K orders cf Hv). apply same_refl. }
  cbn [mp_ocp mp_orders mp_cf] in *. assert (rs' = rs) as -> by (pose proof (eq_trans (eq_sym R1') R1) as X; injection X as X; exact X).
  exists n, n'. split; [exact R2|]. split; [exact R2'|]. rewrite R4, R4'. intros (A & B & C). pose proof (sd_nph _ _ Hv) as En. split; [|split].
  - intros ph Hph. nred. rewrite En in Hph. apply (rl_bounds o o' K orders cf Hr ph _ Hph). apply A. exact Hph.
  - intros ph Hph. nred. rewrite En in Hph. apply (rl_phase o o' K orders cf Hr rs _ ph _ Hph). apply B. exact Hph.
  - apply (rl_links_ok o o' K orders cf Hr). exact C.
Qed.
Theorem cheaper_thm (mp : mpo Rnum) o' npath nterm npath' nterm' z p : input_ok mp npath nterm z p -> ocp_ok o' npath' nterm' -> same_vars (mp_ocp mp) o' ->
  widths_ok (mp_nseg mp) (o_nph (mp_ocp mp)) p -> cheaper (mp_ocp mp) o' ->
  (forall ph, (ph < o_nph (mp_ocp mp))%nat -> y_t0 (user_traj mp z ph) <= y_tf (user_traj mp z ph)) ->
  exists n n', nlp_at mp z p = Ok n /\ nlp_at (Mpo o' (mp_nseg mp) (mp_orders mp) (mp_cf mp)) z p = Ok n' /\ n_f n' <= n_f n.
Proof.
  intros Hin Hok' Hv Hw [C1 C2] Ht. destruct mp as [o K orders cf]. cbn [mp_ocp mp_nseg mp_orders mp_cf] in *.
  pose proof (input_same o o' K orders cf Hv _ _ _ _ z p Hin Hok') as Hin'.
  destruct (nlp_like _ _ _ _ _ (user_traj (Mpo o K orders cf) z) Hin (fun ph _ => same_refl _ _)) as (rs & n & R1 & R2 & _ & _ & R4).
  destruct (nlp_like _ _ _ _ _ (user_traj (Mpo o K orders cf) z) Hin') as (rs' & n' & R1' & R2' & _ & _ & R4').
  { intros ph _. rewrite (traj_same o o' K orders cf Hv). apply same_refl. }
  cbn [mp_ocp mp_orders mp_cf] in *. assert (rs' = rs) as -> by (pose proof (eq_trans (eq_sym R1') R1) as X; injection X as X; exact X).
  exists n, n'. split; [exact R2|]. split; [exact R2'|]. nred. rewrite R4, R4', (sd_nph _ _ Hv). apply Rsum_le. intros ph Hph.
  unfold node_cost. cbn [mp_ocp mp_orders mp_cf]. apply Rplus_le_compat; [apply C2; exact Hph|]. apply Rsum_le. intros k Hk. unfold seg_cost. cbn [mp_ocp mp_orders mp_cf].
  pose proof (in_mpo _ _ _ _ _ Hin) as Hmp. destruct (part_widths _ p Hmp Hw ph Hph) as [W1 _].
  apply Rmult_le_compat_l.
  - unfold seg_h. pose proof (co_taus _ (mo_cfg _ Hmp)) as Htau. cbn [mp_cf] in Htau. specialize (W1 k Hk). specialize (Ht ph Hph).
    apply Rmult_le_pos; [apply Rmult_le_pos; [lra|apply Rlt_le; exact W1]|apply Rlt_le, Rinv_0_lt_compat; lra].
  - apply Rsum_le. intros j Hj. apply Rmult_le_compat_l; [|apply C1; exact Hph]. unfold omega. destruct (Nat.leb 1 k && Nat.eqb j 0); [lra|].
    unfold wts. destruct (quad_weights cf (nth k orders 0%nat) (cf_tau0 cf) (cf_tau1 cf)) as [W|] eqn:EW; [|destruct j; cbn; lra].
    exact (weights_nonneg_ok _ Hmp _ W (nth_In _ _ Hk) EW j).
Qed.

(** ** combined costs *)
Theorem combined_thm (mp : mpo Rnum) o1 o2 alpha beta gamma npath nterm npath1 nterm1 npath2 nterm2 z p : input_ok mp npath nterm z p ->
  ocp_ok o1 npath1 nterm1 -> ocp_ok o2 npath2 nterm2 -> same_vars (mp_ocp mp) o1 -> same_vars (mp_ocp mp) o2 -> combined alpha beta gamma o1 o2 (mp_ocp mp) ->
  exists n n1 n2, nlp_at mp z p = Ok n /\ nlp_at (Mpo o1 (mp_nseg mp) (mp_orders mp) (mp_cf mp)) z p = Ok n1 /\
    nlp_at (Mpo o2 (mp_nseg mp) (mp_orders mp) (mp_cf mp)) z p = Ok n2 /\
    n_f n = alpha * n_f n1 + beta * n_f n2 + Rsum (o_nph (mp_ocp mp)) gamma.
Proof.
  intros Hin Hok1 Hok2 Hv1 Hv2 [C1 C2]. destruct mp as [o K orders cf]. cbn [mp_ocp mp_nseg mp_orders mp_cf] in *.
  pose proof (input_same o o1 K orders cf Hv1 _ _ _ _ z p Hin Hok1) as Hin1. pose proof (input_same o o2 K orders cf Hv2 _ _ _ _ z p Hin Hok2) as Hin2.
  destruct (nlp_like _ _ _ _ _ (user_traj (Mpo o K orders cf) z) Hin (fun ph _ => same_refl _ _)) as (rs & n & R1 & R2 & _ & _ & R4).
  destruct (nlp_like _ _ _ _ _ (user_traj (Mpo o K orders cf) z) Hin1) as (rs1 & n1 & R11 & R12 & _ & _ & R14).
  { intros ph _. rewrite (traj_same o o1 K orders cf Hv1). apply same_refl. }
  destruct (nlp_like _ _ _ _ _ (user_traj (Mpo o K orders cf) z) Hin2) as (rs2 & n2 & R21 & R22 & _ & _ & R24).
  { intros ph _. rewrite (traj_same o o2 K orders cf Hv2). apply same_refl. }
  cbn [mp_ocp mp_orders mp_cf] in *. assert (rs1 = rs) as -> by (pose proof (eq_trans (eq_sym R11) R1) as X; injection X as X; exact X).
  assert (rs2 = rs) as -> by (pose proof (eq_trans (eq_sym R21) R1) as X; injection X as X; exact X).
  exists n, n1, n2. split; [exact R2|]. split; [exact R12|]. split; [exact R22|]. nred. rewrite R4, R14, R24, (sd_nph _ _ Hv1), (sd_nph _ _ Hv2).
  rewrite <- !Rsum_scal, <- !Rsum_plus. apply Rsum_ext. intros ph Hph. unfold node_cost. cbn [mp_ocp mp_orders mp_cf]. rewrite (C2 ph _ _ Hph).
  match goal with |- _ + ?S0 = alpha * (_ + ?S1) + beta * (_ + ?S2) + _ => assert (E : S0 = alpha * S1 + beta * S2); [|rewrite E; ring] end.
  rewrite <- !Rsum_scal, <- !Rsum_plus. apply Rsum_ext. intros k Hk. unfold seg_cost. cbn [mp_ocp mp_orders mp_cf].
  match goal with |- ?h * ?S0 = alpha * (_ * ?S1) + beta * (_ * ?S2) => assert (E : S0 = alpha * S1 + beta * S2); [|change (h * S0 = alpha * (h * S1) + beta * (h * S2)); rewrite E; ring] end.
  rewrite <- !Rsum_scal, <- !Rsum_plus. apply Rsum_ext. intros j Hj. unfold run_at. cbn [mp_ocp mp_orders mp_cf].
  match goal with |- ?om * ?r0 = alpha * (_ * ?r1) + beta * (_ * ?r2) => assert (E : r0 = alpha * r1 + beta * r2); [exact (C1 ph _ _ _ Hph)|change (om * r0 = alpha * (om * r1) + beta * (om * r2)); rewrite E; ring] end.
Qed.

(** ** problems shifted in time *)
Lemma ext_shift_back s b : ext_shift (- s) (ext_shift s b) = b.
Proof. destruct b as [ |a| | ]; cbn; auto. f_equal. ring. Qed.
Lemma within_shift s lo hi x : within lo hi x -> within (ext_shift s lo) (ext_shift s hi) (x + s).
Proof. intros [A B]. destruct lo, hi; cbn in *; split; cbn; try tauto; lra. Qed.
Lemma same_vars_sym o o' : same_vars o o' -> same_vars o' o.
Proof. intros []. constructor; symmetry; assumption. Qed.
Lemma later_sym s o o' : later s o o' -> later (- s) o' o.
Proof.
  intros H. assert (B : forall t, t + - s + s = t) by (intros; ring). pose proof (lt_same _ _ _ H) as Hv.
  constructor; try (symmetry; apply H; fail).
  - exact (same_vars_sym _ _ Hv).
  - intros ph f f' x u t a E E'. rewrite <- (B t) at 2. symmetry. exact (lt_dyn _ _ _ H ph f' f x u (t + - s) a E' E).
  - intros ph f f' x u t a E E'. rewrite <- (B t) at 2. symmetry. exact (lt_path _ _ _ H ph f' f x u (t + - s) a E' E).
  - intros ph f f' x u t a E E'. rewrite <- (B t) at 2. symmetry. exact (lt_run _ _ _ H ph f' f x u (t + - s) a E' E).
  - intros ph f f' xf tf x0 t0 a E E'. rewrite <- (B t0) at 2. rewrite <- (B tf) at 2. symmetry. exact (lt_term _ _ _ H ph f' f xf (tf + - s) x0 (t0 + - s) a E' E).
  - intros ph f f' xf tf x0 t0 a E E'. rewrite <- (B t0) at 2. rewrite <- (B tf) at 2. symmetry. exact (lt_mayer _ _ _ H ph f' f xf (tf + - s) x0 (t0 + - s) a E' E).
  - intros ph Hph. rewrite (sd_nph _ _ Hv) in Hph. destruct (lt_t0 _ _ _ H ph Hph) as [-> ->]. rewrite !ext_shift_back. auto.
  - intros ph Hph. rewrite (sd_nph _ _ Hv) in Hph. destruct (lt_tf _ _ _ H ph Hph) as [-> ->]. rewrite !ext_shift_back. auto.
Qed.
Lemma delay_back mp s y : same_traj mp (delay (- s) (delay s y)) y.
Proof. repeat split; auto; cbn; ring. Qed.
Section Later.
Variables (s : R) (o o' : ocp Rnum) (K : nat) (orders : list nat) (cf : ccfg Rnum) (npath nterm npath' nterm' : nat -> option nat).
Let mp := Mpo o K orders cf.
Let mp' := Mpo o' K orders cf.
Hypothesis Hok : ocp_ok o npath nterm.
Hypothesis Hok' : ocp_ok o' npath' nterm'.
Hypothesis Hl : later s o o'.
Variables (rs : list (list R)) (w : nat -> R) (ph : nat) (y : utraj).
Hypothesis Hph : (ph < o_nph o)%nat.
Lemma in_both {A} (l l' : list A) : length l = o_nph o -> length l' = o_nph o' -> exists f f', nth_error l ph = Some f /\ nth_error l' ph = Some f'.
Proof.
  intros L L'. rewrite (sd_nph _ _ (lt_same _ _ _ Hl)) in L'. destruct (nth_error l ph) as [f|] eqn:E; [|apply nth_error_None in E; lia].
  destruct (nth_error l' ph) as [f'|] eqn:E'; [|apply nth_error_None in E'; lia]. eauto.
Qed.
Lemma delay_h k : seg_h cf w (delay s y) k = seg_h cf w y k.
Proof. unfold seg_h, delay. cbn. f_equal. f_equal. ring. Qed.
Lemma delay_time k tau : seg_time cf w (delay s y) k tau = seg_time cf w y k tau + s.
Proof. unfold seg_time, seg_start. rewrite delay_h. unfold delay. cbn. ring. Qed.
Lemma delay_a : a_of o' (delay s y) = a_of o y.
Proof. unfold a_of. rewrite (sd_na _ _ (lt_same _ _ _ Hl)). reflexivity. Qed.
Lemma delay_dyn i t : dyn_val o' ph (delay s y) i (t + s) = dyn_val o ph y i t.
Proof.
  destruct (in_both (o_dyn o) (o_dyn o') (sh_dyn _ (ok_shapes _ _ _ Hok)) (sh_dyn _ (ok_shapes _ _ _ Hok'))) as (f & f' & E & E').
  unfold dyn_val. rewrite delay_a. destruct (lt_same _ _ _ Hl) as [E1 E2 _ _ _ _ _ _]. nred. rewrite E, E', E1, E2. rewrite (lt_dyn _ _ _ Hl ph f f' _ _ t _ E E'). reflexivity.
Qed.
Lemma delay_path i t : path_val o' ph (delay s y) i (t + s) = path_val o ph y i t.
Proof.
  destruct (in_both (o_path o) (o_path o') (sh_path _ (ok_shapes _ _ _ Hok)) (sh_path _ (ok_shapes _ _ _ Hok'))) as (f & f' & E & E').
  unfold path_val. rewrite delay_a. destruct (lt_same _ _ _ Hl) as [E1 E2 _ _ _ _ _ _]. nred. rewrite E, E', E1, E2. rewrite (lt_path _ _ _ Hl ph f f' _ _ t _ E E'). reflexivity.
Qed.
Lemma delay_run i t : run_val o' ph (delay s y) i (t + s) = run_val o ph y i t.
Proof.
  destruct (in_both (o_run o) (o_run o') (sh_run _ (ok_shapes _ _ _ Hok)) (sh_run _ (ok_shapes _ _ _ Hok'))) as (f & f' & E & E').
  unfold run_val. rewrite delay_a. destruct (lt_same _ _ _ Hl) as [E1 E2 _ _ _ _ _ _]. nred. rewrite E, E', E1, E2. rewrite (lt_run _ _ _ Hl ph f f' _ _ t _ E E'). reflexivity.
Qed.
Lemma delay_term la : term_val o' ph (delay s y) la = term_val o ph y la.
Proof.
  destruct (in_both (o_term o) (o_term o') (sh_term _ (ok_shapes _ _ _ Hok)) (sh_term _ (ok_shapes _ _ _ Hok'))) as (f & f' & E & E').
  unfold term_val. rewrite delay_a. destruct (lt_same _ _ _ Hl) as [E1 E2 _ _ _ _ _ _]. nred. rewrite E, E', E1.
  pose proof (lt_term _ _ _ Hl ph f f' (vec (o_nx o) (y_x y la)) (y_tf y) (vec (o_nx o) (y_x y 0)) (y_t0 y) (a_of o y) E E') as X. cbn [delay y_x y_tf y_t0]. nred. rewrite X. reflexivity.
Qed.
Lemma delay_mayer la : mayer_val o' ph (delay s y) la = mayer_val o ph y la.
Proof.
  destruct (in_both (o_mayer o) (o_mayer o') (sh_mayer _ (ok_shapes _ _ _ Hok)) (sh_mayer _ (ok_shapes _ _ _ Hok'))) as (f & f' & E & E').
  unfold mayer_val. rewrite delay_a. destruct (lt_same _ _ _ Hl) as [E1 E2 _ _ _ _ _ _]. nred. rewrite E, E', E1.
  pose proof (lt_mayer _ _ _ Hl ph f f' (vec (o_nx o) (y_x y la)) (y_tf y) (vec (o_nx o) (y_x y 0)) (y_t0 y) (a_of o y) E E') as X. cbn [delay y_x y_tf y_t0]. nred. rewrite X. reflexivity.
Qed.
Lemma later_bounds : bounds_ok mp ph y -> bounds_ok mp' ph (delay s y).
Proof.
  intros (A & B & C & D & E). destruct (lt_same _ _ _ Hl) as [E1 E2 E3 E4 _ _ _ _]. unfold bounds_ok in *. cbn [mp_ocp mp_orders mp mp'] in *.
  nred. rewrite E1, E2, E3, (lt_lbx _ _ _ Hl), (lt_ubx _ _ _ Hl), (lt_lbu _ _ _ Hl), (lt_ubu _ _ _ Hl), (lt_lba _ _ _ Hl), (lt_uba _ _ _ Hl).
  split; [|split; [exact B|split; [|split; [|exact E]]]].
  - intros i c Hi Hc. specialize (A i c Hi Hc). destruct (Nat.eqb ph 0 && Nat.eqb i 0); [|exact A].
    etransitivity; [exact A|exact (f_equal (fun l => nth c l 0) (eq_sym (lt_start _ _ _ Hl)))].
  - destruct (lt_t0 _ _ _ Hl ph Hph) as [X1 X2]. nred. rewrite X1, X2. apply within_shift. exact C.
  - destruct (lt_tf _ _ _ Hl ph Hph) as [X1 X2]. nred. rewrite X1, X2. apply within_shift. exact D.
Qed.
Lemma later_phase : phase_ok mp rs w ph y -> phase_ok mp' rs w ph (delay s y).
Proof.
  intros (A & B & C & D & E & F). destruct (lt_same _ _ _ Hl) as [E1 E2 E3 E4 E5 E6 E7 E8].
  split; [|split; [|split; [|split; [|split]]]]; unfold dynamics_ok, path_ok, slope_ok, midu_ok, ducont_ok, terminal_ok in *; cbn [mp_ocp mp_orders mp_cf mp mp'] in *; nred.
  - intros i k j c q Ho Hs Hc. rewrite delay_h, delay_time, delay_dyn. rewrite E1 in Hs. exact (A i k j c q Ho Hs Hc).
  - intros i k j c Ho Hc. rewrite delay_time, delay_path in Hc. exact (B i k j c Ho Hc).
  - rewrite (lt_diff_u _ _ _ Hl), (lt_lbdu _ _ _ Hl), (lt_ubdu _ _ _ Hl), E2, E6. exact C.
  - rewrite (lt_midu _ _ _ Hl), (lt_lbu _ _ _ Hl), (lt_ubu _ _ _ Hl), E2. exact D.
  - rewrite (lt_ducont _ _ _ Hl), E2. exact E.
  - rewrite delay_term. exact F.
Qed.
Lemma later_cost : node_cost mp' rs w ph (delay s y) = node_cost mp rs w ph y.
Proof.
  unfold node_cost. cbn [mp_ocp mp_orders mp_cf mp mp']. rewrite delay_mayer. f_equal. apply Rsum_ext. intros k Hk. unfold seg_cost. cbn [mp_ocp mp_orders mp_cf mp mp'].
  rewrite delay_h. f_equal. apply Rsum_ext. intros j Hj. unfold run_at. cbn [mp_ocp mp_orders mp_cf mp mp']. rewrite delay_time, delay_run. reflexivity.
Qed.
End Later.
Lemma later_links s o o' K orders cf ys : later s o o' -> links_ok (Mpo o K orders cf) ys -> links_ok (Mpo o' K orders cf) (fun ph => delay s (ys ph)).
Proof.
  intros Hl H Hn k i j Ek. destruct (lt_same _ _ _ Hl) as [E1 E2 E3 E4 _ _ _ _]. unfold links_ok, link_ok in *. cbn [mp_ocp mp_orders] in *. nred. rewrite (lt_links _ _ _ Hl) in Ek. rewrite E4 in Hn.
  rewrite E1, E2, (lt_lbe _ _ _ Hl), (lt_ube _ _ _ Hl). destruct (H Hn k i j Ek) as (A & B & C). split; [exact A|]. split; [exact B|]. cbn. nred. rewrite C. reflexivity.
Qed.
Theorem later_thm (mp : mpo Rnum) o' s npath nterm npath' nterm' z z' p : input_ok mp npath nterm z p -> ocp_ok o' npath' nterm' -> later s (mp_ocp mp) o' ->
  length z' = length z -> shifted s mp z z' ->
  exists n n', nlp_at mp z p = Ok n /\ nlp_at (Mpo o' (mp_nseg mp) (mp_orders mp) (mp_cf mp)) z' p = Ok n' /\ (feasible n <-> feasible n') /\ n_f n' = n_f n.
Proof.
  intros Hin Hok' Hl Hz' Hs. destruct mp as [o K orders cf]. cbn [mp_ocp mp_nseg mp_orders mp_cf] in *. pose proof (lt_same _ _ _ Hl) as Hv. pose proof (in_ocp _ _ _ _ _ Hin) as Hok. cbn [mp_ocp] in Hok.
  assert (Hin1 : input_ok (Mpo o K orders cf) npath nterm z' p).
  { destruct Hin as [H1 H2 H3 H4 H5]. constructor; auto. exact (eq_trans Hz' H4). }
  pose proof (input_same o o' K orders cf Hv _ _ _ _ z' p Hin1 Hok') as Hin'.
  set (y := user_traj (Mpo o K orders cf) z) in *.
  destruct (nlp_like _ _ _ _ _ y Hin (fun ph _ => same_refl _ _)) as (rs & n & R1 & R2 & Hlen & R3 & R4).
  destruct (nlp_like _ _ _ _ _ (fun ph => delay s (y ph)) Hin') as (rs' & n' & R1' & R2' & _ & R3' & R4').
  { intros ph Hph. rewrite (traj_same o o' K orders cf Hv). apply (same_same o o' K orders cf Hv). apply Hs. cbn [mp_ocp] in *. rewrite <- (sd_nph _ _ Hv). exact Hph. }
  cbn [mp_ocp mp_orders mp_cf] in *. assert (rs' = rs) as -> by (pose proof (eq_trans (eq_sym R1') R1) as X; injection X as X; exact X).
  exists n, n'. split; [exact R2|]. split; [exact R2'|]. pose proof (sd_nph _ _ Hv) as En. split.
  - rewrite R3, R3'. split; intros (A & B & C); (split; [|split]).
    + intros ph Hph. nred. rewrite En in Hph. apply (later_bounds s o o' K orders cf Hl ph (y ph) Hph). apply A. exact Hph.
    + intros ph Hph. nred. rewrite En in Hph. apply (later_phase s o o' K orders cf _ _ _ _ Hok Hok' Hl rs _ ph (y ph) Hph). apply B. exact Hph.
    + apply (later_links s o o'); [exact Hl|exact C].
    + intros ph Hph. pose proof Hph as Hph'. rewrite <- En in Hph'. apply (bounds_congr _ ph _ _ (delay_back (Mpo o K orders cf) s (y ph))).
      apply (later_bounds (- s) o' o K orders cf (later_sym _ _ _ Hl) ph (delay s (y ph)) Hph'). apply A. exact Hph'.
    + intros ph Hph. pose proof Hph as Hph'. rewrite <- En in Hph'. apply (phase_congr (Mpo o K orders cf) rs _ ph Hlen _ _ (delay_back (Mpo o K orders cf) s (y ph))).
      apply (later_phase (- s) o' o K orders cf _ _ _ _ Hok' Hok (later_sym _ _ _ Hl) rs _ ph (delay s (y ph)) Hph'). apply B. exact Hph'.
    + apply (links_congr (Mpo o K orders cf) (fun ph => delay (- s) (delay s (y ph)))); [right; exact (ok_links _ _ _ Hok)|intros; apply delay_back|].
      apply (later_links (- s) o' o K orders cf _ (later_sym _ _ _ Hl)). exact C.
  - nred. rewrite R4, R4', En. apply Rsum_ext. intros ph Hph. exact (later_cost s o o' K orders cf _ _ _ _ Hok Hok' Hl rs (width (Mpo o K orders cf) p ph) ph (y ph) Hph).
Qed.
(** every point has a shifted one *)
Lemma shifted_exists (mp : mpo Rnum) s npath nterm z p : input_ok mp npath nterm z p -> exists z', length z' = length z /\ shifted s mp z z'.
Proof.
  intros [H1 H2 H3 H4 H5]. exists (pack mp (fun ph => delay s (user_traj mp z ph))). split; [rewrite length_pack, H4; reflexivity|].
  intros ph Hph. apply (pack_traj mp (fun ph => delay s (user_traj mp z ph)) ph (ok_shapes _ _ _ H2) H3 Hph).
Qed.

(** what no feasible point of the relaxed, cheaper problem undercuts, no feasible point of the problem undercuts *)
Theorem bound_thm (mp : mpo Rnum) o' npath nterm npath' nterm' p L : mpo_ok mp -> ocp_ok (mp_ocp mp) npath nterm -> scales_pos (mp_ocp mp) ->
  ocp_ok o' npath' nterm' -> widths_ok (mp_nseg mp) (o_nph (mp_ocp mp)) p -> relaxed (mp_ocp mp) o' -> cheaper (mp_ocp mp) o' ->
  (forall (z : list R) n', length z = (o_nph (mp_ocp mp) * nvars mp)%nat -> nlp_at (Mpo o' (mp_nseg mp) (mp_orders mp) (mp_cf mp)) z p = Ok n' -> feasible n' -> L <= n_f n') ->
  forall (z : list R) n, length z = (o_nph (mp_ocp mp) * nvars mp)%nat ->
    (forall ph, (ph < o_nph (mp_ocp mp))%nat -> y_t0 (user_traj mp z ph) <= y_tf (user_traj mp z ph)) ->
    nlp_at mp z p = Ok n -> feasible n -> L <= n_f n.
Proof.
  intros Hm Hok Hs Hok' Hw Hr Hc HL z n Hz Ht En Hf.
  assert (Hin : input_ok mp npath nterm z p) by (constructor; auto; destruct Hw as [Hw _]; rewrite Nat.mul_comm; exact Hw).
  destruct (relax_thm mp o' _ _ _ _ z p Hin Hok' Hr) as (n1 & n1' & E1 & E1' & F1).
  destruct (cheaper_thm mp o' _ _ _ _ z p Hin Hok' (rl_same _ _ Hr) Hw Hc Ht) as (n2 & n2' & E2 & E2' & F2).
  assert (n1 = n) as -> by (pose proof (eq_trans (eq_sym E1) En) as X; injection X as X; exact X).
  assert (n2 = n) as -> by (pose proof (eq_trans (eq_sym E2) En) as X; injection X as X; exact X).
  assert (n2' = n1') as -> by (pose proof (eq_trans (eq_sym E2') E1') as X; injection X as X; exact X).
  exact (Rle_trans _ _ _ (HL z n1' Hz E1' (F1 Hf)) F2).
Qed.
