(** Which controls feasible points have (proofs of C87). *)
From Coq Require Import Reals Lia Lra Psatz Bool Arith String.
From Coquelicot Require Import Coquelicot.
From Coq Require Import List.
From Verif Require Import Num PyList Mat Poly Roots Colloc Ocp Transcribe Assign Spec SpecOcp SpecHadapt SpecSteer NumR ListR PolyR CollocR CompR CollocThm MeshR BlockR DiscR NlpR OcpR ScaleR NlpThm CostR BalanceR ExactR ConvexR TransR FillR.
Import ListNotations.
Open Scope R_scope.

(** the trajectory with other states *)
Definition restate (x : nat -> nat -> R) (y : utraj) : utraj := Utraj x (y_u y) (y_t0 y) (y_tf y) (y_a y).
Lemma vec_len n f : length (vec n f) = n.
Proof. unfold vec. rewrite map_length, seq_length. reflexivity. Qed.
Section Steer.
Variables (mp : mpo Rnum) (x : nat -> nat -> R) (y : utraj).
Hypothesis Hst : steered (mp_ocp mp).
Lemma dyn_restate i t : dyn_val (mp_ocp mp) 0 (restate x y) i t = dyn_val (mp_ocp mp) 0 y i t.
Proof. unfold dyn_val. destruct (nth_error (o_dyn (mp_ocp mp)) 0) as [f|] eqn:E; [|reflexivity]. rewrite (st_dyn _ Hst f _ (vec (o_nx (mp_ocp mp)) (y_x y i)) _ _ _ E (vec_len _ _) (vec_len _ _)). reflexivity. Qed.
Lemma path_restate i t : path_val (mp_ocp mp) 0 (restate x y) i t = path_val (mp_ocp mp) 0 y i t.
Proof. unfold path_val. destruct (nth_error (o_path (mp_ocp mp)) 0) as [f|] eqn:E; [|reflexivity]. rewrite (st_path _ Hst f _ (vec (o_nx (mp_ocp mp)) (y_x y i)) _ _ _ E (vec_len _ _) (vec_len _ _)). reflexivity. Qed.
Lemma term_restate l : term_val (mp_ocp mp) 0 (restate x y) l = term_val (mp_ocp mp) 0 y l.
Proof.
  unfold term_val. destruct (nth_error (o_term (mp_ocp mp)) 0) as [f|] eqn:E; [|reflexivity].
  rewrite (st_term _ Hst f _ (vec (o_nx (mp_ocp mp)) (y_x y l)) _ (vec (o_nx (mp_ocp mp)) (y_x y 0)) _ _ _ E (vec_len _ _) (vec_len _ _) (vec_len _ _) (vec_len _ _)). reflexivity.
Qed.
End Steer.
Lemma good_all (mp : mpo Rnum) npath nterm (z p : list R) rs : input_ok mp npath nterm z p -> mapM (c_roots (mp_cf mp)) (mp_orders mp) = Ok rs ->
  forall k, (k < length (mp_orders mp))%nat -> good_nodes (cf_tau0 (mp_cf mp)) (cf_tau1 (mp_cf mp)) (nth k (mp_orders mp) 0%nat) (nth k rs []).
Proof.
  intros [Hmp Hok Hsc Hz Hp] R1 k Hk. destruct (nlp_at_ok mp Hmp npath nterm Hok Hsc z p Hz Hp) as (rs0 & n0 & R0 & _ & Hlrs & Hgood & _).
  assert (rs0 = rs) as -> by (pose proof (eq_trans (eq_sym R0) R1) as X; injection X as X; exact X).
  apply (Hgood k); apply nth_error_nth'; [exact Hk|rewrite Hlrs; exact Hk].
Qed.
Lemma some_order (mp : mpo Rnum) : mpo_ok mp -> (0 < length (mp_orders mp))%nat.
Proof. intros Hmp. rewrite (mo_len _ Hmp). exact (mo_nseg _ Hmp). Qed.
Lemma h_nonzero (mp : mpo Rnum) (p : list R) ph y : mpo_ok mp -> widths_ok (mp_nseg mp) (o_nph (mp_ocp mp)) p -> (ph < o_nph (mp_ocp mp))%nat -> y_t0 y < y_tf y ->
  seg_h (mp_cf mp) (width mp p ph) y 0 <> 0.
Proof.
  intros Hmp Hw Hph Hy. assert (Hwp : 0 < width mp p ph 0) by (destruct (part_widths mp p Hmp Hw ph Hph) as [X _]; apply X; exact (some_order mp Hmp)).
  pose proof (co_taus _ (mo_cfg _ Hmp)) as Ht. unfold seg_h. apply Rmult_integral_contrapositive. split; [apply Rmult_integral_contrapositive; split; lra|]. apply Rinv_neq_0_compat. lra.
Qed.
Lemma low_of (mp : mpo Rnum) npath nterm (z p : list R) rs ph y : input_ok mp npath nterm z p -> mapM (c_roots (mp_cf mp)) (mp_orders mp) = Ok rs ->
  seg_h (mp_cf mp) (width mp p ph) y 0 <> 0 -> dynamics_ok mp rs (width mp p ph) ph y -> rates_low mp rs (width mp p ph) ph y.
Proof.
  intros Hin R1 Hh D s Hs. pose proof (some_order mp (in_mpo _ _ _ _ _ Hin)) as Hl0. pose proof (good_all mp npath nterm z p rs Hin R1 0%nat Hl0) as Hg.
  set (w := width mp p ph) in *. set (r := nth 0 rs []) in *. set (h := seg_h (mp_cf mp) w y 0) in *.
  assert (Hne : mp_orders mp <> []) by (intros E; rewrite E in Hl0; cbn in Hl0; lia).
  destruct (fill_needs (mp_orders mp) rs (cf_tau0 (mp_cf mp)) (cf_tau1 (mp_cf mp)) (fun _ j => h * nth s (dyn_val (mp_ocp mp) ph y j (seg_time (mp_cf mp) w y 0 (nth j r 0))) 0) (fun i => y_x y i s) Hne Hg) as (C & LC & EC).
  - intros j c Hj Hc. assert (Hoo : owned (mp_orders mp) j 0 j) by (exists (nth 0 (mp_orders mp) 0%nat); split; [apply nth_error_nth'; exact Hl0|]; split; [exact Hj|]; split; [left; reflexivity|rewrite offset_0; reflexivity]).
    exact (D j 0%nat j s c Hoo Hs Hc).
  - exists (@pscale Rnum (/ h)%R C). split; [rewrite length_pscale; exact LC|]. intros j Hj. rewrite peval_pscale, (EC j Hj). etransitivity; [symmetry; apply Rmult_assoc|]. rewrite (Rinv_l h Hh). apply Rmult_1_l.
Qed.
Theorem first_thm (mp : mpo Rnum) npath nterm (z p : list R) n ph : input_ok mp npath nterm z p -> widths_ok (mp_nseg mp) (o_nph (mp_ocp mp)) p -> nlp_at mp z p = Ok n -> feasible n ->
  (ph < o_nph (mp_ocp mp))%nat -> y_t0 (user_traj mp z ph) < y_tf (user_traj mp z ph) ->
  exists rs, mapM (c_roots (mp_cf mp)) (mp_orders mp) = Ok rs /\ rates_low mp rs (width mp p ph) ph (user_traj mp z ph).
Proof.
  intros Hin Hw En Hf Hph Hy. destruct (nlp_like _ _ _ _ _ (user_traj mp z) Hin (fun ph _ => same_refl _ _)) as (rs & m & R1 & R2 & _ & R3 & _).
  assert (m = n) as -> by (pose proof (eq_trans (eq_sym R2) En) as X; injection X as X; exact X). apply R3 in Hf. destruct Hf as (_ & Hp & _). destruct (Hp ph Hph) as (Hdyn & _).
  exists rs. split; [exact R1|]. apply (low_of mp npath nterm z p rs ph _ Hin R1); [|exact Hdyn]. apply h_nonzero; auto. exact (in_mpo _ _ _ _ _ Hin).
Qed.
Theorem steer_thm (mp : mpo Rnum) npath nterm (z p : list R) : input_ok mp npath nterm z p -> widths_ok (mp_nseg mp) (o_nph (mp_ocp mp)) p -> steered (mp_ocp mp) ->
  let y := user_traj mp z 0 in y_t0 y < y_tf y -> exists rs, mapM (c_roots (mp_cf mp)) (mp_orders mp) = Ok rs /\
  ((exists (z' : list R) n', length z' = length z /\ nlp_at mp z' p = Ok n' /\ feasible n' /\ same_steering mp y (user_traj mp z' 0)) <->
   steering_ok mp rs (width mp p 0) y /\ rates_low mp rs (width mp p 0) 0 y).
Proof.
  intros Hin Hw Hst y Hy. pose proof (st_one _ Hst) as N1. pose proof (in_mpo _ _ _ _ _ Hin) as Hmp.
  destruct (nlp_like _ _ _ _ _ (user_traj mp z) Hin (fun ph _ => same_refl _ _)) as (rs & m & R1 & R2 & Hlen & _). exists rs. split; [exact R1|].
  assert (Hph : (0 < o_nph (mp_ocp mp))%nat) by (rewrite N1; lia). pose proof (h_nonzero mp p 0 y Hmp Hw Hph Hy) as Hh. pose proof (good_all mp npath nterm z p rs Hin R1) as Hg.
  set (w := width mp p 0) in *. split.
  - intros (z' & n' & Lz & En & Hf & S1 & S2 & S3 & S4). set (y' := user_traj mp z' 0) in *.
    assert (Hin' : input_ok mp npath nterm z' p) by (destruct Hin as [H1 H2 H3 H4 H5]; constructor; [exact H1|exact H2|exact H3|exact (eq_trans Lz H4)|exact H5]).
    set (y1 := restate (y_x y') y).
    assert (HS : same_traj mp y' y1) by (split; [intros; reflexivity|]; split; [intros i c Hi Hc; exact (eq_sym (S1 i c Hi Hc))|]; split; [exact (eq_sym S2)|]; split; [exact (eq_sym S3)|intros i Hi; exact (eq_sym (S4 i Hi))]).
    destruct (nlp_like _ _ _ _ _ (user_traj mp z') Hin' (fun ph _ => same_refl _ _)) as (rs' & m' & R1' & R2' & _ & R3' & _).
    assert (m' = n') as -> by (pose proof (eq_trans (eq_sym R2') En) as X; injection X as X; exact X). assert (rs' = rs) as -> by (pose proof (eq_trans (eq_sym R1') R1) as X; injection X as X; exact X).
    apply R3' in Hf. destruct Hf as (HB & HP & _). destruct (bounds_congr mp 0 y' y1 HS (HB 0%nat Hph)) as (_ & B2 & B3 & B4 & B5).
    destruct (phase_congr mp rs w 0 Hlen y' y1 HS (HP 0%nat Hph)) as (P1 & P2 & P3 & P4 & P5 & P6). split.
    + split; [exact B2|]. split; [exact B3|]. split; [exact B4|]. split; [exact B5|]. split; [|split; [exact P3|]; split; [exact P4|]; split; [exact P5|]].
      * intros i k j c Hoo Hc. apply (P2 i k j c Hoo). unfold y1. rewrite (path_restate mp _ y Hst). exact Hc.
      * intros c Hc. apply (P6 c). unfold y1. rewrite (term_restate mp _ y Hst). exact Hc.
    + intros s Hs. destruct (low_of mp npath nterm z p rs 0 y1 Hin R1 Hh P1 s Hs) as (c & Lc & Ec). exists c. split; [exact Lc|]. intros j Hj. rewrite (Ec j Hj). unfold y1. rewrite (dyn_restate mp _ y Hst). reflexivity.
  - intros ((B2 & B3 & B4 & B5 & P2 & P3 & P4 & P5 & P6) & Hlow). pose proof (some_order mp Hmp) as Hl0.
    assert (Hne : mp_orders mp <> []) by (intros E; rewrite E in Hl0; cbn in Hl0; lia).
    destruct (finite_choice (fun s Q => Q 0%nat = nth s (nth 0 (o_x00 (mp_ocp mp)) []) 0 /\ forall i k j c, owned (mp_orders mp) i k j -> seg_interp (mp_orders mp) k (nth k rs []) Q c ->
        is_derive (peval c) (nth j (nth k rs []) 0) (seg_h (mp_cf mp) w y k * nth s (dyn_val (mp_ocp mp) 0 y (offset (mp_orders mp) k + j) (seg_time (mp_cf mp) w y k (nth j (nth k rs []) 0))) 0)) (fun _ => 0) (o_nx (mp_ocp mp))) as (Q & HQ).
    { intros s Hs. destruct (Hlow s Hs) as (C & LC & EC).
      apply (fill_state (mp_orders mp) rs (cf_tau0 (mp_cf mp)) (cf_tau1 (mp_cf mp)) (fun k j => seg_h (mp_cf mp) w y k * nth s (dyn_val (mp_ocp mp) 0 y (offset (mp_orders mp) k + j) (seg_time (mp_cf mp) w y k (nth j (nth k rs []) 0))) 0) _ Hne (mo_pos _ Hmp) Hg).
      exists (@pscale Rnum (seg_h (mp_cf mp) w y 0) C). split; [rewrite length_pscale; exact LC|]. intros j Hj. rewrite peval_pscale, (EC j Hj), offset_0. reflexivity. }
    set (y1 := restate (fun i s => Q s i) y). set (z' := pack mp (fun _ => y1)).
    assert (Lz : length z' = (o_nph (mp_ocp mp) * nvars mp)%nat) by (unfold z'; rewrite length_pack; reflexivity).
    assert (Hin' : input_ok mp npath nterm z' p) by (destruct Hin as [H1 H2 H3 H4 H5]; constructor; [exact H1|exact H2|exact H3|exact Lz|exact H5]).
    assert (Hpk : forall ph, (ph < o_nph (mp_ocp mp))%nat -> same_traj mp (user_traj mp z' ph) ((fun _ => y1) ph)) by (intros ph Hp; exact (pack_traj mp (fun _ => y1) ph (ok_shapes _ _ _ (in_ocp _ _ _ _ _ Hin)) (in_sc _ _ _ _ _ Hin) Hp)).
    destruct (nlp_like _ _ _ _ _ _ Hin' Hpk) as (rs' & n' & R1' & R2' & _ & R3' & _). assert (rs' = rs) as -> by (pose proof (eq_trans (eq_sym R1') R1) as X; injection X as X; exact X).
    exists z', n'. split; [exact (eq_trans Lz (eq_sym (in_z _ _ _ _ _ Hin)))|]. split; [exact R2'|]. split.
    + apply R3'. split; [|split].
      * intros ph Hp. assert (ph = 0)%nat as -> by (rewrite N1 in Hp; lia). split; [|split; [exact B2|]; split; [exact B3|]; split; [exact B4|exact B5]].
        intros i s Hi Hs. destruct i as [|i]; [exact (proj1 (HQ s Hs))|]. exact (st_free _ Hst s _ Hs).
      * intros ph Hp. assert (ph = 0)%nat as -> by (rewrite N1 in Hp; lia). fold w. split; [|split; [|split; [exact P3|]; split; [exact P4|]; split; [exact P5|]]].
        -- intros i k j s c Hoo Hs Hc. unfold y1. rewrite (dyn_restate mp _ y Hst). pose proof (proj2 (HQ s Hs) i k j c Hoo Hc) as X. destruct Hoo as (q & _ & _ & _ & ->). exact X.
        -- intros i k j c Hoo Hc. unfold y1 in Hc. rewrite (path_restate mp _ y Hst) in Hc. exact (P2 i k j c Hoo Hc).
        -- intros c Hc. unfold y1 in Hc. rewrite (term_restate mp _ y Hst) in Hc. exact (P6 c Hc).
      * intros X. rewrite N1 in X. lia.
    + destruct (Hpk 0%nat Hph) as (_ & E2 & E3 & E4 & E5). split; [intros i c Hi Hc; symmetry; exact (E2 i c Hi Hc)|]. split; [symmetry; exact E3|]. split; [symmetry; exact E4|intros i Hi; symmetry; exact (E5 i Hi)].
Qed.
