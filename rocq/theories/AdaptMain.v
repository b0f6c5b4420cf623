(** Variable segment widths: relation to the program with fixed widths, solving, trajectories and
    initial guess (proofs). *)
From Coq Require Import String.
From Coq Require Import Reals.
From Coquelicot Require Import Coquelicot.
From Coq Require Import List Lia Lra Bool Arith.
From Verif Require Import Num PyList Mat Poly Roots Colloc Ocp Transcribe Solve Adaptive Spec SpecOcp SpecSolve SpecHadapt SpecResid SpecAdapt
  NumR ListR PolyR CollocR CompR CollocThm MeshR BlockR DiscR NlpR NlpThm NlpMain GuessR CostR ScaleR SolveR GridR ResidR AdaptR AdaptPh AdaptThm.
Import ListNotations.
Open Scope R_scope.

(** ** a point with its widths and the point of the program with fixed widths *)
Section Point.
Variable mp : mpo Rnum.
Local Notation o := (mp_ocp mp).
Local Notation orders := (mp_orders mp).
Lemma same_entries z z0 ph : (forall i, (i < nvars mp)%nat -> nth (ph * ad_nvars mp + i) z 0 = nth (ph * nvars mp + i) z0 0) ->
  same_traj mp (ad_traj mp z ph) (user_traj mp z0 ph).
Proof.
  intros H. assert (Env : nvars mp = (total_nodes orders * o_nx o + total_nodes orders * o_nu o + 2 + o_na o)%nat) by reflexivity.
  assert (G : forall i, (i < nvars mp)%nat -> nth i (skipn (ph * ad_nvars mp) z) 0 = nth (ph * nvars mp + i) z0 0).
  { intros i Hi. rewrite nth_skipn. apply H. exact Hi. }
  unfold same_traj, ad_traj, user_traj. cbn [y_x y_u y_t0 y_tf y_a Nat.mul Nat.add]. repeat split; intros; unfold Rdiv; f_equal.
  - rewrite G by nia. f_equal. lia.
  - rewrite G by nia. f_equal. lia.
  - rewrite G by nia. f_equal. lia.
  - rewrite G by nia. f_equal. lia.
  - rewrite G by nia. f_equal. lia.
Qed.
(** every point of either program has a partner *)
Lemma ad_split z : length z = (o_nph o * ad_nvars mp)%nat -> exists z0 p,
  length z0 = (o_nph o * nvars mp)%nat /\ length p = (o_nph o * mp_nseg mp)%nat /\
  forall ph, (ph < o_nph o)%nat -> same_traj mp (ad_traj mp z ph) (user_traj mp z0 ph) /\
    forall k, (k < mp_nseg mp)%nat -> ad_width mp z ph k = width mp p ph k.
Proof.
  intros Hz. set (f := fun ph => firstn (nvars mp) (skipn (ph * ad_nvars mp) z)).
  set (g := fun ph => firstn (mp_nseg mp) (skipn (ph * ad_nvars mp + nvars mp) z)).
  assert (Lf : forall ph, (ph < o_nph o)%nat -> length (f ph) = nvars mp).
  { intros ph Hph. unfold f. rewrite firstn_length, skipn_length. unfold ad_nvars in *. nred. nia. }
  assert (Lg : forall ph, (ph < o_nph o)%nat -> length (g ph) = mp_nseg mp).
  { intros ph Hph. unfold g. rewrite firstn_length, skipn_length. unfold ad_nvars in *. nred. nia. }
  exists (flat_map f (seq 0 (o_nph o))), (flat_map g (seq 0 (o_nph o))).
  split; [|split]; [rewrite (length_flat_map_const f (nvars mp)), seq_length; [reflexivity|intros a Ha; apply in_seq in Ha; apply Lf; lia]|
    rewrite (length_flat_map_const g (mp_nseg mp)), seq_length; [reflexivity|intros a Ha; apply in_seq in Ha; apply Lg; lia]|].
  intros ph Hph. split.
  - apply same_entries. intros i Hi. rewrite (nth_flat_map_const f (nvars mp) (seq 0 (o_nph o)) 0 0%nat);
      [|intros a Ha; apply in_seq in Ha; apply Lf; lia|rewrite seq_length; exact Hph|exact Hi].
    rewrite seq_nth by exact Hph. cbn [Nat.add]. unfold f. rewrite nth_firstn_lt, nth_skipn by exact Hi. reflexivity.
  - intros k Hk. unfold ad_width, width. rewrite (nth_flat_map_const g (mp_nseg mp) (seq 0 (o_nph o)) 0 0%nat);
      [|intros a Ha; apply in_seq in Ha; apply Lg; lia|rewrite seq_length; exact Hph|exact Hk].
    rewrite seq_nth by exact Hph. cbn [Nat.add]. unfold g. rewrite nth_firstn_lt, nth_skipn by exact Hk. reflexivity.
Qed.
Lemma ad_join z0 p : length z0 = (o_nph o * nvars mp)%nat -> length p = (o_nph o * mp_nseg mp)%nat -> exists z,
  length z = (o_nph o * ad_nvars mp)%nat /\
  forall ph, (ph < o_nph o)%nat -> same_traj mp (ad_traj mp z ph) (user_traj mp z0 ph) /\
    forall k, (k < mp_nseg mp)%nat -> ad_width mp z ph k = width mp p ph k.
Proof.
  intros Hz Hp. set (f := fun ph => firstn (nvars mp) (skipn (ph * nvars mp) z0) ++ firstn (mp_nseg mp) (skipn (ph * mp_nseg mp) p)).
  assert (L1 : forall ph, (ph < o_nph o)%nat -> length (firstn (nvars mp) (skipn (ph * nvars mp) z0)) = nvars mp).
  { intros ph Hph. rewrite firstn_length, skipn_length. nred. nia. }
  assert (Lf : forall ph, (ph < o_nph o)%nat -> length (f ph) = ad_nvars mp).
  { intros ph Hph. unfold f. rewrite app_length, (L1 ph Hph), firstn_length, skipn_length. unfold ad_nvars. nred. nia. }
  exists (flat_map f (seq 0 (o_nph o))).
  split; [rewrite (length_flat_map_const f (ad_nvars mp)), seq_length; [reflexivity|intros a Ha; apply in_seq in Ha; apply Lf; lia]|].
  assert (G : forall ph i, (ph < o_nph o)%nat -> (i < ad_nvars mp)%nat -> nth (ph * ad_nvars mp + i) (flat_map f (seq 0 (o_nph o))) 0 = nth i (f ph) 0).
  { intros ph i Hph Hi. rewrite (nth_flat_map_const f (ad_nvars mp) (seq 0 (o_nph o)) 0 0%nat);
      [|intros a Ha; apply in_seq in Ha; apply Lf; lia|rewrite seq_length; exact Hph|exact Hi].
    rewrite seq_nth by exact Hph. reflexivity. }
  intros ph Hph. split.
  - apply same_entries. intros i Hi. rewrite G by (unfold ad_nvars; auto with arith). unfold f. rewrite app_nth1 by (rewrite L1; auto).
    rewrite nth_firstn_lt, nth_skipn by exact Hi. reflexivity.
  - intros k Hk. unfold ad_width, width. rewrite <- Nat.add_assoc, G by (unfold ad_nvars; auto with arith). unfold f.
    rewrite app_nth2; rewrite (L1 ph Hph); [|lia]. replace (nvars mp + k - nvars mp)%nat with k by lia.
    rewrite nth_firstn_lt, nth_skipn by exact Hk. reflexivity.
Qed.
End Point.

(** the constraints depend on the widths of the segments only *)
Section Widths.
Variables (mp : mpo Rnum) (rs : list (list R)) (w w' : nat -> R) (ph : nat) (y : utraj).
Local Notation orders := (mp_orders mp).
Hypothesis Hw : forall k, (k < length orders)%nat -> w k = w' k.
Lemma seg_h_w k : (k < length orders)%nat -> seg_h (mp_cf mp) w y k = seg_h (mp_cf mp) w' y k.
Proof. intros Hk. unfold seg_h. rewrite Hw by exact Hk. reflexivity. Qed.
Lemma seg_time_w k tau : (k < length orders)%nat -> seg_time (mp_cf mp) w y k tau = seg_time (mp_cf mp) w' y k tau.
Proof.
  intros Hk. unfold seg_time, seg_start. rewrite seg_h_w by exact Hk. assert (E : Rsum k w = Rsum k w') by (apply Rsum_ext; intros i Hi; apply Hw; lia). rewrite E. reflexivity.
Qed.
Lemma own_lt i k j : owned orders i k j -> (k < length orders)%nat.
Proof. intros (q & Hq & _). apply nth_error_Some. congruence. Qed.
Lemma dynamics_w : dynamics_ok mp rs w ph y -> dynamics_ok mp rs w' ph y.
Proof. intros H i k j s c Ho Hs Hc. pose proof (own_lt _ _ _ Ho). rewrite <- seg_h_w, <- seg_time_w by assumption. apply H; auto. Qed.
Lemma path_w : path_ok mp rs w ph y -> path_ok mp rs w' ph y.
Proof. intros H i k j c Ho. pose proof (own_lt _ _ _ Ho). rewrite <- seg_time_w by assumption. apply H; auto. Qed.
Lemma run_at_w k j : (k < length orders)%nat -> run_at mp rs w ph y k j = run_at mp rs w' ph y k j.
Proof. intros Hk. unfold run_at. rewrite seg_time_w by exact Hk. reflexivity. Qed.
Lemma cost_interp_w C : cost_interp mp rs w ph y C -> cost_interp mp rs w' ph y C.
Proof. intros H k Hk. destruct (H k Hk) as [H1 H2]. split; [exact H1|]. intros j Hj. rewrite <- run_at_w by exact Hk. auto. Qed.
Lemma phase_cost_w C : phase_cost mp w ph y C = phase_cost mp w' ph y C.
Proof. unfold phase_cost. f_equal. apply Rsum_ext. intros k Hk. rewrite seg_h_w by exact Hk. reflexivity. Qed.
Lemma start_cost_w B : start_cost mp rs w ph y B = start_cost mp rs w' ph y B.
Proof. unfold start_cost. apply Rsum_ext. intros k Hk. rewrite seg_h_w, run_at_w by lia. reflexivity. Qed.
End Widths.

Section Main.
Variables (ac : acfg Rnum) (mp : mpo Rnum) (npath nterm : nat -> option nat) (z : list R).
Local Notation o := (mp_ocp mp).
Local Notation cf := (mp_cf mp).
Local Notation orders := (mp_orders mp).
Hypothesis Hin : ad_input_ok ac mp npath nterm z.

Lemma ad_feasible : exists rs n, mapM (c_roots cf) orders = Ok rs /\ a_nlp_at ac mp z = Ok n /\ c_g (n_x n) = z /\
  (feasible n <-> (forall ph, (ph < o_nph o)%nat -> let w := ad_width mp z ph in let y := ad_traj mp z ph in
                     bounds_ok mp ph y /\ width_bounds_ok ac mp w ph /\ ad_phase_ok ac mp rs w ph y) /\
                  links_ok mp (ad_traj mp z)).
Proof.
  pose proof Hin as [Hmp Hok Hsc _ _ _ _].
  destruct (a_nlp_at_ok ac mp npath nterm Hsc Hok z Hin) as (rs & n & E1 & E2 & _ & _ & E3 & _ & _ & _ & E4 & E5 & _).
  exists rs, n. split; [exact E1|]. split; [exact E2|]. split; [exact E3|]. unfold feasible. rewrite E4, E5. split.
  - intros (A & B & C). split; [|exact C]. intros ph Hph. destruct (A ph Hph). auto.
  - intros (A & C). split; [|split; [|exact C]]; intros ph Hph; destruct (A ph Hph) as (A1 & A2 & A3); auto.
Qed.
Lemma ad_sizes : exists n, a_nlp_at ac mp z = Ok n /\ length (c_g (n_x n)) = (o_nph o * ad_nvars mp)%nat /\
  balanced (n_x n) /\ balanced (n_g n) /\
  length (c_g (n_g n)) = (fold_right Nat.add 0%nat (map (fun ph => ad_rows ac mp ph npath nterm) (seq 0 (o_nph o))) + link_rows o)%nat.
Proof.
  pose proof Hin as [Hmp Hok Hsc Hz _ _ _].
  destruct (a_nlp_at_ok ac mp npath nterm Hsc Hok z Hin) as (rs & n & E1 & E2 & _ & _ & E3 & E4 & E5 & E6 & _).
  exists n. split; [exact E2|]. split; [nred; rewrite E3; exact Hz|]. auto.
Qed.

(** against the program whose widths are fixed to those of the point *)
Lemma ad_vs_fixed z0 p : length z0 = (o_nph o * nvars mp)%nat -> length p = (o_nph o * mp_nseg mp)%nat ->
  (forall ph, (ph < o_nph o)%nat -> same_traj mp (ad_traj mp z ph) (user_traj mp z0 ph) /\
     forall k, (k < mp_nseg mp)%nat -> ad_width mp z ph k = width mp p ph k) ->
  exists rs n n0, mapM (c_roots cf) orders = Ok rs /\ a_nlp_at ac mp z = Ok n /\ nlp_at mp z0 p = Ok n0 /\ n_f n = n_f n0 /\
    ((forall ph, (ph < o_nph o)%nat -> nth ph (o_ducont o) false = false) ->
     (feasible n <-> feasible n0 /\
       forall ph, (ph < o_nph o)%nat -> let w := ad_width mp z ph in let y := ad_traj mp z ph in
         width_sum_ok mp w /\ width_bounds_ok ac mp w ph /\ mid_controls_ok mp rs ph y /\ mid_states_ok mp rs ph y /\ mid_defects_ok ac mp rs w ph y)).
Proof.
  intros Hz0 Hp Hs. pose proof Hin as [Hmp Hok Hsc Hz _ _ _].
  destruct (a_nlp_at_ok ac mp npath nterm Hsc Hok z Hin) as (rs & n & Q1 & Q2 & Q3 & Q4 & _ & _ & _ & _ & Q5 & Q6 & Q7).
  destruct (nlp_at_ok mp Hmp npath nterm Hok Hsc z0 p Hz0 Hp) as (rs0 & n0 & R1 & R2 & _ & _ & _ & _ & _ & _ & R5 & R6 & R7).
  assert (rs0 = rs) by (nred; congruence). subst rs0.
  exists rs, n, n0. split; [exact Q1|]. split; [exact Q2|]. split; [exact R2|].
  assert (Hlen : forall k q, nth_error orders k = Some q -> length (nth k rs []) = S q).
  { intros k q Hk. assert (Hkl : (k < length rs)%nat) by (rewrite Q3; apply nth_error_Some; congruence).
    destruct (Q4 k q (nth k rs []) Hk (nth_error_nth' _ _ Hkl)) as (A & _). exact A. }
  set (y := ad_traj mp z) in *. set (y0 := user_traj mp z0) in *.
  assert (Hns := mo_len _ Hmp).
  assert (S1 : forall ph, (ph < o_nph o)%nat -> same_traj mp (y ph) (y0 ph)) by (intros ph Hph; apply (Hs ph Hph)).
  assert (S2 : forall ph, (ph < o_nph o)%nat -> same_traj mp (y0 ph) (y ph)) by (intros ph Hph; apply same_sym; auto).
  assert (W1 : forall ph, (ph < o_nph o)%nat -> forall k, (k < length orders)%nat -> ad_width mp z ph k = width mp p ph k).
  { intros ph Hph k Hk. apply (proj2 (Hs ph Hph)). lia. }
  assert (W2 : forall ph, (ph < o_nph o)%nat -> forall k, (k < length orders)%nat -> width mp p ph k = ad_width mp z ph k).
  { intros ph Hph k Hk. symmetry. auto. }
  split.
  - destruct (CostR.cost_polys_exist mp npath nterm z0 p (Build_input_ok _ _ _ _ _ Hmp Hok Hsc Hz0 Hp) rs R1) as (C & B & HC & HB).
    rewrite (R7 C B HC HB). rewrite (Q7 C B); [| |exact HB].
    + apply Rsum_ext. intros ph Hph. fold y y0.
      rewrite (phase_cost_eq mp _ ph (y ph) (y0 ph)) by auto. rewrite (start_cost_eq mp rs _ ph Hlen (y ph) (y0 ph)) by auto.
      rewrite (phase_cost_w mp _ _ ph (y0 ph) (W1 ph Hph)), (start_cost_w mp rs _ _ ph (y0 ph) (W1 ph Hph)). reflexivity.
    + intros ph Hph. apply (cost_interp_congr mp rs _ ph Hlen (y0 ph)); auto. apply (cost_interp_w mp rs _ _ ph (y0 ph) (W2 ph Hph)). auto.
  - intros Hdu. unfold feasible. rewrite Q5, Q6, R5, R6. clear Q5 Q6 R5 R6. fold y y0. split.
    + intros (A & B & C). split; [split; [|split]|].
      * intros ph Hph. apply (bounds_congr mp ph (y ph)); auto. apply A. exact Hph.
      * intros ph Hph. destruct (B ph Hph) as (B1 & B2 & B3 & B4 & _ & B6 & _).
        apply (phase_congr mp rs (width mp p ph) ph Hlen (y ph)); auto.
        split; [exact (dynamics_w mp rs _ _ ph _ (W1 ph Hph) B1)|]. split; [exact (path_w mp rs _ _ ph _ (W1 ph Hph) B2)|].
        split; [exact B3|]. split; [intros _; exact B6|]. split; [|exact B4]. intros Hon. rewrite (Hdu ph Hph) in Hon. discriminate.
      * apply (links_congr mp y y0); auto. right. exact (ok_links _ _ _ Hok).
      * intros ph Hph. destruct (B ph Hph) as (_ & _ & _ & _ & B5 & B6 & B7 & B8). destruct (A ph Hph) as (_ & A2). auto.
    + intros ((A & B & C) & D). split; [|split].
      * intros ph Hph. split; [|destruct (D ph Hph) as (_ & D2 & _); exact D2]. apply (bounds_congr mp ph (y0 ph)); auto.
      * intros ph Hph. pose proof (phase_congr mp rs (width mp p ph) ph Hlen (y0 ph) (y ph) (S2 ph Hph) (B ph Hph)) as (B1 & B2 & B3 & _ & _ & B6).
        destruct (D ph Hph) as (D1 & D2 & D3 & D4 & D5).
        split; [exact (dynamics_w mp rs _ _ ph _ (W2 ph Hph) B1)|]. split; [exact (path_w mp rs _ _ ph _ (W2 ph Hph) B2)|]. repeat (split; [assumption|]). exact D5.
      * apply (links_congr mp y0 y); auto. right. exact (ok_links _ _ _ Hok).
Qed.

(** ** trajectories *)
Lemma a_trajectories_ok ph : (ph < o_nph o)%nat ->
  exists rs tr, mapM (c_roots cf) orders = Ok rs /\ a_trajectories mp ph z = Ok tr /\
    traj_scaled mp tr (ad_traj mp z ph) /\
    tr_t0 tr = y_t0 (ad_traj mp z ph) /\ tr_tf tr = y_tf (ad_traj mp z ph) /\
    length (tr_t tr) = total_nodes orders /\
    (forall i k j, owned orders i k j -> nth i (tr_t tr) 0 =
       node_time cf (ad_width mp z ph) (ad_traj mp z ph) k (nth j (nth k rs []) 0)).
Proof.
  intros Hph. pose proof Hin as [Hmp Hok Hsc Hz _ _ _].
  set (z0 := repeat 0 (o_nph o * nvars mp)). set (p := repeat 0 (o_nph o * mp_nseg mp)).
  assert (Hin0 : input_ok mp npath nterm z0 p) by (constructor; auto; apply repeat_length).
  destruct (setup mp npath nterm z0 p Hin0) as (rs & ap & Ers & Eap & Hseg & Hlrs & Hgood & Htaus & HrD & HcD & HD).
  set (y := ad_traj mp z ph). set (w := ad_width mp z ph).
  assert (Hrep : rep mp (fst (a_unpack mp z ph)) y) by (eapply a_unpack_rep; eauto).
  assert (Hw : forall k, (k < length orders)%nat -> at_ (snd (a_unpack mp z ph)) k = Ok (w k)) by (eapply sw_at; eauto).
  destruct (mesh_nodes mp Hmp rs (snd (a_unpack mp z ph)) w y Hlrs Hgood Hw) as (nodes & E & Hl & Hn).
  unfold a_trajectories. destruct (a_unpack mp z ph) as [v sw]. cbn [fst snd] in *.
  assert (Ht0 : un_t mp (v_t0 v) = y_t0 y).
  { unfold un_t. nred. pose proof (rp_t0 _ _ _ Hrep) as E0. pose proof (sp_t _ Hsc). nred. rewrite E0. field. lra. }
  assert (Htf : un_t mp (v_tf v) = y_tf y).
  { unfold un_t. nred. pose proof (rp_tf _ _ _ Hrep) as E0. pose proof (sp_t _ Hsc). nred. rewrite E0. field. lra. }
  exists rs. eexists. split; [exact Ers|]. split.
  { rewrite Eap. cbn [bind]. rewrite Htaus, Ht0, Htf. nred. rewrite E. cbn [bind]. reflexivity. }
  cbn [tr_t0 tr_tf tr_t]. split.
  { destruct Hrep as [H1 H2 H3 H4 H5 H6 H7 _ _ H8]. unfold traj_scaled. cbn [tr_x tr_u tr_a]. auto 10. }
  repeat (split; [reflexivity|]). split; [rewrite map_length; exact Hl|].
  intros i k j Ho. specialize (Hn i k j Ho).
  etransitivity; [apply (nth_error_nth _ _ _ (map_nth_error nd_t _ _ Hn))|].
  rewrite node_time_seg by (apply (co_taus _ (mo_cfg _ Hmp))). reflexivity.
Qed.
End Main.

(** ** initial guess *)
Lemma a_guess_ok mp : mpo_ok mp -> shapes_ok (mp_ocp mp) -> exists z z0,
  a_initialize_solution mp = Ok z /\ initialize_solution mp = Ok z0 /\ length z = (o_nph (mp_ocp mp) * ad_nvars mp)%nat /\
  forall ph, (ph < o_nph (mp_ocp mp))%nat -> same_traj mp (ad_traj mp z ph) (user_traj mp z0 ph) /\
    forall k, (k < mp_nseg mp)%nat -> ad_width mp z ph k = 1 / INR (mp_nseg mp).
Proof.
  intros Hmp Hsh. destruct (guess_ex mp Hmp Hsh) as (zs & E & Hl & Hn). set (o := mp_ocp mp) in *.
  set (g := repeat (1 / INR (mp_nseg mp)) (mp_nseg mp)).
  assert (Ea : mapM (a_init_solution_per_phase mp) (seq 0 (o_nph o)) = Ok (map (fun a => a ++ g) zs)).
  { clear Hl Hn. revert zs E. generalize (seq 0 (o_nph o)) as l. induction l as [|a l IH]; intros zs E.
    - injection E as <-. reflexivity.
    - cbn [mapM] in E |- *. unfold a_init_solution_per_phase at 1. destruct (init_solution_per_phase mp a) as [za|]; [cbn [bind] in E |- *|discriminate].
      destruct (mapM (init_solution_per_phase mp) l) as [zl|]; [cbn [bind] in E |- *|discriminate]. injection E as <-.
      rewrite (IH zl eq_refl). cbn [bind map]. unfold g. rewrite nofnat_R. nred. reflexivity. }
  exists (List.concat (map (fun a => a ++ g) zs)), (List.concat zs). unfold a_initialize_solution, initialize_solution. fold o.
  split; [exact (f_equal (fun m => bind m (fun zs => Ok (List.concat zs))) Ea)|].
  split; [exact (f_equal (fun m => bind m (fun zs => Ok (List.concat zs))) E)|].
  assert (Hall : forall a, In a zs -> length a = nvars mp).
  { intros a Ha. destruct (In_nth _ _ [] Ha) as (k & Hk & <-). apply Hn. nred. lia. }
  assert (Hall2 : forall a, In a zs -> length (a ++ g) = ad_nvars mp).
  { intros a Ha. rewrite app_length, Hall by auto. unfold g. rewrite repeat_length. reflexivity. }
  assert (Ec : List.concat (map (fun a => a ++ g) zs) = flat_map (fun a => a ++ g) zs) by (symmetry; apply flat_map_concat_map).
  assert (Ec0 : List.concat zs = flat_map (fun a => a) zs) by (rewrite flat_map_concat_map, map_id; reflexivity).
  split; [rewrite Ec; etransitivity; [apply (length_flat_map_const _ (ad_nvars mp)); exact Hall2|]; nred; f_equal; exact Hl|].
  assert (G : forall ph i, (ph < o_nph o)%nat -> (i < ad_nvars mp)%nat ->
     nth (ph * ad_nvars mp + i) (List.concat (map (fun a => a ++ g) zs)) 0 = nth i (nth ph zs [] ++ g) 0).
  { intros ph i Hph Hi. rewrite Ec. apply (nth_flat_map_const (fun a => a ++ g) (ad_nvars mp) zs 0 []); auto. nred. lia. }
  intros ph Hph. destruct (Hn ph Hph) as [_ Hlp]. split.
  - apply same_entries. intros i Hi. rewrite G by (unfold ad_nvars; auto with arith). rewrite app_nth1 by (nred; lia).
    rewrite Ec0. symmetry. apply (nth_flat_map_const (fun a => a) (nvars mp) zs 0 []); auto. nred. lia.
  - intros k Hk. unfold ad_width. rewrite <- Nat.add_assoc, G by (unfold ad_nvars; auto with arith).
    rewrite app_nth2 by (nred; lia). nred. rewrite Hlp. replace (nvars mp + k - nvars mp)%nat with k by lia.
    unfold g. apply nth_repeat_in. exact Hk.
Qed.

(** ** solving *)
Lemma a_warm_spec {N : num} (mp : mpo N) (s : sdict) r : a_warm_start mp (Some s) = Ok r ->
  exists g, (last_entry s ["x"; "x0"]%string = None -> a_initialize_solution mp = Ok g) /\ warm_ok s g r.
Proof.
  unfold a_warm_start. cbn [bind]. unfold dmem. pose proof (warm_copies s "x0") as K0. cbn in K0.
  assert (G : forall k, dget String.eqb (fold_left (@warm_copy N) s []) k =
     if String.eqb k "x0" then last_entry s ["x"; "x0"]%string else if String.eqb k "lam_x0" then last_entry s ["lam_x"; "lam_x0"]%string
     else if String.eqb k "lam_g0" then last_entry s ["lam_g"; "lam_g0"]%string else None).
  { intros k. rewrite warm_copies. unfold targets. destruct (String.eqb k "x0"); [reflexivity|]. destruct (String.eqb k "lam_x0"); [reflexivity|].
    destruct (String.eqb k "lam_g0"); [reflexivity|]. apply last_entry_no. }
  rewrite K0. destruct (last_entry s ["x"; "x0"]%string) as [v|] eqn:El.
  - intros [= <-]. exists []. split; [discriminate|]. intros k. rewrite G. destruct (String.eqb k "x0"); [now rewrite El|reflexivity].
  - destruct (a_initialize_solution mp) as [z|e]; [|discriminate]. cbn [bind]. intros [= <-]. exists z. split; [auto|].
    intros k. rewrite dget_dset, G. destruct (String.eqb k "x0"); [now rewrite El|reflexivity].
Qed.
Lemma a_warm_none {N : num} (mp : mpo N) r : a_warm_start mp None = Ok r <-> exists z, a_initialize_solution mp = Ok z /\ r = [("x0"%string, z)].
Proof.
  unfold a_warm_start. destruct (a_initialize_solution mp) as [z|e]; cbn; split; intros H; try discriminate.
  - injection H as <-. eauto.
  - destruct H as (z' & [= ->] & ->). reflexivity.
  - destruct H as (z' & H & _). discriminate.
Qed.
Lemma a_widths_ok mp x ws : a_widths mp x = Ok ws -> length x = (o_nph (mp_ocp mp) * ad_nvars mp)%nat /\
  length ws = (o_nph (mp_ocp mp) * mp_nseg mp)%nat /\
  forall ph k, (ph < o_nph (mp_ocp mp))%nat -> (k < mp_nseg mp)%nat -> width mp ws ph k = ad_width mp x ph k.
Proof.
  unfold a_widths. rewrite zlen_nvars. fold (ad_nvars mp). destruct (Nat.eqb_spec (length x) (o_nph (mp_ocp mp) * ad_nvars mp)) as [Hx|]; [|discriminate].
  intros [= <-]. split; [exact Hx|].
  assert (L : forall ph, (ph < o_nph (mp_ocp mp))%nat -> length (snd (a_unpack mp x ph)) = mp_nseg mp).
  { intros ph Hph. unfold a_unpack. cbn [snd]. rewrite zlen_nvars. fold (ad_nvars mp). rewrite firstn_length, !skipn_length. nred. unfold ad_nvars in *. nia. }
  split; [rewrite (length_flat_map_const _ (mp_nseg mp)), seq_length; [reflexivity|]; intros a Ha; apply in_seq in Ha; apply L; lia|].
  intros ph k Hph Hk. unfold width.
  etransitivity; [apply (nth_flat_map_const (fun ph => snd (a_unpack mp x ph)) (mp_nseg mp) (seq 0 (o_nph (mp_ocp mp))) 0 0%nat);
      [intros a Ha; apply in_seq in Ha; apply L; lia|rewrite seq_length; exact Hph|exact Hk]|].
  rewrite seq_nth by exact Hph. cbn [Nat.add]. unfold a_unpack. cbn [snd]. rewrite zlen_nvars. fold (ad_nvars mp).
  rewrite nth_firstn_lt, !nth_skipn by exact Hk. unfold ad_width. f_equal. lia.
Qed.
Lemma dat_get {V} (d : list (string * V)) k v : dat String.eqb d k = Ok v -> dget String.eqb d k = Some v.
Proof. unfold dat. destruct (dget String.eqb d k) as [v'|]; [|discriminate]. intros H. injection H as ->. reflexivity. Qed.
Lemma a_solve_ok (E : env (N := Rnum)) mp a s s' sol : a_solve mp E a s = (s', Ok sol) ->
  exists c x ws, st_calls s' = st_calls s ++ [c] /\ ca_out c = Ok sol /\ a_warm_start mp (a_init a) = Ok (ca_in c) /\
    st_solver s' = Some (ca_solver c) /\ st_dicts s' = st_dicts s /\
    ca_solver c = match st_solver s with
                  | Some v => if a_reinit a then Nlpsol (a_solver a) (solver_options (a_solver a) (dict_at s (a_nopts a))) else v
                  | None => Nlpsol (a_solver a) (solver_options (a_solver a) (dict_at s (a_nopts a))) end /\
    dget String.eqb sol "x"%string = Some x /\ st_sw s' = Some ws /\
    length x = (o_nph (mp_ocp mp) * ad_nvars mp)%nat /\ length ws = (o_nph (mp_ocp mp) * mp_nseg mp)%nat /\
    forall ph k, (ph < o_nph (mp_ocp mp))%nat -> (k < mp_nseg mp)%nat -> width mp ws ph k = ad_width mp x ph k.
Proof.
  intros H. unfold a_solve in H. apply mbind_inv in H. destruct H as [(s0 & s1 & H0 & H)|(e & _ & H)]; [|discriminate].
  injection H0 as <- <-. apply mbind_inv in H. destruct H as [(u & s1 & H0 & H)|(e & _ & H)]; [|discriminate].
  assert (K : st_dicts s1 = st_dicts s /\ st_calls s1 = st_calls s /\
    st_solver s1 = Some (match st_solver s with
                  | Some v => if a_reinit a then Nlpsol (a_solver a) (solver_options (a_solver a) (dict_at s (a_nopts a))) else v
                  | None => Nlpsol (a_solver a) (solver_options (a_solver a) (dict_at s (a_nopts a))) end)).
  { destruct (st_solver s) as [v|] eqn:Ev; [destruct (a_reinit a)|]; [| |];
    try (apply create_inv in H0; destruct H0 as (K1 & K2 & _ & K4); auto).
    injection H0 as <- <-. auto. }
  destruct K as (K1 & K2 & K3). clear H0.
  apply mbind_inv in H. destruct H as [(i & s2 & H0 & H)|(e & _ & H)]; [|discriminate]. injection H0 as <- Ei.
  apply mbind_inv in H. destruct H as [(v & s2 & H0 & H)|(e & _ & H)]; [|discriminate].
  unfold current_solver, mbind, get in H0. rewrite K3 in H0. injection H0 as <- Ev.
  apply mbind_inv in H. destruct H as [(sol' & s2 & H0 & H)|(e & _ & H)]; [|discriminate].
  unfold call_solver in H0. injection H0 as H0 Eo.
  apply mbind_inv in H. destruct H as [(x & s3 & H1 & H)|(e & _ & H)]; [|discriminate]. injection H1 as <- Ex.
  apply mbind_inv in H. destruct H as [(ws & s3 & H1 & H)|(e & _ & H)]; [|discriminate]. injection H1 as <- Ew.
  apply mbind_inv in H. destruct H as [(u' & s3 & H1 & H)|(e & _ & H)]; [|discriminate]. injection H1 as <- _.
  injection H as <- <-.
  destruct (a_widths_ok mp x ws Ew) as (A & B & C).
  eexists _, x, ws. subst s2. cbn [set_sw st_calls st_solver st_dicts st_sw].
  rewrite K2. split; [reflexivity|]. cbn [ca_out ca_in ca_solver]. split; [rewrite <- K2; exact Eo|]. split; [exact Ei|].
  subst v. rewrite K3. split; [reflexivity|]. split; [exact K1|]. split; [reflexivity|].
  split; [exact (dat_get _ _ _ Ex)|auto].
Qed.

(** ** switches *)
Lemma a_switches ac mp npath nterm z : ad_input_ok ac mp npath nterm z -> exists rs n,
  mapM (c_roots (mp_cf mp)) (mp_orders mp) = Ok rs /\ a_nlp_at ac mp z = Ok n /\
  (feasible n -> forall ph, (ph < o_nph (mp_ocp mp))%nat -> slope_ok mp rs ph (ad_traj mp z ph) /\ midu_ok mp rs ph (ad_traj mp z ph)).
Proof.
  intros Hin. destruct (ad_feasible ac mp npath nterm z Hin) as (rs & n & E1 & E2 & _ & E3). exists rs, n. split; [exact E1|]. split; [exact E2|].
  intros Hf ph Hph. apply E3 in Hf. destruct Hf as [Hf _]. destruct (Hf ph Hph) as (_ & _ & _ & _ & A & _ & _ & B & _). split; [exact A|]. intros _. exact B.
Qed.
Lemma base_switches mp npath nterm z p : input_ok mp npath nterm z p -> exists rs n,
  mapM (c_roots (mp_cf mp)) (mp_orders mp) = Ok rs /\ nlp_at mp z p = Ok n /\
  (feasible n -> forall ph, (ph < o_nph (mp_ocp mp))%nat ->
     slope_ok mp rs ph (user_traj mp z ph) /\ midu_ok mp rs ph (user_traj mp z ph) /\ ducont_ok mp rs ph (user_traj mp z ph)).
Proof.
  intros [Hmp Hok Hsc Hz Hp].
  destruct (nlp_at_ok mp Hmp npath nterm Hok Hsc z p Hz Hp) as (rs & n & R1 & R2 & _ & _ & _ & _ & _ & _ & _ & R6 & _).
  exists rs, n. split; [exact R1|]. split; [exact R2|]. intros [_ Hf] ph Hph. apply R6 in Hf. destruct Hf as [Hf _].
  destruct (Hf ph Hph) as (_ & _ & A & B & C & _). auto.
Qed.

(** ** the values of the attributes after __init__ *)
Lemma ad_defaults mp npath nterm z : mpo_ok mp -> ocp_ok (mp_ocp mp) npath nterm -> scales_pos (mp_ocp mp) ->
  length z = (o_nph (mp_ocp mp) * ad_nvars mp)%nat ->
  let o := mp_ocp mp in
  exists rs n, mapM (c_roots (mp_cf mp)) (mp_orders mp) = Ok rs /\ a_nlp_at (default_acfg (N := Rnum) (o_nph o)) mp z = Ok n /\
  (feasible n <-> (forall ph, (ph < o_nph o)%nat -> let w := ad_width mp z ph in let y := ad_traj mp z ph in
     bounds_ok mp ph y /\ (forall k, (k < length (mp_orders mp))%nat -> 1 / 10000 <= w k <= 1) /\
     dynamics_ok mp rs w ph y /\ path_ok mp rs w ph y /\ slope_ok mp rs ph y /\ terminal_ok mp ph y /\ width_sum_ok mp w /\
     mid_controls_ok mp rs ph y /\ mid_states_ok mp rs ph y /\
     (forall k p j s cx cu, nth_error (mp_orders mp) k = Some p -> (j < p)%nat -> (s < o_nx o)%nat -> seg_polys mp rs y k cx cu ->
       Rabs (w k * (nth s (o_scale_x o) 0 * defect mp w ph y k cx cu s (middle rs k j))) <= 1 / 1000)) /\
   links_ok mp (ad_traj mp z)).
Proof.
  intros Hm Hok Hsc Hz o.
  assert (Hin : ad_input_ok (default_acfg (N := Rnum) (o_nph o)) mp npath nterm z) by (constructor; auto; apply repeat_length).
  destruct (ad_feasible _ mp npath nterm z Hin) as (rs & n & E1 & E2 & _ & E3). exists rs, n. split; [exact E1|]. split; [exact E2|].
  apply (iff_trans E3). fold o.
  assert (RT : forall (x : R) d ph, (ph < o_nph o)%nat -> nth ph (repeat x (o_nph o)) d = x) by (intros x d ph Hph; apply nth_repeat_in; exact Hph).
  assert (RE : forall (x d : ext R) ph, (ph < o_nph o)%nat -> nth ph (repeat x (o_nph o)) d = x) by (intros x d ph Hph; apply nth_repeat_in; exact Hph).
  assert (WB : forall ph (w : nat -> R), (ph < o_nph o)%nat -> (width_bounds_ok (default_acfg (N := Rnum) (o_nph o)) mp w ph <-> forall k, (k < length (mp_orders mp))%nat -> 1 / 10000 <= w k <= 1)).
  { intros ph w Hph. unfold width_bounds_ok, default_acfg. cbn [ac_lbh ac_ubh]. rewrite !(RE _ _ ph Hph), nlit_R. split; intros H k Hk; specialize (H k Hk); unfold within, above, below in *; nred; lra. }
  split; intros [A B]; (split; [|exact B]); intros ph Hph; specialize (A ph Hph); cbv zeta in *; destruct A as (A1 & A2 & A3).
  - split; [exact A1|]. split; [exact (proj1 (WB ph (ad_width mp z ph) Hph) A2)|]. destruct A3 as (D1 & D2 & D3 & D4 & D5 & D6 & D7 & D8). do 7 (split; [assumption|]).
    intros k p j s cx cu Hk Hj Hs Hp. specialize (D8 eq_refl k p j s cx cu Hk Hj Hs Hp). cbn [default_acfg ac_tol] in D8. rewrite (RT _ _ ph Hph), nlit_R in D8. exact D8.
  - split; [exact A1|]. split; [exact (proj2 (WB ph (ad_width mp z ph) Hph) A2)|]. destruct A3 as (D1 & D2 & D3 & D4 & D5 & D6 & D7 & D8). unfold ad_phase_ok. do 7 (split; [assumption|]).
    intros _ k p j s cx cu Hk Hj Hs Hp. cbn [default_acfg ac_tol]. rewrite (RT _ _ ph Hph), nlit_R. exact (D8 k p j s cx cu Hk Hj Hs Hp).
Qed.
