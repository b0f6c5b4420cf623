(** Trajectories as decision vectors; scaling (proofs of C18). *)
From Coq Require Import Reals Lia Lra Bool Arith String.
From Coquelicot Require Import Coquelicot.
From Coq Require Import List.
From Verif Require Import Num PyList Mat Poly Roots Colloc Ocp Transcribe Spec SpecOcp NumR ListR PolyR CollocR CompR CollocThm MeshR BlockR DiscR NlpR OcpR NlpThm CostR.
Import ListNotations.
Open Scope R_scope.

Lemma nth_map_seq {A} (f : nat -> A) n i d : (i < n)%nat -> nth i (map f (seq 0 n)) d = f i.
Proof. intros Hi. rewrite (nth_indep _ d (f 0%nat)) by (rewrite map_length, seq_length; auto). rewrite map_nth, seq_nth by auto. reflexivity. Qed.
(** ** every trajectory has a decision vector *)
Section Pack.
Variable mp : mpo Rnum.
Let o := mp_ocp mp.
Let n := total_nodes (mp_orders mp).
Definition pack_vars (y : utraj) : pvars Rnum :=
  Pvars (Mat (N := Rnum) n (o_nx o) (fun i s => y_x y i s * nth s (o_scale_x o) 0))
        (Mat (N := Rnum) n (o_nu o) (fun i c => y_u y i c * nth c (o_scale_u o) 0))
        (y_t0 y * o_scale_t o) (y_tf y * o_scale_t o)
        (map (fun i => y_a y i * nth i (o_scale_a o) 0) (seq 0 (o_na o))).
Definition pack (ys : nat -> utraj) : list R := flat_map (fun ph => phase_vec (pack_vars (ys ph))) (seq 0 (o_nph o)).
Lemma pack_vars_ok y : vars_ok mp (pack_vars y).
Proof. unfold vars_ok, pack_vars. cbn. rewrite map_length, seq_length. auto. Qed.
Lemma length_pack ys : length (pack ys) = (o_nph o * nvars mp)%nat.
Proof.
  unfold pack. rewrite (length_flat_map_const _ (nvars mp)); [rewrite seq_length; reflexivity|].
  intros. apply length_phase_vec, pack_vars_ok.
Qed.
Lemma pack_traj ys ph : shapes_ok o -> scales_pos o -> (ph < o_nph o)%nat -> same_traj mp (user_traj mp (pack ys) ph) (ys ph).
Proof.
  intros Hsh Hsc Hph.
  assert (Hn : forall i, (i < nvars mp)%nat -> nth (ph * nvars mp + i) (pack ys) 0 = nth i (phase_vec (pack_vars (ys ph))) 0).
  { intros i Hi. unfold pack. rewrite (nth_flat_map_const _ (nvars mp) _ _ 0%nat); auto.
    - rewrite seq_nth by auto. reflexivity.
    - intros. apply length_phase_vec, pack_vars_ok.
    - rewrite seq_length; auto. }
  assert (Env : nvars mp = (n * o_nx o + n * o_nu o + 2 + o_na o)%nat) by reflexivity.
  pose proof (pack_vars_ok (ys ph)) as Hv.
  assert (Px : forall s, (s < o_nx o)%nat -> nth s (o_scale_x o) 0 <> 0).
  { intros s Hs. pose proof (sp_x _ Hsc (nth s (o_scale_x o) 0) ltac:(apply nth_In; pose proof (sh_sx _ Hsh); nred; lia)). lra. }
  assert (Pu : forall s, (s < o_nu o)%nat -> nth s (o_scale_u o) 0 <> 0).
  { intros s Hs. pose proof (sp_u _ Hsc (nth s (o_scale_u o) 0) ltac:(apply nth_In; pose proof (sh_su _ Hsh); nred; lia)). lra. }
  assert (Pa : forall s, (s < o_na o)%nat -> nth s (o_scale_a o) 0 <> 0).
  { intros s Hs. pose proof (sp_a _ Hsc (nth s (o_scale_a o) 0) ltac:(apply nth_In; pose proof (sh_sa _ Hsh); nred; lia)). lra. }
  pose proof (sp_t _ Hsc) as Pt.
  unfold same_traj, user_traj. cbn [y_x y_u y_t0 y_tf y_a]. fold o n. repeat split; intros.
  - rewrite <- Nat.add_assoc, Hn by nia. pose proof (nth_pv_X mp _ i s Hv H H0) as E. fold n in E. rewrite E.
    unfold pack_vars; cbn [v_X mget]; nred. field. auto.
  - rewrite <- !Nat.add_assoc, Hn by nia. pose proof (nth_pv_U mp _ i c Hv H H0) as E. fold n o in E.
    rewrite <- Nat.add_assoc in E. rewrite E. unfold pack_vars; cbn [v_U mget]; nred. field. auto.
  - rewrite <- !Nat.add_assoc, Hn by nia. pose proof (nth_pv_rest mp _ 0 Hv) as E. fold n o in E. rewrite Nat.add_0_r in E.
    rewrite E. unfold pack_vars; cbn [app nth v_t0]; nred. field. nred. lra.
  - rewrite <- !Nat.add_assoc, Hn by nia. pose proof (nth_pv_rest mp _ 1 Hv) as E. fold n o in E.
    rewrite Nat.add_assoc, E. unfold pack_vars; cbn [app nth v_tf]; nred. field. nred. lra.
  - rewrite <- !Nat.add_assoc, Hn by nia. pose proof (nth_pv_rest mp _ (2 + i) Hv) as E. fold n o in E.
    rewrite Nat.add_assoc, E. unfold pack_vars; cbn [app plus nth v_A]; nred.
    etransitivity; [apply f_equal2; [apply nth_map_seq; exact H|reflexivity]|]. cbn beta. nred. field. auto.
Qed.
End Pack.

(** ** the discretised problem depends on the trajectory's values only *)
Lemma same_sym mp y y' : same_traj mp y y' -> same_traj mp y' y.
Proof. intros (A & B & C & D & E). repeat split; intros; symmetry; auto. Qed.
Lemma same_trans mp y y' y'' : same_traj mp y y' -> same_traj mp y' y'' -> same_traj mp y y''.
Proof. intros (A & B & C & D & E) (A' & B' & C' & D' & E'). repeat split; intros; first [rewrite A by auto; apply A'; auto|rewrite B by auto; apply B'; auto|congruence|rewrite E by auto; apply E'; auto]. Qed.
Section Congr.
Variables (mp : mpo Rnum) (rs : list (list R)) (w : nat -> R) (ph : nat).
Let o := mp_ocp mp.
Let orders := mp_orders mp.
Let n := total_nodes orders.
Hypothesis Hlen : forall k p, nth_error orders k = Some p -> length (nth k rs []) = S p.

Section Two.
Variables (y y' : utraj).
Hypothesis Hs : same_traj mp y y'.
Lemma vec_x i : (i < n)%nat -> vec (o_nx o) (y_x y i) = vec (o_nx o) (y_x y' i).
Proof. intros Hi. apply map_ext_in. intros s Hin. apply in_seq in Hin. apply Hs; auto. unfold o in *. lia. Qed.
Lemma vec_u i : (i < n)%nat -> vec (o_nu o) (y_u y i) = vec (o_nu o) (y_u y' i).
Proof. intros Hi. apply map_ext_in. intros s Hin. apply in_seq in Hin. apply Hs; auto. unfold o in *. lia. Qed.
Lemma a_of_eq : a_of o y = a_of o y'.
Proof.
  unfold a_of. destruct (Nat.eqb_spec (o_na o) 0); [reflexivity|]. f_equal. apply map_ext_in.
  intros s Hin. apply in_seq in Hin. apply Hs. unfold o in *. lia.
Qed.
Lemma seg_h_eq k : seg_h (mp_cf mp) w y k = seg_h (mp_cf mp) w y' k.
Proof. destruct Hs as (_ & _ & H1 & H2 & _). unfold seg_h. rewrite H1, H2. reflexivity. Qed.
Lemma seg_time_eq k tau : seg_time (mp_cf mp) w y k tau = seg_time (mp_cf mp) w y' k tau.
Proof. destruct Hs as (_ & _ & H1 & H2 & _). unfold seg_time, seg_start. rewrite seg_h_eq, H1, H2. reflexivity. Qed.
Lemma dyn_val_eq i t : (i < n)%nat -> dyn_val o ph y i t = dyn_val o ph y' i t.
Proof. intros Hi. unfold dyn_val. rewrite vec_x, vec_u, a_of_eq by auto. reflexivity. Qed.
Lemma path_val_eq i t : (i < n)%nat -> path_val o ph y i t = path_val o ph y' i t.
Proof. intros Hi. unfold path_val. rewrite vec_x, vec_u, a_of_eq by auto. reflexivity. Qed.
Lemma run_val_eq i t : (i < n)%nat -> run_val o ph y i t = run_val o ph y' i t.
Proof. intros Hi. unfold run_val. rewrite vec_x, vec_u, a_of_eq by auto. reflexivity. Qed.
Lemma n_pos : (0 < n)%nat.
Proof. unfold n, total_nodes. lia. Qed.
Lemma term_val_eq : term_val o ph y (n - 1) = term_val o ph y' (n - 1).
Proof.
  pose proof n_pos. unfold term_val. rewrite !vec_x, a_of_eq by lia. destruct Hs as (_ & _ & H1 & H2 & _). rewrite H1, H2. reflexivity.
Qed.
Lemma mayer_val_eq : mayer_val o ph y (n - 1) = mayer_val o ph y' (n - 1).
Proof.
  pose proof n_pos. unfold mayer_val. rewrite !vec_x, a_of_eq by lia. destruct Hs as (_ & _ & H1 & H2 & _). rewrite H1, H2. reflexivity.
Qed.
Lemma seg_idx k j : (k < length orders)%nat -> (j < length (nth k rs []))%nat -> (offset orders k + j < n)%nat.
Proof.
  intros Hk Hj. destruct (nth_error orders k) as [q|] eqn:Eq; [|apply nth_error_None in Eq; lia].
  rewrite (Hlen _ _ Eq) in Hj. pose proof (offset_S _ _ _ Eq). pose proof (offset_mono orders (S k) (length orders) Hk).
  unfold n, total_nodes. lia.
Qed.
Lemma seg_interp_eq k (f g : nat -> R) c : (forall i, (i < n)%nat -> f i = g i) -> (k < length orders)%nat ->
  seg_interp orders k (nth k rs []) f c -> seg_interp orders k (nth k rs []) g c.
Proof.
  intros Hfg Hk [H1 H2]. split; [exact H1|]. intros j Hj. rewrite H2 by auto. apply Hfg. apply seg_idx; auto.
Qed.
Lemma bounds_congr : bounds_ok mp ph y -> bounds_ok mp ph y'.
Proof.
  destruct Hs as (S1 & S2 & S3 & S4 & S5). intros (A & B & C & D & E). repeat split.
  - intros i s Hi Hx. rewrite <- S1 by auto. exact (A i s Hi Hx).
  - rewrite <- S2 by auto. apply B; auto.
  - rewrite <- S2 by auto. apply B; auto.
  - rewrite <- S3. apply C.
  - rewrite <- S3. apply C.
  - rewrite <- S4. apply D.
  - rewrite <- S4. apply D.
  - rewrite <- S5 by auto. apply E; auto.
  - rewrite <- S5 by auto. apply E; auto.
Qed.
End Two.
Lemma dynamics_congr y y' : same_traj mp y y' -> dynamics_ok mp rs w ph y -> dynamics_ok mp rs w ph y'.
Proof.
  intros Hs H i k j s c Ho Hx Hc. pose proof (owned_lt _ _ _ _ Ho) as Hi. pose proof (owned_seg mp i k j Ho) as Hk.
  rewrite <- (seg_h_eq y y' Hs), <- (seg_time_eq y y' Hs), <- (dyn_val_eq y y' Hs) by auto.
  apply (H i k j s c Ho Hx). apply (seg_interp_eq k (fun i => y_x y' i s)); auto. intros i' Hi'. symmetry. apply Hs; auto.
Qed.
Lemma path_congr y y' : same_traj mp y y' -> path_ok mp rs w ph y -> path_ok mp rs w ph y'.
Proof.
  intros Hs H i k j c Ho Hc. pose proof (owned_lt _ _ _ _ Ho) as Hi. apply (H i k j c Ho).
  rewrite (seg_time_eq y y' Hs), (path_val_eq y y' Hs) by auto. exact Hc.
Qed.
Lemma terminal_congr y y' : same_traj mp y y' -> terminal_ok mp ph y -> terminal_ok mp ph y'.
Proof.
  intros Hs H c Hc. apply H. pose proof (term_val_eq y y' Hs) as E. unfold n, orders, o in E. rewrite E. exact Hc.
Qed.
Lemma midu_congr y y' : same_traj mp y y' -> midu_ok mp rs ph y -> midu_ok mp rs ph y'.
Proof.
  intros Hs H Hon k p j q c Hk Hj Hq Hc. apply (H Hon k p j q c Hk Hj Hq).
  apply (seg_interp_eq k (fun i => y_u y' i q)); auto; [|apply nth_error_Some; unfold orders; congruence].
  intros i Hi. symmetry. apply Hs; auto.
Qed.
Lemma slope_congr y y' : same_traj mp y y' -> slope_ok mp rs ph y -> slope_ok mp rs ph y'.
Proof.
  intros Hs H Hon i k j q c Ho Hq Hc. apply (H Hon i k j q c Ho Hq).
  apply (seg_interp_eq k (fun i => y_u y' i q)); auto; [|exact (owned_seg mp i k j Ho)].
  intros i' Hi. symmetry. apply Hs; auto.
Qed.
Lemma ducont_congr y y' : same_traj mp y y' -> ducont_ok mp rs ph y -> ducont_ok mp rs ph y'.
Proof.
  intros Hs H Hon k q c c' Hk Hq Hc Hc'. apply (H Hon k q c c' Hk Hq).
  - apply (seg_interp_eq k (fun i => y_u y' i q)); auto; [|unfold orders; lia]. intros i Hi. symmetry. apply Hs; auto.
  - apply (seg_interp_eq (S k) (fun i => y_u y' i q)); auto. intros i Hi. symmetry. apply Hs; auto.
Qed.
Lemma phase_congr y y' : same_traj mp y y' -> phase_ok mp rs w ph y -> phase_ok mp rs w ph y'.
Proof.
  intros Hs (A & B & C & D & E & F). split; [|split; [|split; [|split; [|split]]]].
  - exact (dynamics_congr y y' Hs A).
  - exact (path_congr y y' Hs B).
  - exact (slope_congr y y' Hs C).
  - exact (midu_congr y y' Hs D).
  - exact (ducont_congr y y' Hs E).
  - exact (terminal_congr y y' Hs F).
Qed.
Lemma run_at_eq y y' k j : same_traj mp y y' -> (k < length orders)%nat -> (j < length (nth k rs []))%nat ->
  run_at mp rs w ph y k j = run_at mp rs w ph y' k j.
Proof. intros Hs Hk Hj. unfold run_at. rewrite (seg_time_eq y y' Hs), (run_val_eq y y' Hs); auto. apply seg_idx; auto. Qed.
Lemma cost_interp_congr y y' C : same_traj mp y y' -> cost_interp mp rs w ph y C -> cost_interp mp rs w ph y' C.
Proof.
  intros Hs H k Hk. destruct (H k Hk) as [H1 H2]. split; [exact H1|]. intros j Hj. rewrite <- (run_at_eq y y'); auto.
Qed.
Lemma phase_cost_eq y y' C : same_traj mp y y' -> phase_cost mp w ph y C = phase_cost mp w ph y' C.
Proof.
  intros Hs. unfold phase_cost. pose proof (mayer_val_eq y y' Hs) as E. unfold n, orders, o in E. rewrite E. f_equal.
  apply Rsum_ext. intros k Hk. rewrite (seg_h_eq y y' Hs). reflexivity.
Qed.
Lemma start_cost_eq y y' B : same_traj mp y y' -> start_cost mp rs w ph y B = start_cost mp rs w ph y' B.
Proof.
  intros Hs. unfold start_cost. apply Rsum_ext. intros k Hk. rewrite (seg_h_eq y y' Hs), (run_at_eq y y'); auto.
  - unfold orders. lia.
  - destruct (nth_error orders (S k)) as [q|] eqn:Eq; [rewrite (Hlen _ _ Eq); lia|apply nth_error_None in Eq; unfold orders in *; lia].
Qed.
End Congr.
Lemma links_congr mp ys ys' : ocp_ok (mp_ocp mp) (fun _ => None) (fun _ => None) \/ (forall i j, In (i, j) (o_links (mp_ocp mp)) -> (i < o_nph (mp_ocp mp))%nat /\ (j < o_nph (mp_ocp mp))%nat) ->
  (forall ph, (ph < o_nph (mp_ocp mp))%nat -> same_traj mp (ys ph) (ys' ph)) -> links_ok mp ys -> links_ok mp ys'.
Proof.
  intros Hl Hs H Hn k i j Hk. destruct (H Hn k i j Hk) as (A & B & C).
  assert (Hij : (i < o_nph (mp_ocp mp))%nat /\ (j < o_nph (mp_ocp mp))%nat).
  { destruct Hl as [Hl|Hl]; [apply (ok_links _ _ _ Hl)|apply Hl]; eapply nth_error_In; eauto. }
  destruct Hij as [Hi Hj]. destruct (Hs i Hi) as (I1 & I2 & I3 & I4 & _). destruct (Hs j Hj) as (J1 & J2 & J3 & J4 & _).
  assert (Hn0 : (0 < total_nodes (mp_orders mp))%nat) by (unfold total_nodes; lia).
  split; [|split].
  - intros s Hx. rewrite <- I1, <- J1 by (auto; lia). apply A; auto.
  - intros c Hc. rewrite <- I2, <- J2 by (auto; lia). apply B; auto.
  - rewrite <- J3, <- I4. exact C.
Qed.

(** ** scaling *)
Lemma rescale_ok mp npath nterm z p sx su sa st z1 : input_ok mp npath nterm z p -> scales_for (mp_ocp mp) sx su sa st ->
  length z1 = length z -> input_ok (with_ocp mp (rescale (mp_ocp mp) sx su sa st)) npath nterm z1 p.
Proof.
  intros [Hmp Hok Hsc Hz Hp] [F1 F2 F3 F4 F5 F6 F7] Hl. constructor.
  - destruct Hmp as [M1 M2 M3 M4]. constructor; assumption.
  - destruct Hok as [S O1 O2 O3 O4 O5 O6 O7 O8 O9 O10 O11 O12 O13 O14 O15]. constructor; try assumption.
    destruct S. constructor; assumption.
  - constructor; assumption.
  - rewrite Hl. exact Hz.
  - exact Hp.
Qed.
Lemma scale_thm mp npath nterm z p sx su sa st z1 : input_ok mp npath nterm z p -> scales_for (mp_ocp mp) sx su sa st ->
  (forall ph, nth ph (o_diff_u (mp_ocp mp)) false = false) ->
  let mp1 := with_ocp mp (rescale (mp_ocp mp) sx su sa st) in
  length z1 = length z -> (forall ph, (ph < o_nph (mp_ocp mp))%nat -> same_traj mp (user_traj mp z ph) (user_traj mp1 z1 ph)) ->
  exists n n1, nlp_at mp z p = Ok n /\ nlp_at mp1 z1 p = Ok n1 /\ (feasible n <-> feasible n1) /\ n_f n = n_f n1.
Proof.
  intros Hin Hsc Hdu mp1 Hl Hs. pose proof (rescale_ok _ _ _ _ _ _ _ _ _ z1 Hin Hsc Hl) as Hin1. fold mp1 in Hin1.
  destruct Hin as [Hmp Hok Hsp Hz Hp]. destruct Hin1 as [Hmp1 Hok1 Hsp1 Hz1 Hp1].
  destruct (nlp_at_ok mp Hmp npath nterm Hok Hsp z p Hz Hp) as (rs & n & R1 & R2 & R3 & R4 & _ & _ & _ & _ & R5 & R6 & R7).
  destruct (nlp_at_ok mp1 Hmp1 npath nterm Hok1 Hsp1 z1 p Hz1 Hp1) as (rs1 & n1 & Q1 & Q2 & Q3 & Q4 & _ & _ & _ & _ & Q5 & Q6 & Q7).
  assert (rs1 = rs). { change (mapM (c_roots (mp_cf mp)) (mp_orders mp) = Ok rs1) in Q1. nred. congruence. } subst rs1.
  exists n, n1. split; [exact R2|]. split; [exact Q2|].
  assert (Hlen : forall k q, nth_error (mp_orders mp) k = Some q -> length (nth k rs []) = S q).
  { intros k q Hk. assert (Hkl : (k < length rs)%nat) by (rewrite R3; apply nth_error_Some; congruence).
    destruct (R4 k q (nth k rs []) Hk (nth_error_nth' _ _ Hkl)) as (A & _). exact A. }
  set (y := user_traj mp z) in *. set (y1 := user_traj mp1 z1) in *.
  assert (Hs1 : forall ph, (ph < o_nph (mp_ocp mp))%nat -> same_traj mp (y1 ph) (y ph)) by (intros; apply same_sym; auto).
  assert (Hphase : forall ph a, phase_ok mp1 rs (width mp p ph) ph a <-> phase_ok mp rs (width mp p ph) ph a).
  { intros ph a. unfold phase_ok.
    assert (slope_ok mp1 rs ph a) by (intros Hon; exfalso; change (nth ph (o_diff_u (mp_ocp mp)) false = true) in Hon; rewrite Hdu in Hon; discriminate).
    assert (slope_ok mp rs ph a) by (intros Hon; exfalso; rewrite Hdu in Hon; discriminate).
    change (dynamics_ok mp1 rs (width mp p ph) ph a) with (dynamics_ok mp rs (width mp p ph) ph a).
    change (path_ok mp1 rs (width mp p ph) ph a) with (path_ok mp rs (width mp p ph) ph a).
    change (midu_ok mp1 rs ph a) with (midu_ok mp rs ph a). change (ducont_ok mp1 rs ph a) with (ducont_ok mp rs ph a).
    change (terminal_ok mp1 ph a) with (terminal_ok mp ph a). tauto. }
  split.
  - unfold feasible. rewrite R5, R6, Q5, Q6. clear R5 R6 Q5 Q6. fold y y1.
    change (o_nph (mp_ocp mp1)) with (o_nph (mp_ocp mp)). change (links_ok mp1 y1) with (links_ok mp y1).
    split; intros (A & B & C); (split; [|split]).
    + intros ph Hph. change (bounds_ok mp ph (y1 ph)). apply (bounds_congr mp ph (y ph)); auto.
    + intros ph Hph. apply Hphase. apply (phase_congr mp rs (width mp p ph) ph Hlen (y ph)); auto.
    + apply (links_congr mp y y1); auto. right. exact (ok_links _ _ _ Hok).
    + intros ph Hph. apply (bounds_congr mp ph (y1 ph)); auto. exact (A ph Hph).
    + intros ph Hph. apply (phase_congr mp rs (width mp p ph) ph Hlen (y1 ph)); auto. apply Hphase. exact (B ph Hph).
    + apply (links_congr mp y1 y); auto. right. exact (ok_links _ _ _ Hok).
  - destruct (CostR.cost_polys_exist mp npath nterm z p (Build_input_ok _ _ _ _ _ Hmp Hok Hsp Hz Hp) rs R1) as (C & B & HC & HB).
    rewrite (R7 C B HC HB). rewrite (Q7 C B); [| |exact HB].
    + change (o_nph (mp_ocp mp1)) with (o_nph (mp_ocp mp)). apply Rsum_ext. intros ph Hph. fold y y1.
      change (phase_cost mp1 (width mp1 p ph) ph (y1 ph) (C ph)) with (phase_cost mp (width mp p ph) ph (y1 ph) (C ph)).
      change (start_cost mp1 rs (width mp1 p ph) ph (y1 ph) B) with (start_cost mp rs (width mp p ph) ph (y1 ph) B).
      rewrite (phase_cost_eq mp _ ph (y ph) (y1 ph)) by auto. rewrite (start_cost_eq mp rs _ ph Hlen (y ph) (y1 ph)) by auto. reflexivity.
    + intros ph Hph. change (cost_interp mp rs (width mp p ph) ph (y1 ph) (C ph)).
      apply (cost_interp_congr mp rs _ ph Hlen (y ph)); auto.
Qed.
Lemma scale_partner mp npath nterm z p sx su sa st : input_ok mp npath nterm z p -> scales_for (mp_ocp mp) sx su sa st ->
  let mp1 := with_ocp mp (rescale (mp_ocp mp) sx su sa st) in
  exists z1, length z1 = length z /\
    forall ph, (ph < o_nph (mp_ocp mp))%nat -> same_traj mp (user_traj mp z ph) (user_traj mp1 z1 ph).
Proof.
  intros Hin Hsc mp1. pose proof (rescale_ok _ _ _ _ _ _ _ _ _ z Hin Hsc eq_refl) as Hin1. fold mp1 in Hin1.
  exists (pack mp1 (user_traj mp z)). split.
  - rewrite length_pack. symmetry. exact (in_z _ _ _ _ _ Hin).
  - intros ph Hph. apply same_sym.
    exact (pack_traj mp1 (user_traj mp z) ph (ok_shapes _ _ _ (in_ocp _ _ _ _ _ Hin1)) (in_sc _ _ _ _ _ Hin1) Hph).
Qed.

(** ** the program as a problem on trajectories *)
Lemma feasible_pack mp npath nterm ys p : mpo_ok mp -> ocp_ok (mp_ocp mp) npath nterm -> scales_pos (mp_ocp mp) ->
  length p = (o_nph (mp_ocp mp) * mp_nseg mp)%nat ->
  exists rs n, mapM (c_roots (mp_cf mp)) (mp_orders mp) = Ok rs /\ nlp_at mp (pack mp ys) p = Ok n /\
    (feasible n <-> (forall ph, (ph < o_nph (mp_ocp mp))%nat -> bounds_ok mp ph (ys ph)) /\
       (forall ph, (ph < o_nph (mp_ocp mp))%nat -> phase_ok mp rs (width mp p ph) ph (ys ph)) /\ links_ok mp ys) /\
    (forall C B, (forall ph, (ph < o_nph (mp_ocp mp))%nat -> cost_interp mp rs (width mp p ph) ph (ys ph) (C ph)) ->
       start_basis mp rs B ->
       n_f n = Rsum (o_nph (mp_ocp mp)) (fun ph => phase_cost mp (width mp p ph) ph (ys ph) (C ph) -
                                         start_cost mp rs (width mp p ph) ph (ys ph) B)).
Proof.
  intros Hmp Hok Hsc Hp. pose proof (length_pack mp ys) as Hz.
  destruct (nlp_at_ok mp Hmp npath nterm Hok Hsc _ p Hz Hp) as (rs & n & R1 & R2 & R3 & R4 & _ & _ & _ & _ & R5 & R6 & R7).
  exists rs, n. split; [exact R1|]. split; [exact R2|].
  assert (Hlen : forall k q, nth_error (mp_orders mp) k = Some q -> length (nth k rs []) = S q).
  { intros k q Hk. assert (Hkl : (k < length rs)%nat) by (rewrite R3; apply nth_error_Some; congruence).
    destruct (R4 k q (nth k rs []) Hk (nth_error_nth' _ _ Hkl)) as (A & _). exact A. }
  set (y := user_traj mp (pack mp ys)) in *.
  assert (Hs : forall ph, (ph < o_nph (mp_ocp mp))%nat -> same_traj mp (y ph) (ys ph)).
  { intros ph Hph. apply pack_traj; auto. exact (ok_shapes _ _ _ Hok). }
  assert (Hs1 : forall ph, (ph < o_nph (mp_ocp mp))%nat -> same_traj mp (ys ph) (y ph)) by (intros; apply same_sym; auto).
  split.
  - unfold feasible. rewrite R5, R6. split; intros (A & B & C); (split; [|split]).
    + intros ph Hph. apply (bounds_congr mp ph (y ph)); auto.
    + intros ph Hph. apply (phase_congr mp rs (width mp p ph) ph Hlen (y ph)); auto.
    + apply (links_congr mp y ys); auto. right. exact (ok_links _ _ _ Hok).
    + intros ph Hph. apply (bounds_congr mp ph (ys ph)); auto.
    + intros ph Hph. apply (phase_congr mp rs (width mp p ph) ph Hlen (ys ph)); auto.
    + apply (links_congr mp ys y); auto. right. exact (ok_links _ _ _ Hok).
  - intros C B HC HB. rewrite (R7 C B); [| |exact HB].
    + apply Rsum_ext. intros ph Hph.
      rewrite (phase_cost_eq mp _ ph (y ph) (ys ph)) by auto. rewrite (start_cost_eq mp rs _ ph Hlen (y ph) (ys ph)) by auto. reflexivity.
    + intros ph Hph. apply (cost_interp_congr mp rs _ ph Hlen (ys ph)); auto.
Qed.
