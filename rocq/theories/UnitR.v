(** Problems moved to the unit interval (proofs of C77). *)
From Coq Require Import Reals Lia Lra Psatz Bool Arith String.
From Coquelicot Require Import Coquelicot.
From Coq Require Import List.
From Verif Require Import Num PyList Mat Poly Roots Colloc Ocp Transcribe Assign Spec SpecOcp SpecHadapt SpecBalance SpecExact SpecConvex SpecTrans SpecCoord SpecUnit NumR ListR PolyR CollocR CompR CollocThm MeshR BlockR DiscR NlpR OcpR ScaleR NlpThm CostR BalanceR WeightR ChebR ExactR ConvexR TransR FillR CoordR.
Import ListNotations.
Open Scope R_scope.

Lemma shaped_map {T} (g : nat -> list T) r c : (forall ph, (ph < r)%nat -> length (g ph) = c) -> shaped (map g (seq 0 r)) r c.
Proof. intros H. split; [rewrite map_length; apply seq_length|]. intros row Hr. apply in_map_iff in Hr. destruct Hr as (ph & <- & Hp). apply in_seq in Hp. apply H. lia. Qed.
Lemma nth_map_seq {T} (g : nat -> list T) r ph : (ph < r)%nat -> nth ph (map g (seq 0 r)) [] = g ph.
Proof. intros H. rewrite (nth_indep _ [] (g 0%nat)) by (rewrite map_length, seq_length; exact H). rewrite map_nth, seq_nth by exact H. reflexivity. Qed.

Section Unit.
Variables (o : ocp Rnum) (K : nat) (orders : list nat) (cf : ccfg Rnum) (npath nterm : nat -> option nat).
Let o' := unit_time o.
Let mp := Mpo o K orders cf.
Let mp' := Mpo o' K orders cf.
Hypothesis Hok : ocp_ok o npath nterm.

Lemma shaped_row {T} (m : list (list T)) r c ph : shaped m r c -> (ph < r)%nat -> length (nth ph m []) = c.
Proof. intros [A B] H. apply B. apply nth_In. lia. Qed.
Lemma join_shaped {T} (d : T) m m0 m1 : shaped m (o_nph o) (o_na o) -> shaped (join o d m m0 m1) (o_nph o) (o_na o + 2).
Proof. intros H. apply shaped_map. intros ph Hph. rewrite app_length, (shaped_row _ _ _ _ H Hph). reflexivity. Qed.
Lemma all_shaped {T} (v : T) : shaped (all_phases o v) (o_nph o) 1.
Proof. apply shaped_map. reflexivity. Qed.
Lemma join_old {T} (d : T) m m0 m1 ph i : shaped m (o_nph o) (o_na o) -> (ph < o_nph o)%nat -> (i < o_na o)%nat -> nth i (nth ph (join o d m m0 m1) []) d = nth i (nth ph m []) d.
Proof. intros H Hp Hi. unfold join. rewrite nth_map_seq by exact Hp. apply app_nth1. rewrite (shaped_row _ _ _ _ H Hp). exact Hi. Qed.
Lemma join_start {T} (d : T) m m0 m1 ph : shaped m (o_nph o) (o_na o) -> (ph < o_nph o)%nat -> nth (o_na o) (nth ph (join o d m m0 m1) []) d = nth 0 (nth ph m0 []) d.
Proof. intros H Hp. unfold join. rewrite nth_map_seq by exact Hp. rewrite app_nth2; rewrite (shaped_row _ _ _ _ H Hp); [|lia]. rewrite Nat.sub_diag. reflexivity. Qed.
Lemma join_stop {T} (d : T) m m0 m1 ph : shaped m (o_nph o) (o_na o) -> (ph < o_nph o)%nat -> nth (S (o_na o)) (nth ph (join o d m m0 m1) []) d = nth 0 (nth ph m1 []) d.
Proof. intros H Hp. unfold join. rewrite nth_map_seq by exact Hp. rewrite app_nth2; rewrite (shaped_row _ _ _ _ H Hp); [|lia]. replace (S (o_na o) - o_na o)%nat with 1%nat by lia. reflexivity. Qed.
Lemma all_nth {T} (v d : T) ph : (ph < o_nph o)%nat -> nth 0 (nth ph (all_phases o v) []) d = v.
Proof. intros Hp. unfold all_phases. rewrite nth_map_seq by exact Hp. reflexivity. Qed.

Lemma arg_old a : arg_ok o' a -> arg_ok o (old_pars o a).
Proof.
  unfold arg_ok, old_pars. cbn [o' unit_time o_na]. replace (Nat.eqb (o_na o + 2) 0) with false by (symmetry; apply Nat.eqb_neq; lia). intros (l & -> & Hl).
  destruct (Nat.eqb (o_na o) 0); [reflexivity|]. eexists; split; [reflexivity|]. apply firstn_length_le. nred. lia.
Qed.
Lemma unit_ok : ocp_ok o' npath nterm.
Proof.
  pose proof arg_old as HA. destruct Hok as [S H1 H2 H3 H4 H5 H6 H7 H8 H9 H10 H11 H12 H13 H14 H15]. constructor; try assumption.
  - pose proof S as []. constructor; cbn [o' unit_time o_nx o_nu o_na o_nph o_dyn o_path o_mayer o_run o_term o_links o_scale_x o_scale_u o_scale_a o_scale_t o_x00 o_xf0 o_u00 o_uf0 o_t00 o_tf0 o_a0 o_lbx o_ubx o_lbu o_ubu o_lba o_uba o_lbt0 o_ubt0 o_lbtf o_ubtf o_lbe o_ube]; try assumption; try (rewrite map_length; assumption); try (apply join_shaped; assumption); try (apply all_shaped).
    + exact (eq_trans (app_length (o_scale_a o) [o_scale_t o; o_scale_t o]) (f_equal (fun n => n + 2)%nat sh_sa)).
    + intros ph i Hp Hi. destruct (lt_eq_lt_dec i (o_na o)) as [[Hl| ->]|Hl].
      * rewrite !join_old by assumption. apply sh_a; assumption.
      * rewrite !join_start by assumption. apply sh_t0; [assumption|lia].
      * assert (i = Datatypes.S (o_na o)) as -> by lia. rewrite !join_stop by assumption. apply sh_tf; [assumption|lia].
    + intros ph i Hp Hi. assert (i = 0%nat) as -> by lia. rewrite !all_nth by exact Hp. cbn. apply Rle_refl.
    + intros ph i Hp Hi. assert (i = 0%nat) as -> by lia. rewrite !all_nth by exact Hp. cbn. apply Rle_refl.
  - intros ph f x u t a Hf Lx Lu La. cbn [o' unit_time o_dyn] in Hf. rewrite nth_error_map in Hf. destruct (nth_error (o_dyn o) ph) as [g|] eqn:E; [|discriminate Hf]. injection Hf as <-.
    destruct (H2 ph g x u (time_par o a t) (old_pars o a) E Lx Lu (HA a La)) as (d & Ed & Ld). exists (map (fun v => long_par o a * v) d). unfold unit_dyn. rewrite Ed. split; [reflexivity|]. rewrite map_length. exact Ld.
  - intros ph f x u t a Hf Lx Lu La. cbn [o' unit_time o_run] in Hf. rewrite nth_error_map in Hf. destruct (nth_error (o_run o) ph) as [g|] eqn:E; [|discriminate Hf]. injection Hf as <-.
    destruct (H3 ph g x u (time_par o a t) (old_pars o a) E Lx Lu (HA a La)) as (d & Ed). exists (long_par o a * d). unfold unit_run. rewrite Ed. reflexivity.
  - intros ph f xf tf x0 t0 a Hf Lx Lu La. cbn [o' unit_time o_mayer] in Hf. rewrite nth_error_map in Hf. destruct (nth_error (o_mayer o) ph) as [g|] eqn:E; [|discriminate Hf]. injection Hf as <-.
    exact (H4 ph g xf (stop_par o a) x0 (start_par o a) (old_pars o a) E Lx Lu (HA a La)).
  - intros ph f x u t a Hf Lx Lu La. cbn [o' unit_time o_path] in Hf. rewrite nth_error_map in Hf. destruct (nth_error (o_path o) ph) as [g|] eqn:E; [|discriminate Hf]. injection Hf as <-.
    exact (H5 ph g x u (time_par o a t) (old_pars o a) E Lx Lu (HA a La)).
  - intros ph f xf tf x0 t0 a Hf Lx Lu La. cbn [o' unit_time o_term] in Hf. rewrite nth_error_map in Hf. destruct (nth_error (o_term o) ph) as [g|] eqn:E; [|discriminate Hf]. injection Hf as <-.
    exact (H6 ph g xf (stop_par o a) x0 (start_par o a) (old_pars o a) E Lx Lu (HA a La)).
Qed.
Lemma unit_scales : scales_pos o -> scales_pos o'.
Proof.
  intros [A B C D]. constructor; cbn [o' unit_time o_scale_x o_scale_u o_scale_a o_scale_t]; try assumption; [|apply Rlt_0_1].
  intros s Hs. apply in_app_or in Hs. destruct Hs as [Hs|[<-|[<-|[]]]]; [exact (C s Hs)|exact D|exact D].
Qed.

Section Traj.
Variables (ph : nat) (y : utraj).
Hypothesis Hph : (ph < o_nph o)%nat.
Let y' := unit_traj o y.
Let d := y_tf y - y_t0 y.

Lemma a_unit : a_of o' y' = Some (vec (o_na o) (y_a y) ++ [y_t0 y; y_tf y]).
Proof.
  clear Hph. unfold a_of. cbn [o' unit_time o_na]. replace (Nat.eqb (o_na o + 2) 0) with false by (symmetry; apply Nat.eqb_neq; lia). f_equal.
  unfold vec. rewrite seq_app, map_app. f_equal.
  - apply map_ext_in. intros i Hi. apply in_seq in Hi. cbn [y' unit_traj y_a]. replace (Nat.ltb i (o_na o)) with true; [reflexivity|]. symmetry. apply Nat.ltb_lt. lia.
  - cbn [seq map y' unit_traj y_a Nat.add]. rewrite !Nat.ltb_irrefl, !Nat.eqb_refl. replace (Nat.ltb (S (o_na o)) (o_na o)) with false by (symmetry; apply Nat.ltb_ge; lia). replace (Nat.eqb (S (o_na o)) (o_na o)) with false by (symmetry; apply Nat.eqb_neq; lia). reflexivity.
Qed.
Lemma lv : length (vec (o_na o) (y_a y)) = o_na o.
Proof. unfold vec. rewrite map_length. apply seq_length. Qed.
Lemma pars_unit : old_pars o (a_of o' y') = a_of o y /\ start_par o (a_of o' y') = y_t0 y /\ stop_par o (a_of o' y') = y_tf y.
Proof.
  clear Hph. rewrite a_unit. unfold old_pars, start_par, stop_par. repeat split.
  - unfold a_of. destruct (Nat.eqb (o_na o) 0); [reflexivity|]. f_equal. rewrite <- lv at 1. rewrite firstn_app, Nat.sub_diag, firstn_all. cbn. apply app_nil_r.
  - rewrite app_nth2; rewrite lv; [|lia]. rewrite Nat.sub_diag. reflexivity.
  - rewrite app_nth2; rewrite lv; [|lia]. replace (S (o_na o) - o_na o)%nat with 1%nat by lia. reflexivity.
Qed.
Lemma long_unit : long_par o (a_of o' y') = d.
Proof. destruct pars_unit as (_ & A & B). unfold long_par. rewrite A, B. reflexivity. Qed.
Lemma time_unit s : time_par o (a_of o' y') s = y_t0 y + d * s.
Proof. destruct pars_unit as (_ & A & _). unfold time_par. rewrite long_unit, A. reflexivity. Qed.
Lemma h_unit w k : d * seg_h cf w y' k = seg_h cf w y k.
Proof. unfold seg_h, y', unit_traj, d. cbn [y_t0 y_tf]. unfold Rdiv. ring. Qed.
Lemma stime_unit w k tau : y_t0 y + d * seg_time cf w y' k tau = seg_time cf w y k tau.
Proof. unfold seg_time. rewrite <- h_unit. unfold seg_start, y', unit_traj, d. cbn [y_t0 y_tf]. ring. Qed.

Lemma dyn_unit i s : dyn_val o' ph y' i s = map (fun v => d * v) (dyn_val o ph y i (y_t0 y + d * s)).
Proof.
  unfold dyn_val. cbn [o' unit_time o_dyn o_nx o_nu]. rewrite nth_error_map. destruct (nth_error (o_dyn o) ph) as [f|]; [|reflexivity]. cbn [option_map]. unfold unit_dyn. fold o'.
  rewrite time_unit, (proj1 pars_unit), long_unit. cbn [y' unit_traj y_x y_u]. destruct (f _ _ _ _); reflexivity.
Qed.
Lemma path_unit i s : path_val o' ph y' i s = path_val o ph y i (y_t0 y + d * s).
Proof.
  unfold path_val. cbn [o' unit_time o_path o_nx o_nu]. rewrite nth_error_map. destruct (nth_error (o_path o) ph) as [f|]; [|reflexivity]. cbn [option_map]. unfold unit_path. fold o'.
  rewrite time_unit, (proj1 pars_unit). reflexivity.
Qed.
Lemma run_unit i s : run_val o' ph y' i s = d * run_val o ph y i (y_t0 y + d * s).
Proof.
  unfold run_val. cbn [o' unit_time o_run o_nx o_nu]. rewrite nth_error_map. destruct (nth_error (o_run o) ph) as [f|]; [|cbn; ring]. cbn [option_map]. unfold unit_run. fold o'.
  rewrite time_unit, (proj1 pars_unit), long_unit. cbn [y' unit_traj y_x y_u]. destruct (f _ _ _ _) as [[l|]|e]; [reflexivity|ring|ring].
Qed.
Lemma term_unit l : term_val o' ph y' l = term_val o ph y l.
Proof.
  unfold term_val. cbn [o' unit_time o_term o_nx o_nu]. rewrite nth_error_map. destruct (nth_error (o_term o) ph) as [f|]; [|reflexivity]. cbn [option_map]. unfold unit_term. fold o'.
  destruct pars_unit as (-> & -> & ->). reflexivity.
Qed.
Lemma mayer_unit l : mayer_val o' ph y' l = mayer_val o ph y l.
Proof.
  unfold mayer_val. cbn [o' unit_time o_mayer o_nx o_nu]. rewrite nth_error_map. destruct (nth_error (o_mayer o) ph) as [f|]; [|reflexivity]. cbn [option_map]. unfold unit_mayer. fold o'.
  destruct pars_unit as (-> & -> & ->). reflexivity.
Qed.

Lemma bounds_unit : bounds_ok mp' ph y' <-> bounds_ok mp ph y.
Proof.
  pose proof (ok_shapes _ _ _ Hok) as S. pose proof (sh_lba _ S) as S1. pose proof (sh_uba _ S) as S2. unfold bounds_ok. cbn [mp mp' mp_ocp mp_orders o' unit_time o_nx o_nu o_na o_x00 o_lbx o_ubx o_lbu o_ubu o_lba o_uba o_lbt0 o_ubt0 o_lbtf o_ubtf y' unit_traj y_x y_u y_t0 y_tf y_a].
  unfold bnd. rewrite !all_nth by exact Hph. split; intros (A & B & C & D & E); (split; [exact A|]; split; [exact B|]).
  - split; [|split].
    + specialize (E (o_na o) ltac:(lia)). rewrite !join_start, Nat.ltb_irrefl, Nat.eqb_refl in E by assumption. exact E.
    + specialize (E (Datatypes.S (o_na o)) ltac:(lia)). rewrite !join_stop in E by assumption. replace (Nat.ltb (Datatypes.S (o_na o)) (o_na o)) with false in E by (symmetry; apply Nat.ltb_ge; lia). replace (Nat.eqb (Datatypes.S (o_na o)) (o_na o)) with false in E by (symmetry; apply Nat.eqb_neq; lia). exact E.
    + intros i Hi. specialize (E i ltac:(lia)). rewrite !join_old in E by assumption. replace (Nat.ltb i (o_na o)) with true in E by (symmetry; apply Nat.ltb_lt; lia). exact E.
  - split; [split; cbn; lra|]. split; [split; cbn; lra|]. intros i Hi. destruct (lt_eq_lt_dec i (o_na o)) as [[Hl|Hl]|Hl].
    + rewrite !join_old by assumption. replace (Nat.ltb i (o_na o)) with true by (symmetry; apply Nat.ltb_lt; lia). exact (E i Hl).
    + subst i. rewrite !join_start, Nat.ltb_irrefl, Nat.eqb_refl by assumption. exact C.
    + assert (i = Datatypes.S (o_na o)) as -> by lia. rewrite !join_stop by assumption. replace (Nat.ltb (Datatypes.S (o_na o)) (o_na o)) with false by (symmetry; apply Nat.ltb_ge; lia). replace (Nat.eqb (Datatypes.S (o_na o)) (o_na o)) with false by (symmetry; apply Nat.eqb_neq; lia). exact D.
Qed.
Lemma nth_scaled c (l : list R) s : nth s (map (fun v => c * v) l) 0 = c * nth s l 0.
Proof. revert s. induction l as [|a l IH]; intros [|s]; cbn; try ring. apply IH. Qed.
Lemma slope_unit rs w i k j s : seg_h cf w y' k * nth s (dyn_val o' ph y' i (seg_time cf w y' k (nth j (nth k rs []) 0))) 0 = seg_h cf w y k * nth s (dyn_val o ph y i (seg_time cf w y k (nth j (nth k rs []) 0))) 0.
Proof. rewrite dyn_unit, nth_scaled, stime_unit, <- h_unit. ring. Qed.
Lemma phase_unit rs w : phase_ok mp' rs w ph y' <-> phase_ok mp rs w ph y.
Proof.
  assert (A : dynamics_ok mp' rs w ph y' <-> dynamics_ok mp rs w ph y).
  { unfold dynamics_ok. cbn [mp mp' mp_ocp mp_orders mp_cf]. split; intros H i k j s c Ho Hs Hc; specialize (H i k j s c Ho Hs Hc).
    - rewrite slope_unit in H. exact H.
    - rewrite slope_unit. exact H. }
  assert (B : path_ok mp' rs w ph y' <-> path_ok mp rs w ph y).
  { unfold path_ok. cbn [mp mp' mp_ocp mp_orders mp_cf]. split; intros H i k j c Ho Hc; apply (H i k j c Ho).
    - rewrite path_unit, stime_unit. exact Hc.
    - rewrite path_unit, stime_unit in Hc. exact Hc. }
  assert (C : terminal_ok mp' ph y' <-> terminal_ok mp ph y).
  { unfold terminal_ok. cbn [mp mp' mp_ocp mp_orders mp_cf]. rewrite term_unit. reflexivity. }
  unfold phase_ok. rewrite A, B, C. reflexivity.
Qed.
Lemma cost_unit rs w : node_cost mp' rs w ph y' = node_cost mp rs w ph y.
Proof.
  unfold node_cost. cbn [mp mp' mp_ocp mp_orders mp_cf]. rewrite mayer_unit. f_equal. apply Rsum_ext. intros k Hk. unfold seg_cost. cbn [mp_cf mp_orders]. rewrite <- h_unit, <- !Rsum_scal. apply Rsum_ext. intros j Hj.
  unfold run_at. cbn [mp mp' mp_ocp mp_orders mp_cf]. rewrite run_unit, stime_unit. ring.
Qed.
End Traj.
End Unit.

Lemma fixed_at (c x : R) : within (Fin c) (Fin c) x -> x = c.
Proof. intros [A B]. cbn in A, B. lra. Qed.
Lemma unit_mo mp : mpo_ok mp -> mpo_ok (unit_mpo mp).
Proof. intros H. destruct H; constructor; assumption. Qed.
Theorem unit_input (mp : mpo Rnum) npath nterm : mpo_ok mp -> ocp_ok (mp_ocp mp) npath nterm -> scales_pos (mp_ocp mp) ->
  mpo_ok (unit_mpo mp) /\ ocp_ok (mp_ocp (unit_mpo mp)) npath nterm /\ scales_pos (mp_ocp (unit_mpo mp)).
Proof. intros A B C. split; [exact (unit_mo _ A)|]. split; [exact (unit_ok _ _ _ B)|exact (unit_scales _ C)]. Qed.

(** corresponding points of a one-phase problem *)
Theorem unit_thm (mp : mpo Rnum) npath nterm z z' p : input_ok mp npath nterm z p -> o_nph (mp_ocp mp) = 1%nat -> length z' = nvars (unit_mpo mp) -> on_unit mp z z' ->
  exists n n', nlp_at mp z p = Ok n /\ nlp_at (unit_mpo mp) z' p = Ok n' /\ (feasible n <-> feasible n') /\ n_f n = n_f n'.
Proof.
  intros Hin H1 Lz Hs. destruct mp as [o K orders cf]. pose proof Hin as [A B C D E].
  assert (Hin' : input_ok (unit_mpo (Mpo o K orders cf)) npath nterm z' p).
  { destruct (unit_input _ _ _ A B C) as (A' & B' & C'). constructor; [exact A'|exact B'|exact C'| |exact E]. cbn [unit_mpo mp_ocp unit_time o_nph] in *. nred. rewrite H1, Nat.mul_1_l. exact Lz. }
  destruct (nlp_like _ _ _ _ _ (user_traj (Mpo o K orders cf) z) Hin (fun ph _ => same_refl _ _)) as (rs & n & R1 & R2 & _ & R3 & R4).
  destruct (nlp_like _ _ _ _ _ (fun ph => unit_traj o (user_traj (Mpo o K orders cf) z ph)) Hin' Hs) as (rs' & n' & R1' & R2' & _ & R3' & R4').
  unfold unit_mpo in *. cbn [mp_ocp mp_orders mp_cf mp_nseg] in *. assert (rs' = rs) as -> by (pose proof (eq_trans (eq_sym R1') R1) as X; injection X as X; exact X).
  exists n, n'. split; [exact R2|]. split; [exact R2'|]. split.
  - rewrite R3, R3'. cbn [unit_time o_nph]. split; intros (X & Y & Z); (split; [|split]).
    + intros ph Hph. apply (bounds_unit o K orders cf npath nterm B ph _ Hph). exact (X ph Hph).
    + intros ph Hph. apply (phase_unit o K orders cf ph _). exact (Y ph Hph).
    + intros Hn. cbn in Hn. clear - Hn H1. nred. lia.
    + intros ph Hph. apply (bounds_unit o K orders cf npath nterm B ph _ Hph). exact (X ph Hph).
    + intros ph Hph. apply (phase_unit o K orders cf ph _). exact (Y ph Hph).
    + intros Hn. cbn in Hn. clear - Hn H1. nred. lia.
  - refine (eq_trans R4 (eq_trans _ (eq_sym R4'))). cbn [unit_time o_nph]. apply Rsum_ext. intros ph Hph. symmetry. exact (cost_unit o K orders cf ph _ rs _).
Qed.
(** every point has one on the unit interval, and every feasible point there stands for one *)
Theorem unit_exists (mp : mpo Rnum) npath nterm p : mpo_ok mp -> ocp_ok (mp_ocp mp) npath nterm -> scales_pos (mp_ocp mp) -> length p = (o_nph (mp_ocp mp) * mp_nseg mp)%nat ->
  (forall z, exists z', length z' = (o_nph (mp_ocp mp) * nvars (unit_mpo mp))%nat /\ on_unit mp z z') /\
  (forall z' n', length z' = (o_nph (mp_ocp mp) * nvars (unit_mpo mp))%nat -> nlp_at (unit_mpo mp) z' p = Ok n' -> feasible n' -> exists z, length z = (o_nph (mp_ocp mp) * nvars mp)%nat /\ on_unit mp z z').
Proof.
  intros A B C Hp. destruct (unit_input _ _ _ A B C) as (A' & B' & C'). split.
  - intros z. exists (pack (unit_mpo mp) (fun ph => unit_traj (mp_ocp mp) (user_traj mp z ph))). split; [exact (length_pack _ _)|]. intros ph Hph. exact (pack_traj (unit_mpo mp) _ ph (ok_shapes _ _ _ B') C' Hph).
  - intros z' n' Lz En Hf. set (m := o_na (mp_ocp mp)).
    set (ys := fun ph => let y := user_traj (unit_mpo mp) z' ph in Utraj (y_x y) (y_u y) (y_a y m) (y_a y (S m)) (y_a y)). exists (pack mp ys). split; [exact (length_pack _ _)|].
    assert (Hin' : input_ok (unit_mpo mp) npath nterm z' p) by (constructor; assumption).
    destruct (nlp_like _ _ _ _ _ (user_traj (unit_mpo mp) z') Hin' (fun ph _ => same_refl _ _)) as (rs & n & R1 & R2 & _ & R3 & _).
    assert (n' = n) as -> by (pose proof (eq_trans (eq_sym En) R2) as X; injection X as X; exact X). apply R3 in Hf. destruct Hf as (Hb & _ & _).
    intros ph Hph. destruct (pack_traj mp ys ph (ok_shapes _ _ _ B) C Hph) as (P1 & P2 & P3 & P4 & P5). destruct (Hb ph Hph) as (_ & _ & Q1 & Q2 & _).
    cbn [unit_mpo mp_ocp unit_time o_lbt0 o_ubt0 o_lbtf o_ubtf] in Q1, Q2. unfold bnd in Q1, Q2. rewrite !all_nth in Q1 by exact Hph. rewrite !all_nth in Q2 by exact Hph.
    set (y := user_traj (unit_mpo mp) z' ph) in *. set (v := user_traj mp (pack mp ys) ph) in *.
    split; [|split; [|split; [|split]]]; cbn [unit_traj y_x y_u y_t0 y_tf y_a unit_mpo mp_orders mp_ocp unit_time o_nx o_nu o_na].
    + intros i s Hi Hs. symmetry. exact (P1 i s Hi Hs).
    + intros i s Hi Hs. symmetry. exact (P2 i s Hi Hs).
    + exact (fixed_at _ _ Q1).
    + exact (fixed_at _ _ Q2).
    + intros i Hi. destruct (lt_eq_lt_dec i (o_na (mp_ocp mp))) as [[Hl|Hl]|Hl].
      * replace (Nat.ltb i (o_na (mp_ocp mp))) with true by (symmetry; apply Nat.ltb_lt; exact Hl). symmetry. exact (P5 i Hl).
      * subst i. rewrite Nat.ltb_irrefl, Nat.eqb_refl. symmetry. exact P3.
      * assert (i = S m) as -> by (subst m; nred; lia). fold m. replace (Nat.ltb (S m) m) with false by (symmetry; apply Nat.ltb_ge; lia). replace (Nat.eqb (S m) m) with false by (symmetry; apply Nat.eqb_neq; lia). symmetry. exact P4.
Qed.
(** solutions correspond *)
Theorem unit_best (mp : mpo Rnum) npath nterm z z' p : input_ok mp npath nterm z p -> o_nph (mp_ocp mp) = 1%nat -> length z' = nvars (unit_mpo mp) -> on_unit mp z z' ->
  best mp p z <-> best (unit_mpo mp) p z'.
Proof.
  intros Hin H1 Lz Hs. pose proof Hin as [A B C D E]. destruct (unit_thm mp _ _ z z' p Hin H1 Lz Hs) as (n & n' & En & En' & HF & HE). destruct (unit_exists mp _ _ p A B C E) as [X1 X2]. nred. rewrite H1 in *. rewrite !Nat.mul_1_l in D. setoid_rewrite Nat.mul_1_l in X1. setoid_rewrite Nat.mul_1_l in X2.
  split; intros (m & Em & Hf & Hb).
  - assert (m = n) as -> by (pose proof (eq_trans (eq_sym Em) En) as X; injection X as X; exact X). exists n'. split; [exact En'|]. split; [apply HF; exact Hf|].
    intros z1 n1 L1 E1 F1. destruct (X2 z1 n1 (eq_trans L1 Lz) E1 F1) as (z2 & L2 & S2).
    assert (I2 : input_ok mp npath nterm z2 p) by (constructor; auto; nred; rewrite H1; lia).
    destruct (unit_thm mp _ _ z2 z1 p I2 H1 (eq_trans L1 Lz) S2) as (n2 & n1' & E2 & E1' & F2 & V2).
    assert (n1' = n1) as -> by (pose proof (eq_trans (eq_sym E1') E1) as X; injection X as X; exact X).
    pose proof (Hb z2 n2 (eq_trans L2 (eq_sym D)) E2 (proj2 F2 F1)) as Q. rewrite HE, V2 in Q. exact Q.
  - assert (m = n') as -> by (pose proof (eq_trans (eq_sym Em) En') as X; injection X as X; exact X). exists n. split; [exact En|]. split; [apply HF; exact Hf|].
    intros z1 n1 L1 E1 F1. destruct (X1 z1) as (z2 & L2 & S2).
    assert (I1 : input_ok mp npath nterm z1 p) by (constructor; auto; nred; rewrite H1; lia).
    destruct (unit_thm mp _ _ z1 z2 p I1 H1 L2 S2) as (n1' & n2 & E1' & E2 & F2 & V2).
    assert (n1' = n1) as -> by (pose proof (eq_trans (eq_sym E1') E1) as X; injection X as X; exact X).
    pose proof (Hb z2 n2 (eq_trans L2 (eq_sym Lz)) E2 (proj1 F2 F1)) as Q. rewrite HE, V2. exact Q.
Qed.
(** with several phases the new problem has no feasible point: links ask for equal times *)
Theorem unit_links (mp : mpo Rnum) npath nterm p z' n' : mpo_ok mp -> ocp_ok (mp_ocp mp) npath nterm -> scales_pos (mp_ocp mp) -> length p = (o_nph (mp_ocp mp) * mp_nseg mp)%nat -> (1 < o_nph (mp_ocp mp))%nat ->
  length z' = (o_nph (mp_ocp mp) * nvars (unit_mpo mp))%nat -> nlp_at (unit_mpo mp) z' p = Ok n' -> ~ feasible n'.
Proof.
  intros A B C Hp H1 Lz En Hf. destruct (unit_input _ _ _ A B C) as (A' & B' & C'). assert (Hin' : input_ok (unit_mpo mp) npath nterm z' p) by (constructor; assumption).
  destruct (nlp_like _ _ _ _ _ (user_traj (unit_mpo mp) z') Hin' (fun ph _ => same_refl _ _)) as (rs & n & R1 & R2 & _ & R3 & _).
  assert (n' = n) as -> by (pose proof (eq_trans (eq_sym En) R2) as X; injection X as X; exact X). apply R3 in Hf. destruct Hf as (Hb & _ & Hl).
  pose proof (ok_links_some _ _ _ B H1) as Hne. pose proof (ok_links _ _ _ B) as Hlk.
  assert (X : exists q, nth_error (o_links (mp_ocp mp)) 0 = Some q) by (destruct (o_links (mp_ocp mp)); [congruence|cbn; eauto]). destruct X as ([i j] & Eq).
  destruct (Hlk i j (nth_error_In _ _ Eq)) as [Hi Hj]. destruct (Hl H1 0%nat i j Eq) as (_ & _ & Ht).
  destruct (Hb i Hi) as (_ & _ & _ & Q2 & _). destruct (Hb j Hj) as (_ & _ & Q1 & _ & _).
  cbn [unit_mpo mp_ocp unit_time o_lbt0 o_ubt0 o_lbtf o_ubtf] in Q1, Q2. unfold bnd in Q1, Q2. rewrite !all_nth in Q1 by exact Hj. rewrite !all_nth in Q2 by exact Hi. apply fixed_at in Q1. apply fixed_at in Q2. rewrite Q1, Q2 in Ht. apply R1_neq_R0. symmetry. exact Ht.
Qed.
