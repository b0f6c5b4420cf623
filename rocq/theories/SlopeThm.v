(** The slopes used to refine segment widths, and slopes with respect to time (proofs). *)
From Coq Require Import String.
From Coq Require Import Reals List Lia Lra Bool Arith ZArith.
From Coquelicot Require Import Coquelicot.
From Verif Require Import Num PyList Mat Poly Roots Colloc Ocp Transcribe Solve Hadapt Resid Refine.
From Verif Require Import Spec SpecOcp SpecSolve SpecHadapt SpecResid NumR ListR CompR MeshR BlockR CollocR DiscR NlpR NlpThm NlpMain.
From Verif Require Import AreaR SlopeR HadaptR ResidThm ResidMain RefineThm ExOcp.
Import ListNotations.
Open Scope R_scope.
Open Scope list_scope.

Lemma total_scal c l : total (map (fun x => c * x) l) = c * total l.
Proof. unfold total. induction l as [|a l IH]; cbn; [ring|]. rewrite IH. ring. Qed.

Section Slopes.
Variables (mp : mpo Rnum) (npath nterm : nat -> option nat) (z sw : list R) (ph : nat).
Hypothesis Hin : input_ok mp npath nterm z sw.
Hypothesis Hph : (ph < o_nph (mp_ocp mp))%nat.
Let y := user_traj mp z ph.
Let w := width mp sw ph.
Let cf := mp_cf mp.
Hypothesis Hw : forall k, (k < mp_nseg mp)%nat -> 0 < w k.
Hypothesis Hlt : y_t0 y < y_tf y.
Lemma seg_h_pos k : (k < mp_nseg mp)%nat -> 0 < seg_h cf w y k.
Proof.
  intros Hk. unfold seg_h. pose proof (co_taus _ (mo_cfg _ (in_mpo _ _ _ _ _ Hin))) as T. fold cf in T. nred.
  apply Rmult_lt_0_compat; [|apply Rinv_0_lt_compat; lra]. apply Rmult_lt_0_compat; [lra|]. apply Hw. exact Hk.
Qed.
Theorem local_slope_thm rs du i k j v : mapM (c_roots cf) (mp_orders mp) = Ok rs -> local_slopes mp rs y du ->
  owned (mp_orders mp) i k j -> time_slope mp rs w y k j v -> slope du i = seg_h cf w y k * v.
Proof.
  intros Ers [_ Hdu] Ho (cq & Hq & ->). pose proof (mo_len _ (in_mpo _ _ _ _ _ Hin)) as Hlo. pose proof (co_taus _ (mo_cfg _ (in_mpo _ _ _ _ _ Hin))) as T. fold cf in T.
  pose proof (owned_seg _ _ _ _ Ho) as Hk. assert (Hh : 0 < seg_h cf w y k) by (apply seg_h_pos; nred; lia).
  assert (Hlr : length rs = length (mp_orders mp)) by (destruct (mapM_inv _ _ _ Ers) as [L _]; exact L).
  destruct (Hdu i k j Ho) as [Hl Hv]. set (h := seg_h cf w y k) in *.
  set (D := fun q => nth q (o_scale_u (mp_ocp mp)) 0 * Derive (peval (cq q)) (node_time cf w y k (nth j (nth k rs []) 0))).
  assert (E : nth i du [] = vec (o_nu (mp_ocp mp)) (fun q => Rabs (h * D q))).
  { apply (nth_ext _ _ 0 0); [unfold vec; rewrite map_length, seq_length; exact Hl|]. intros q Hq'. rewrite Hl in Hq'.
    destruct (time_to_tau mp rs w y T Hlr k _ (cq q) (Hq q Hq')) as (c & Hc & Ec). rewrite (Hv q c Hq' Hc).
    unfold vec. rewrite nth_map_seq by exact Hq'. f_equal. unfold D, h, cf. rewrite (time_derive mp w y T k c (cq q) _ Hk Ec). nred. ring. }
  unfold slope. rewrite E. unfold vec. rewrite !map_map.
  rewrite (map_ext (fun q => Rabs (h * D q) * Rabs (h * D q)) (fun q => (h * h) * (D q * D q))).
  2:{ intros q. rewrite <- Rabs_mult. rewrite Rabs_right; [ring|]. apply Rle_ge. apply Rle_0_sqr. }
  rewrite <- (map_map (fun q => D q * D q) (fun x => (h * h) * x)), total_scal, sqrt_mult_alt by (apply Rle_0_sqr).
  rewrite sqrt_square by lra. reflexivity.
Qed.
(** inside segments of the same width the order is the order of the slopes in time *)
Theorem same_width_order rs du i k j v i' k' j' v' : mapM (c_roots cf) (mp_orders mp) = Ok rs -> local_slopes mp rs y du ->
  owned (mp_orders mp) i k j -> owned (mp_orders mp) i' k' j' -> time_slope mp rs w y k j v -> time_slope mp rs w y k' j' v' -> w k = w k' ->
  (slope du i <= slope du i' <-> v <= v').
Proof.
  intros Ers Hd H1 H2 Hv Hv' E. rewrite (local_slope_thm rs du i k j v Ers Hd H1 Hv), (local_slope_thm rs du i' k' j' v' Ers Hd H2 Hv').
  assert (Eh : seg_h cf w y k' = seg_h cf w y k) by (unfold seg_h; rewrite E; reflexivity). rewrite Eh.
  pose proof (mo_len _ (in_mpo _ _ _ _ _ Hin)) as Hlo. pose proof (owned_seg _ _ _ _ H1) as Hk. assert (Hh : 0 < seg_h cf w y k) by (apply seg_h_pos; nred; lia).
  split; intros H; [apply (Rmult_le_reg_l (seg_h cf w y k)); assumption|apply Rmult_le_compat_l; [lra|assumption]].
Qed.
End Slopes.

(** ** Segments of different width: the node that is steeper in time is left out *)
Definition ramp (i c : nat) : R := nth i [0; 1; 5 / 2; 5 / 2] 0.
Definition ramp_mp : mpo Rnum := demo_mp 1 0 [1] false false [0] [0] 3.
Definition ramp_w : list R := [1 / 4; 1 / 2; 1 / 4].
Definition ramp_rc : rcfg := Rcfg 9 ["spectral"]%string.
Lemma ramp_widths : widths_ok 3 1 ramp_w.
Proof.
  split; [reflexivity|]. intros [|ph] Hph; [|lia]. split; [reflexivity|]. split; [|cbn; lra].
  intros w Hw. repeat (destruct Hw as [<-|Hw]; [lra|]). destruct Hw.
Qed.
Lemma ramp_z : exists z, input_ok ramp_mp (fun _ => None) (fun _ => None) z ramp_w /\ same_traj ramp_mp (user_traj ramp_mp z 0) (rest ramp 0 1).
Proof.
  assert (P1 : forall s, In s [1] -> 0 < s) by (intros s [<-|[]]; lra).
  destruct (demo_z 1 0 [1] false false [0] [0] eq_refl eq_refl eq_refl P1 (le_n 1) 3 ltac:(lia) ramp 1 ramp_w ltac:(lra) eq_refl)
    as (z & n & Hi & _ & Hs & _). exists z. split; [exact Hi|exact Hs].
Qed.
Lemma trunc_three_halves x : x = 3 / 2 -> Rtrunc x = 1%Z.
Proof.
  intros ->. unfold Rtrunc. destruct (Rle_dec 0 (3 / 2)) as [_|C]; [|lra]. destruct (base_Int_part (3 / 2)) as [B1 B2].
  assert (A : IZR (Int_part (3 / 2)) < 2) by lra. apply lt_IZR in A. assert (B : 0 < IZR (Int_part (3 / 2))) by lra. apply lt_IZR in B. lia.
Qed.
Lemma ramp_new : widths_at_times (N := Rnum) [3 / 4] 3 0 1 = Ok [3 / 8; 3 / 8; 1 / 4].
Proof.
  unfold widths_at_times. cbn [List.length Nat.ltb Nat.leb Nat.sub andb sort_by fold_right insert_by Nat.eqb]. unfold last_. cbn [at_ nth_error bind List.length last rev app List.last].
  assert (T : forall x, x = 3 / 2 -> Z.to_nat (1 + Rtrunc x) = 2%nat) by (intros x E; rewrite (trunc_three_halves x E); reflexivity).
  nred. rewrite T by (rewrite nofnat_R; cbn [INR]; field).
  cbn [Nat.add Nat.leb bind seq mapM repeat app map Nat.sub]. rewrite nofnat_R. cbn [INR].
  replace (nofZ (N := Rnum) (Z.of_nat 3 - Z.of_nat 2)) with 1 by (cbn; nred; ring).
  f_equal. f_equal; [field|]. f_equal; [field|]. f_equal. field.
Qed.
(** refinement of the widths 1/4, 1/2, 1/4: the control has slope 4 at node 1 (time 1/4) and slope 3 at node 2 (time 3/4);
    node 2 becomes a boundary of the new mesh and node 1 does not *)
Lemma steeper_left_out : exists rc mp npath nterm z sw rs tol lbh ubh threshold ws e,
  input_ok mp npath nterm z sw /\ widths_ok (mp_nseg mp) 1 sw /\ o_nph (mp_ocp mp) = 1%nat /\ mapM (c_roots (mp_cf mp)) (mp_orders mp) = Ok rs /\
  let y := user_traj mp z 0 in let w := width mp sw 0 in
  owned (mp_orders mp) 1 0 1 /\ owned (mp_orders mp) 2 1 1 /\ time_slope mp rs w y 0 1 4 /\ time_slope mp rs w y 1 1 3 /\
  refine_by_slope rc mp tol lbh ubh threshold sw z = Ok (ws, e) /\
  (forall k, (k <= mp_nseg mp)%nat -> boundary (y_t0 y) (y_tf y) ws k <> node_time (mp_cf mp) w y 0 (nth 1 (nth 0 rs []) 0)) /\
  exists k, (1 <= k < mp_nseg mp)%nat /\ boundary (y_t0 y) (y_tf y) ws k = node_time (mp_cf mp) w y 1 (nth 1 (nth 1 rs []) 0).
Proof.
  destruct ramp_z as (z & Hin & Hy). pose proof Hy as (_ & Hu & H0 & H1 & _). cbn [rest y_t0 y_tf] in H0, H1.
  set (rs := repeat [-1; 1] 3).
  assert (Ers : mapM (c_roots (mp_cf ramp_mp)) (mp_orders ramp_mp) = Ok rs) by exact (demo_roots 1 0 [1] false false [0] [0] 3).
  assert (O1 : owned (mp_orders ramp_mp) 1 0 1) by (exists 1%nat; cbn; repeat split; auto).
  assert (O2 : owned (mp_orders ramp_mp) 2 1 1) by (exists 1%nat; cbn; repeat split; auto).
  assert (Hg : forall ph, (ph < 1)%nat -> exists g, nth_error (r_grid ramp_rc) ph = Some g /\ grid_known g).
  { intros [|ph] Hph; [|lia]. eexists. split; [reflexivity|]. unfold grid_known. cbn. auto. }
  destruct (Hg 0%nat ltac:(lia)) as (g & Eg & Hk).
  assert (Hu' : forall i, (i < 4)%nat -> y_u (user_traj ramp_mp z 0) i 0 = ramp i 0) by (intros i Hi; apply (Hu i 0%nat); cbn; lia).
  assert (Htimes : forall ph, (ph < 1)%nat -> y_t0 (user_traj ramp_mp z ph) < y_tf (user_traj ramp_mp z ph)).
  { intros [|ph] Hph; [|lia]. rewrite H0, H1. lra. }
  destruct (refine_slope_ok ramp_rc ramp_mp _ _ z ramp_w Hin ramp_widths (le_n 1) g Eg Hk [0] [1 / 100] [1] (6 / 10) (le_n 1) Hg (le_n 1) (le_n 1))
    as (ws & e & ts & res & Er & Hws & _ & _ & Hst); try (intros x [<-|[]]; lra); [cbn; lia|exact Htimes|].
  specialize (Hst 0%nat ltac:(cbn; lia)). destruct Hst as [_ Hst].
  destruct Hst as (rs' & t & du & Ers' & Ht & Hdu & Ew); [intros [_ C]; cbn in C; lra|].
  assert (rs' = rs) by exact (f_equal (fun r => match r with Ok t => t | _ => [] end) (eq_trans (eq_sym Ers') Ers)). subst rs'.
  assert (S : forall k, (k < 2)%nat -> slope du (S k) = (ramp (S k) 0 - ramp k 0) / 2).
  { intros k Hk2. destruct Hdu as [_ Hdu].
    assert (O : owned (mp_orders ramp_mp) (S k) k 1) by (destruct k as [|[|k]]; [exact O1|exact O2|lia]).
    destruct (Hdu (S k) k 1%nat O) as [Hl Hv].
    assert (Hc : seg_interp (mp_orders ramp_mp) k (nth k rs []) (fun i => y_u (user_traj ramp_mp z 0) i 0) [(ramp k 0 + ramp (S k) 0) / 2; (ramp (S k) 0 - ramp k 0) / 2]).
    { assert (En : nth k rs [] = [-1; 1]) by (destruct k as [|[|k]]; [reflexivity|reflexivity|lia]). rewrite En. split; [cbn; lia|].
      intros [|[|j]] Hj; [| |cbn in Hj; lia]; rewrite Hu' by (destruct k as [|[|k]]; cbn; lia);
        (destruct k as [|[|k]]; [| |lia]); cbn; field. }
    specialize (Hv 0%nat _ ltac:(cbn; lia) Hc). rewrite (line_Derive _ ((ramp k 0 + ramp (S k) 0) / 2) ((ramp (S k) 0 - ramp k 0) / 2)) in Hv by (intros x; cbn [peval]; ring).
    unfold slope. destruct (nth (S k) du []) as [|a [|b r]] eqn:Ed; cbn in Hl; try lia. cbn [nth] in Hv. rewrite Hv. cbn [map total fold_right].
    unfold total. cbn [fold_right]. rewrite Rplus_0_r.
    assert (P : 0 <= (ramp (S k) 0 - ramp k 0) / 2) by (destruct k as [|[|k]]; [cbn; lra|cbn; lra|lia]).
    cbn [mp_ocp ramp_mp demo_mp demo o_scale_u nth]. rewrite Rmult_1_l, (Rabs_right _ (Rle_ge _ _ P)). apply sqrt_square. exact P. }
  pose proof (S 0%nat ltac:(lia)) as S1. pose proof (S 1%nat ltac:(lia)) as S2. cbn in S1, S2. clear S.
  destruct Ht as [Lt Ht]. destruct Hdu as [Ldu _].
  assert (T2 : nth 2 t 0 = 3 / 4).
  { rewrite (Ht 2%nat 1%nat 1%nat O2). unfold node_time. rewrite H0, H1. unfold width. cbn. nred. field. }
  assert (Tm : time_at_max (N := Rnum) t du (6 / 10) = [3 / 4]).
  { rewrite time_at_max_eq by (nred; congruence). unfold cand. nred. rewrite Lt. cbn [total_nodes mp_orders ramp_mp demo_mp repeat fold_right Nat.add Nat.sub seq filter].
    unfold total_nodes. cbn. rewrite S1, S2.
    replace (Rleb (6 / 10) ((1 - 0) / 2)) with false by (symmetry; apply Rleb_false; lra).
    replace (Rleb (6 / 10) ((5 / 2 - 1) / 2)) with true by (symmetry; apply Rleb_true; lra). cbn. rewrite T2. reflexivity. }
  assert (Ews : phase_part (mp_nseg ramp_mp) 0 ws = [3 / 8; 3 / 8; 1 / 4]).
  { unfold widths_by_slope in Ew. nred. rewrite Tm in Ew. rewrite H0, H1 in Ew. pose proof ramp_new as Q. cbn [ramp_mp demo_mp mp_nseg] in Ew. nred. rewrite Q in Ew. cbn [bind] in Ew.
    rewrite (clamp_keeps _ _ 3) in Ew; [symmetry; exact (f_equal (fun r => match r with Ok t => t | _ => [] end) Ew)| |].
    - split; [reflexivity|]. split; [|cbn; lra]. intros w Hw. repeat (destruct Hw as [<-|Hw]; [lra|]). destruct Hw.
    - cbn [nth]. intros w Hw. repeat (destruct Hw as [<-|Hw]; [lra|]). destruct Hw. }
  assert (Ewl : ws = [3 / 8; 3 / 8; 1 / 4]).
  { unfold phase_part in Ews. cbn [ramp_mp demo_mp mp_nseg Nat.mul skipn] in Ews. rewrite firstn_all2 in Ews; [exact Ews|].
    destruct Hws as [L _]. cbn [ramp_mp demo_mp mp_nseg mp_ocp demo o_nph] in L. exact (Nat.eq_le_incl _ _ L). }
  exists ramp_rc, ramp_mp, (fun _ => None), (fun _ => None), z, ramp_w, rs, [0], [1 / 100], [1], (6 / 10), ws, e.
  split; [exact Hin|]. split; [exact ramp_widths|]. split; [reflexivity|]. split; [exact Ers|]. cbv zeta. split; [exact O1|]. split; [exact O2|].
  assert (Tn : forall k tau, node_time (mp_cf ramp_mp) (width ramp_mp ramp_w 0) (user_traj ramp_mp z 0) k tau = Rsum k (width ramp_mp ramp_w 0) + width ramp_mp ramp_w 0 k * ((tau + 1) / 2)).
  { intros k tau. unfold node_time. rewrite H0, H1. cbn [mp_cf ramp_mp demo_mp demo_cf cf_tau0 cf_tau1]. nred. field. }
  split; [|split; [|split; [exact Er|split]]].
  - exists (fun _ => [0; 4]). split.
    + intros [|q] Hq; [|cbn in Hq; lia]. split; [cbn; lia|]. intros j Hj. rewrite map_length in Hj. cbn [rs repeat nth length] in Hj.
      rewrite Hu' by (cbn; lia). destruct j as [|[|j]]; [| |lia]; cbn [rs repeat nth map]; rewrite Tn; unfold width, ramp_w, ramp; cbn; field.
    + cbn [vec map seq mp_ocp ramp_mp demo_mp demo o_nu]. rewrite (line_Derive _ 0 4) by (intros x; cbn [peval]; ring).
      unfold total. cbn [o_scale_u fold_right nth demo]. replace (1 * 4 * (1 * 4) + 0) with (4 * 4) by ring. symmetry. apply sqrt_square. lra.
  - exists (fun _ => [1 / 4; 3]). split.
    + intros [|q] Hq; [|cbn in Hq; lia]. split; [cbn; lia|]. intros j Hj. rewrite map_length in Hj. cbn [rs repeat nth length] in Hj.
      rewrite Hu' by (cbn; lia). destruct j as [|[|j]]; [| |lia]; cbn [rs repeat nth map]; rewrite Tn; unfold width, ramp_w, ramp; cbn; field.
    + cbn [vec map seq mp_ocp ramp_mp demo_mp demo o_nu]. rewrite (line_Derive _ (1 / 4) 3) by (intros x; cbn [peval]; ring).
      unfold total. cbn [o_scale_u fold_right nth demo]. replace (1 * 3 * (1 * 3) + 0) with (3 * 3) by ring. symmetry. apply sqrt_square. lra.
  - intros k Hk3. rewrite Tn. unfold boundary. rewrite H0, H1, Ewl. cbn [ramp_mp demo_mp mp_nseg] in Hk3.
    destruct k as [|[|[|[|k]]]]; [| | | |lia]; unfold width, ramp_w, rs; cbn; nred; lra.
  - exists 2%nat. split; [cbn; lia|]. rewrite Tn. unfold boundary. rewrite H0, H1, Ewl. unfold width, ramp_w, rs; cbn; nred; lra.
Qed.
Lemma ramp_case : exists z du, input_ok ramp_mp (fun _ => None) (fun _ => None) z ramp_w /\
  (forall k, (k < mp_nseg ramp_mp)%nat -> 0 < width ramp_mp ramp_w 0 k) /\ y_t0 (user_traj ramp_mp z 0) < y_tf (user_traj ramp_mp z 0) /\
  exists rs, mapM (c_roots (mp_cf ramp_mp)) (mp_orders ramp_mp) = Ok rs /\ local_slopes ramp_mp rs (user_traj ramp_mp z 0) du /\
    exists v v', time_slope ramp_mp rs (width ramp_mp ramp_w 0) (user_traj ramp_mp z 0) 0 1 v /\
      time_slope ramp_mp rs (width ramp_mp ramp_w 0) (user_traj ramp_mp z 0) 2 1 v' /\ width ramp_mp ramp_w 0 0 = width ramp_mp ramp_w 0 2.
Proof.
  destruct ramp_z as (z & Hin & Hy). pose proof Hy as (_ & Hu & H0 & H1 & _). cbn [rest y_t0 y_tf] in H0, H1.
  assert (Hg : forall ph, (ph < 1)%nat -> exists g, nth_error (r_grid ramp_rc) ph = Some g /\ grid_known g).
  { intros [|ph] Hph; [|lia]. eexists. split; [reflexivity|]. unfold grid_known. cbn. auto. }
  destruct (Hg 0%nat ltac:(lia)) as (g & Eg & Hk).
  assert (Hu' : forall i, (i < 4)%nat -> y_u (user_traj ramp_mp z 0) i 0 = ramp i 0) by (intros i Hi; apply (Hu i 0%nat); cbn; lia).
  assert (Htimes : forall ph, (ph < 1)%nat -> y_t0 (user_traj ramp_mp z ph) < y_tf (user_traj ramp_mp z ph)).
  { intros [|ph] Hph; [|lia]. rewrite H0, H1. lra. }
  destruct (refine_slope_ok ramp_rc ramp_mp _ _ z ramp_w Hin ramp_widths (le_n 1) g Eg Hk [0] [1 / 100] [1] (6 / 10) (le_n 1) Hg (le_n 1) (le_n 1))
    as (ws & e & ts & res & Er & Hws & _ & _ & Hst); try (intros x [<-|[]]; lra); [cbn; lia|exact Htimes|].
  specialize (Hst 0%nat ltac:(cbn; lia)). destruct Hst as [_ Hst].
  destruct Hst as (rs & t & du & Ers & Ht & Hdu & Ew); [intros [_ C]; cbn in C; lra|].
  exists z, du. split; [exact Hin|]. split; [intros [|[|[|k]]] Hk3; unfold width, ramp_w; cbn; [lra|lra|lra|cbn in Hk3; lia]|].
  split; [rewrite H0, H1; lra|]. exists rs. split; [exact Ers|]. split; [exact Hdu|].
  assert (rs = repeat [-1; 1] 3) by exact (f_equal (fun r => match r with Ok t => t | _ => [] end) (eq_trans (eq_sym Ers) (demo_roots 1 0 [1] false false [0] [0] 3))). subst rs.
  assert (Tn : forall k tau, node_time (mp_cf ramp_mp) (width ramp_mp ramp_w 0) (user_traj ramp_mp z 0) k tau = Rsum k (width ramp_mp ramp_w 0) + width ramp_mp ramp_w 0 k * ((tau + 1) / 2)).
  { intros k tau. unfold node_time. rewrite H0, H1. cbn [mp_cf ramp_mp demo_mp demo_cf cf_tau0 cf_tau1]. nred. field. }
  eexists _, _. split; [exists (fun _ => [0; 4]); split; [|reflexivity]|split; [exists (fun _ => [5 / 2; 0]); split; [|reflexivity]|reflexivity]].
  - intros [|q] Hq; [|cbn in Hq; lia]. split; [cbn; lia|]. intros j Hj. rewrite map_length in Hj. cbn [repeat nth length] in Hj.
    rewrite Hu' by (cbn; lia). destruct j as [|[|j]]; [| |lia]; cbn [repeat nth map]; rewrite Tn; unfold width, ramp_w, ramp; cbn; field.
  - intros [|q] Hq; [|cbn in Hq; lia]. split; [cbn; lia|]. intros j Hj. rewrite map_length in Hj. cbn [repeat nth length] in Hj.
    rewrite Hu' by (cbn; lia). destruct j as [|[|j]]; [| |lia]; cbn [repeat nth map]; rewrite Tn; unfold width, ramp_w, ramp; cbn; field.
Qed.
