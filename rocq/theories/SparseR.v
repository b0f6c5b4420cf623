(** What the rows of a program depend on (proofs of C91). *)
From Coq Require Import Reals Lia Lra Bool Arith String.
From Coquelicot Require Import Coquelicot.
From Coq Require Import List.
From Verif Require Import Num PyList Mat Poly Roots Colloc Ocp Transcribe Spec SpecOcp SpecSparse NumR ListR PolyR CollocR CompR CollocThm MeshR BlockR DiscR NlpR OcpR NlpThm NlpMain TrackR ResidThm.
Import ListNotations.
Open Scope R_scope.

Theorem row_values mp npath nterm (z p : list R) : input_ok mp npath nterm z p ->
  exists rs n, mapM (c_roots (mp_cf mp)) (mp_orders mp) = Ok rs /\ nlp_at mp z p = Ok n /\ forall ph, (ph < o_nph (mp_ocp mp))%nat ->
  let o := mp_ocp mp in let N := total_nodes (mp_orders mp) in let w := width mp p ph in let y := user_traj mp z ph in
  (length (c_g (g_block mp npath nterm n ph 0)) = o_nx o * N)%nat /\
  (forall s i k j (c : list R), (s < o_nx o)%nat -> owned (mp_orders mp) i k j -> seg_interp (mp_orders mp) k (nth k rs []) (fun i => y_x y i s) c ->
    nth (s * N + i) (c_g (g_block mp npath nterm n ph 0)) 0 =
      nth s (o_scale_x o) 0 * (Derive (peval c) (nth j (nth k rs []) 0) - seg_h (mp_cf mp) w y k * nth s (dyn_val o ph y i (seg_time (mp_cf mp) w y k (nth j (nth k rs []) 0))) 0)) /\
  ((nth ph (o_midu o) false && some_finite o ph)%bool = true -> (length (c_g (g_block mp npath nterm n ph 3)) = o_nu o * (N - 1))%nat /\
   forall q k r j (c : list R), (q < o_nu o)%nat -> nth_error (mp_orders mp) k = Some r -> (j < r)%nat -> seg_interp (mp_orders mp) k (nth k rs []) (fun i => y_u y i q) c ->
    nth (q * (N - 1) + (offset (mp_orders mp) k + j)) (c_g (g_block mp npath nterm n ph 3)) 0 =
      nth q (o_scale_u o) 0 * peval c ((nth j (nth k rs []) 0 + nth (S j) (nth k rs []) 0) / 2)).
Proof.
  intros Hin. destruct (nlp_blocks_full mp npath nterm z p Hin) as (rs & n & Er & En & HB & _). exists rs, n. split; [exact Er|]. split; [exact En|].
  intros ph Hph o N w y. destruct (HB ph Hph) as (_ & _ & _ & _ & _ & _ & ap & d & Eap & Ed & EF & EM).
  destruct (phase_values mp npath nterm z p Hin ph ap d _ _ Hph Eap Ed EF EM) as (rs' & Er' & (g & EG & Lg & Hg) & HM).
  assert (rs' = rs) as -> by (pose proof (eq_trans (eq_sym Er') Er) as X; injection X as X; exact X).
  rewrite EG. split; [exact Lg|]. split; [exact Hg|]. intros Hm. fold o in HM. rewrite Hm in HM. destruct HM as (g3 & EG3 & L3 & H3). rewrite EG3. split; [exact L3|exact H3].
Qed.
Lemma frame_h cf w o y y' k : same_frame o y y' -> seg_h cf w y k = seg_h cf w y' k.
Proof. intros (E0 & E1 & _). unfold seg_h. rewrite E0, E1. reflexivity. Qed.
Lemma frame_time cf w o y y' k t : same_frame o y y' -> seg_time cf w y k t = seg_time cf w y' k t.
Proof. intros H. unfold seg_time, seg_start. rewrite (frame_h cf w o y y' k H). destruct H as (E0 & E1 & _). rewrite E0, E1. reflexivity. Qed.
Lemma node_dyn o ph y y' i t : same_frame o y y' -> same_node o i y y' -> dyn_val o ph y i t = dyn_val o ph y' i t.
Proof.
  intros (_ & _ & Ea) (Ex & Eu). unfold dyn_val, a_of. rewrite (vec_ext _ _ _ Ex), (vec_ext _ _ _ Eu), (vec_ext _ _ _ Ea). reflexivity.
Qed.
Lemma seg_moves orders k q r f g c : nth_error orders k = Some q -> length r = S q -> same_seg orders k f g -> seg_interp orders k r f c -> seg_interp orders k r g c.
Proof.
  intros Eq Lr H [Hl Hc]. split; [exact Hl|]. intros j Hj. rewrite (Hc j Hj). apply H. rewrite (offset_S _ _ _ Eq). lia.
Qed.
Theorem sparse_thm mp npath nterm (z z' p : list R) : input_ok mp npath nterm z p -> input_ok mp npath nterm z' p ->
  exists n n', nlp_at mp z p = Ok n /\ nlp_at mp z' p = Ok n' /\ forall ph, (ph < o_nph (mp_ocp mp))%nat ->
  let o := mp_ocp mp in let N := total_nodes (mp_orders mp) in let y := user_traj mp z ph in let y' := user_traj mp z' ph in
  (forall s i k j, (s < o_nx o)%nat -> owned (mp_orders mp) i k j -> same_frame o y y' -> same_node o i y y' -> same_seg (mp_orders mp) k (fun i => y_x y i s) (fun i => y_x y' i s) ->
    nth (s * N + i) (c_g (g_block mp npath nterm n ph 0)) 0 = nth (s * N + i) (c_g (g_block mp npath nterm n' ph 0)) 0) /\
  ((nth ph (o_midu o) false && some_finite o ph)%bool = true -> forall q k r j, (q < o_nu o)%nat -> nth_error (mp_orders mp) k = Some r -> (j < r)%nat ->
    same_seg (mp_orders mp) k (fun i => y_u y i q) (fun i => y_u y' i q) ->
    nth (q * (N - 1) + (offset (mp_orders mp) k + j)) (c_g (g_block mp npath nterm n ph 3)) 0 = nth (q * (N - 1) + (offset (mp_orders mp) k + j)) (c_g (g_block mp npath nterm n' ph 3)) 0).
Proof.
  intros Hin Hin'. destruct (row_values mp npath nterm z p Hin) as (rs & n & Er & En & H). destruct (row_values mp npath nterm z' p Hin') as (rs' & n' & Er' & En' & H').
  assert (rs' = rs) as -> by (pose proof (eq_trans (eq_sym Er') Er) as X; injection X as X; exact X).
  exists n, n'. split; [exact En|]. split; [exact En'|]. intros ph Hph o N y y'. destruct (H ph Hph) as (_ & HF & HM). destruct (H' ph Hph) as (_ & HF' & HM').
  assert (Hg : forall k q, nth_error (mp_orders mp) k = Some q -> good_nodes (cf_tau0 (mp_cf mp)) (cf_tau1 (mp_cf mp)) q (nth k rs [])).
  { intros k q Eq. apply (rs_good mp npath nterm z p Hin rs Er k q _ Eq). apply nth_error_nth'. exact (Nat.lt_le_trans _ _ _ (MeshR.nth_error_lt _ _ _ Eq) (Nat.eq_le_incl _ _ (eq_sym (rs_len mp rs Er)))). }
  split.
  - intros s i k j Hs Hown Hfr Hnd Hsg. destruct Hown as (q & Eq & Hj). pose proof (Hg k q Eq) as G. assert (Lr : length (nth k rs []) = S q) by apply G.
    destruct (interp_exists (nth k rs []) (fun j => y_x y (offset (mp_orders mp) k + j)%nat s) (good_nodup _ _ _ _ G)) as (c & Hc).
    pose proof (HF s i k j c Hs (ex_intro _ q (conj Eq Hj)) Hc) as X. pose proof (HF' s i k j c Hs (ex_intro _ q (conj Eq Hj)) (seg_moves _ _ _ _ _ _ _ Eq Lr Hsg Hc)) as X'.
    refine (eq_trans X (eq_trans _ (eq_sym X'))). fold y y' o. rewrite (frame_h _ _ o y y' k Hfr), (frame_time _ _ o y y' k _ Hfr), (node_dyn o ph y y' i _ Hfr Hnd). reflexivity.
  - intros Hm q k r j Hq Eq Hj Hsg. destruct (HM Hm) as (_ & V). destruct (HM' Hm) as (_ & V'). pose proof (Hg k r Eq) as G. assert (Lr : length (nth k rs []) = S r) by apply G.
    destruct (interp_exists (nth k rs []) (fun j => y_u y (offset (mp_orders mp) k + j)%nat q) (good_nodup _ _ _ _ G)) as (c & Hc).
    exact (eq_trans (V q k r j c Hq Eq Hj Hc) (eq_sym (V' q k r j c Hq Eq Hj (seg_moves _ _ _ _ _ _ _ Eq Lr Hsg Hc)))).
Qed.
