(** What limiting and normalising does to widths (proofs for C29). *)
From Coq Require Import Reals List Lia Lra.
From Verif Require Import Num PyList Hadapt Spec SpecHadapt NumR ListR MergeR AreaR SlopeR.
Import ListNotations.
Open Scope R_scope.

Lemma clamp_spec lo hi w : lo <= hi -> clamp (N := Rnum) lo hi w = Rmin hi (Rmax lo w).
Proof.
  intros A. unfold clamp. nred. destruct (Rltb hi w) eqn:E1, (Rltb w lo) eqn:E2; rewrite ?Rltb_true, ?Rltb_false in *; unfold Rmin, Rmax;
  destruct (Rle_dec lo w); destruct (Rle_dec hi w); destruct (Rle_dec hi lo); lra.
Qed.
Theorem clamp_shape lo hi n ws : 0 < lo -> lo <= hi -> partition n ws ->
  exists k, 0 < k /\ forall i, (i < n)%nat -> nth i (clamp_widths (N := Rnum) lo hi ws) 0 = k * Rmin hi (Rmax lo (nth i ws 0)).
Proof.
  intros A B (Hl & Hp & Ht). rewrite clamp_widths_R. set (s := total (map (clamp (N := Rnum) lo hi) ws)).
  assert (Hs : 0 < s).
  { apply total_pos; [destruct ws; [cbn in Ht; lra|discriminate]|]. intros w Hw. apply in_map_iff in Hw. destruct Hw as (x & <- & Hx). apply clamp_pos; [exact A|lra|auto]. }
  exists (/ s). split; [now apply Rinv_0_lt_compat|]. intros i Hi.
  rewrite map_map. rewrite (nth_indep _ 0 ((fun w => clamp (N := Rnum) lo hi w / s) 0)) by (rewrite map_length; clear - Hl Hi; nred; rewrite Hl; exact Hi).
  rewrite (map_nth (fun w => clamp (N := Rnum) lo hi w / s) ws 0 i). rewrite clamp_spec by exact B. unfold Rdiv. apply Rmult_comm.
Qed.
Theorem clamp_ratio lo hi n ws : 0 < lo -> lo <= hi -> partition n ws ->
  let out := clamp_widths (N := Rnum) lo hi ws in
  (forall i j, (i < n)%nat -> (j < n)%nat -> lo * nth i out 0 <= hi * nth j out 0) /\
  (forall i j, (i < n)%nat -> (j < n)%nat -> nth i ws 0 <= nth j ws 0 -> nth i out 0 <= nth j out 0).
Proof.
  intros A B P out. destruct (clamp_shape lo hi n ws A B P) as (k & Hk & H). unfold out. split.
  - intros i j Hi Hj. rewrite !H by auto.
    assert (X : Rmin hi (Rmax lo (nth i ws 0)) <= hi) by apply Rmin_l.
    assert (Y : lo <= Rmin hi (Rmax lo (nth j ws 0))) by (apply Rmin_glb; [exact B|apply Rmax_l]).
    apply Rle_trans with (k * (lo * hi)); [|].
    + replace (lo * (k * Rmin hi (Rmax lo (nth i ws 0)))) with (k * (lo * Rmin hi (Rmax lo (nth i ws 0)))) by ring.
      apply Rmult_le_compat_l; [lra|]. apply Rmult_le_compat_l; lra.
    + replace (hi * (k * Rmin hi (Rmax lo (nth j ws 0)))) with (k * (Rmin hi (Rmax lo (nth j ws 0)) * hi)) by ring.
      apply Rmult_le_compat_l; [lra|]. apply Rmult_le_compat_r; lra.
  - intros i j Hi Hj L. rewrite !H by auto. apply Rmult_le_compat_l; [lra|]. apply Rle_min_compat_l, Rle_max_compat_l, L.
Qed.
