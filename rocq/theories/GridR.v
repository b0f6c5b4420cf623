(** Requested points are mapped to segments (proofs). *)
From Coq Require Import String.
From Coq Require Import Reals List Lia Lra Bool Arith Permutation.
From Verif Require Import Num PyList Mat Poly Roots Colloc Ocp Transcribe Hadapt Resid Spec SpecHadapt SpecResid NumR ListR AreaR.
Import ListNotations.
Open Scope R_scope.

Lemma part_In a b l x : In x (part a b l) <-> In x l /\ a < x <= b.
Proof.
  unfold part. rewrite filter_In. destruct (Rlt_dec a x), (Rle_dec x b); split; intros [H H1]; split; auto; try easy; lra.
Qed.
Lemma part_filter a b l : filter (fun x => Rleb x b) (filter (fun x => Rltb a x) l) = part a b l.
Proof.
  unfold part, Rltb, Rleb. induction l as [|x l IH]; [reflexivity|]. cbn.
  destruct (Rlt_dec a x); cbn; [|exact IH]. destruct (Rle_dec x b); cbn; [f_equal|]; exact IH.
Qed.
Lemma part_perm a b c l : a <= b <= c -> Permutation (part a c l) (part a b l ++ part b c l).
Proof.
  intros H. unfold part. induction l as [|x l IH]; [constructor|]. cbn.
  destruct (Rlt_dec a x), (Rle_dec x b), (Rlt_dec b x), (Rle_dec x c); cbn; try lra; auto.
  apply Permutation_cons_app, IH.
Qed.
Lemma sorted_tl x l : sorted (x :: l) -> sorted l.
Proof. intros H i j Hij. apply (H (S i) (S j)). cbn; lia. Qed.
Lemma sorted_hd x l y : sorted (x :: l) -> In y l -> x <= y.
Proof. intros H Hy. destruct (In_nth _ _ 0 Hy) as (i & Hi & <-). apply (H 0%nat (S i)). cbn; lia. Qed.
Lemma part_nil a b l : (forall x, In x l -> x <= a \/ b < x) -> part a b l = [].
Proof.
  unfold part. induction l as [|x l IH]; intros H; [reflexivity|]. cbn. rewrite IH by (intros; apply H; cbn; auto).
  destruct (H x (or_introl eq_refl)); destruct (Rlt_dec a x), (Rle_dec x b); try lra; reflexivity.
Qed.
Lemma part_app a b c l : a <= b <= c -> sorted l -> part a c l = part a b l ++ part b c l.
Proof.
  intros H. induction l as [|x l IH]; intros Hs; [reflexivity|]. pose proof (fun y => sorted_hd x l y Hs) as Hd.
  specialize (IH (sorted_tl _ _ Hs)). unfold part in *. cbn.
  destruct (Rlt_dec a x), (Rle_dec x b), (Rlt_dec b x), (Rle_dec x c); cbn; try lra; rewrite ?IH; try reflexivity.
  pose proof (part_nil a b l) as Z. unfold part in Z. rewrite Z; [reflexivity|].
  intros y Hy. right. specialize (Hd y Hy). lra.
Qed.

Lemma total_firstn_le l i j : (forall w, In w l -> 0 <= w) -> (i <= j)%nat -> total (firstn i l) <= total (firstn j l).
Proof.
  revert i j; induction l as [|a l IH]; intros i j Hp H; [rewrite !firstn_nil; lra|].
  pose proof (Hp a (or_introl eq_refl)) as Ha. assert (Hp' : forall w, In w l -> 0 <= w) by (intros; apply Hp; cbn; auto).
  destruct j as [|j]; [replace i with 0%nat by lia; lra|]. destruct i as [|i].
  - cbn. specialize (IH 0%nat j Hp' ltac:(lia)). cbn in IH. unfold total in *. lra.
  - cbn. specialize (IH i j Hp' ltac:(lia)). unfold total in *. lra.
Qed.

Section Taus.
Variables (nodes ws : list R) (tau0 tau1 : R).
Hypothesis Ht : tau0 < tau1.
Hypothesis Hw : forall w, In w ws -> 0 <= w.
Let c (k : nat) : R := total (firstn k ws).
Let scaled := map (frac tau0 tau1) nodes.
Let seg (k : nat) : list R := map (fun x => tau0 + (tau1 - tau0) * ((x - c k) / nth k ws 0)) (part (c k) (c (S k)) scaled).

Lemma c_step k : (k < length ws)%nat -> c (S k) = c k + nth k ws 0.
Proof. intros H. apply firstn_S_total. exact H. Qed.
Lemma c_le k : c k <= c (S k).
Proof. apply total_firstn_le; auto. Qed.

Lemma taus_eq : Rabs (total ws - 1) < 1 / 1000000 ->
  interpolation_taus (N := Rnum) nodes ws tau0 tau1 = Ok (map seg (seq 0 (length ws))).
Proof.
  intros Hs. unfold interpolation_taus.
  assert (E : last_ (n0 :: cumsum (N := Rnum) ws) = Ok (total ws)).
  { pose proof (cum_nth ws (length ws) (le_n _)) as E. rewrite firstn_all in E. rewrite <- E.
    pose proof (@last_ok R (0 :: cumsum (N := Rnum) ws) 0 ltac:(discriminate)) as L.
    cbn [length] in L. nred. pose proof (cumsum_len ws) as CL. nred. rewrite CL in L.
    replace (S (length ws) - 1)%nat with (length ws) in L by lia. exact L. }
  nred. rewrite E. cbn [bind]. unfold grid_tol. rewrite nlit_R.
  pose proof (nabs_R (total ws - 1)) as A. change (@nabs Rnum) with (fun x : R => if Rltb x 0 then - x else x) in *. nred. cbv beta in *. rewrite A.
  replace (Rltb (Rabs (total ws - 1)) (1 / 1000000)) with true by (symmetry; apply Rltb_true; exact Hs).
  cbn [assert_ bind].
  erewrite (@mapM_ok (nat * R) (list R) _ (fun p => seg (fst p))).
  - f_equal. unfold enumerate. rewrite <- (map_map fst seg). f_equal.
    clear. generalize 0%nat. induction ws as [|a l IH]; intros k; [reflexivity|]. cbn. f_equal. apply IH.
  - intros [i w] Hi. apply in_enumerate in Hi. assert (Hl : (i < length ws)%nat) by (apply nth_error_Some; congruence).
    assert (W : nth i ws 0 = w) by (apply nth_error_nth; exact Hi).
    assert (A1 : forall j, (j <= length ws)%nat -> at_ (0 :: cumsum (N := Rnum) ws) j = Ok (c j)).
    { intros j Hj. unfold at_. pose proof (cum_nth ws j Hj) as E1. fold (c j) in E1.
      rewrite (nth_error_nth' _ 0). 2:{ cbn [length]. pose proof (cumsum_len ws). nred. lia. } nred. now rewrite E1. }
    nred. rewrite (A1 i) by lia. cbn [bind]. replace (i + 1)%nat with (S i) by lia. rewrite (A1 (S i)) by lia. cbn [bind].
    f_equal. unfold seg. cbn [fst]. rewrite W.
    assert (S1 : map (fun x => 1 / (tau1 - tau0) * (x - tau0)) nodes = scaled).
    { unfold scaled. apply map_ext. intros x. unfold frac. field. lra. }
    rewrite S1. f_equal. apply part_filter.
Qed.

Lemma seg_local k x : (k < length ws)%nat -> In x (seg k) -> tau0 < x <= tau1.
Proof.
  intros Hk H. unfold seg in H. apply in_map_iff in H. destruct H as (y & <- & Hy). apply part_In in Hy. destruct Hy as [_ Hy].
  rewrite c_step in Hy by exact Hk. set (w := nth k ws 0) in *. assert (Hp : 0 < w) by lra.
  assert (0 < (y - c k) / w <= 1).
  { split; [apply Rdiv_lt_0_compat; lra|]. apply (Rmult_le_reg_r w); [lra|]. unfold Rdiv. rewrite Rmult_assoc, Rinv_l by lra. lra. }
  split; nra.
Qed.
Lemma seg_positions k : (k < length ws)%nat -> map (position tau0 tau1 ws k) (seg k) = part (c k) (c (S k)) scaled.
Proof.
  intros Hk. unfold seg. rewrite map_map. rewrite <- (map_id (part (c k) (c (S k)) scaled)) at 2.
  apply map_ext_in. intros x Hx. apply part_In in Hx. destruct Hx as [_ Hx]. rewrite c_step in Hx by exact Hk.
  unfold position, frac. fold (c k). field. lra.
Qed.
Lemma positions_eq : positions tau0 tau1 ws (map seg (seq 0 (length ws)))
  = concat (map (fun k => part (c k) (c (S k)) scaled) (seq 0 (length ws))).
Proof.
  unfold positions. rewrite map_length, seq_length. f_equal. apply map_ext_in. intros k Hk. apply in_seq in Hk.
  rewrite <- seg_positions by lia. f_equal.
  rewrite (nth_indep _ [] (seg 0)) by (rewrite map_length, seq_length; lia). rewrite map_nth. rewrite seq_nth by lia. reflexivity.
Qed.
Lemma parts_perm n : Permutation (concat (map (fun k => part (c k) (c (S k)) scaled) (seq 0 n))) (part 0 (c n) scaled).
Proof.
  induction n as [|n IH].
  - cbn. rewrite part_nil; [constructor|]. intros x _. unfold c. cbn. lra.
  - rewrite seq_S, map_app, concat_app, Nat.add_0_l. cbn [map concat]. rewrite app_nil_r.
    eapply perm_trans; [apply Permutation_app_tail, IH|]. apply Permutation_sym, part_perm. split; [|apply c_le].
    change 0 with (c 0). unfold c. apply total_firstn_le; [exact Hw|lia].
Qed.
Lemma parts_sorted n : sorted scaled -> concat (map (fun k => part (c k) (c (S k)) scaled) (seq 0 n)) = part 0 (c n) scaled.
Proof.
  intros Hs. induction n as [|n IH].
  - cbn. rewrite part_nil; [constructor|]. intros x _. unfold c. cbn. lra.
  - rewrite seq_S, map_app, concat_app, Nat.add_0_l. cbn [map concat]. rewrite app_nil_r, IH.
    symmetry. apply part_app; [|exact Hs]. split; [|apply c_le].
    change 0 with (c 0). unfold c. apply total_firstn_le; [exact Hw|lia].
Qed.
Lemma frac_mono x y : x <= y -> frac tau0 tau1 x <= frac tau0 tau1 y.
Proof. intros H. unfold frac. apply Rmult_le_compat_r; [left; apply Rinv_0_lt_compat; lra|lra]. Qed.
Lemma frac_lt x y : x < y -> frac tau0 tau1 x < frac tau0 tau1 y.
Proof. intros H. unfold frac. apply Rmult_lt_compat_r; [apply Rinv_0_lt_compat; lra|lra]. Qed.
Lemma frac_0 : frac tau0 tau1 tau0 = 0.
Proof. unfold frac. field. lra. Qed.
Lemma frac_1 : frac tau0 tau1 tau1 = 1.
Proof. unfold frac. field. lra. Qed.
Lemma part_frac l : part 0 1 (map (frac tau0 tau1) l) = map (frac tau0 tau1) (part tau0 tau1 l).
Proof.
  induction l as [|x l IH]; [reflexivity|]. unfold part in *. cbn. rewrite IH.
  pose proof frac_0. pose proof frac_1.
  destruct (Rlt_dec tau0 x) as [a|a].
  - apply frac_lt in a. destruct (Rlt_dec 0 (frac tau0 tau1 x)); [|lra].
    destruct (Rle_dec x tau1) as [b|b].
    + apply frac_mono in b. destruct (Rle_dec (frac tau0 tau1 x) 1); [reflexivity|lra].
    + assert (b' : tau1 < x) by lra. apply frac_lt in b'. destruct (Rle_dec (frac tau0 tau1 x) 1); [lra|reflexivity].
  - assert (a' : x <= tau0) by lra. apply frac_mono in a'. destruct (Rlt_dec 0 (frac tau0 tau1 x)); [lra|reflexivity].
Qed.
Lemma scaled_sorted : sorted nodes -> sorted scaled.
Proof.
  intros H i j Hij. unfold scaled in *. rewrite map_length in Hij.
  rewrite !(nth_indep _ 0 (frac tau0 tau1 0)) by (rewrite map_length; lia). rewrite !map_nth. apply frac_mono, H. exact Hij.
Qed.

Theorem taus_thm : total ws = 1 ->
  exists ts, interpolation_taus (N := Rnum) nodes ws tau0 tau1 = Ok ts /\ length ts = length ws /\
    (forall l x, In l ts -> In x l -> tau0 < x <= tau1) /\
    Permutation (positions tau0 tau1 ws ts) (map (frac tau0 tau1) (part tau0 tau1 nodes)) /\
    (sorted nodes -> positions tau0 tau1 ws ts = map (frac tau0 tau1) (part tau0 tau1 nodes)).
Proof.
  intros Hs. exists (map seg (seq 0 (length ws))). split; [apply taus_eq; rewrite Hs; unfold Rminus; rewrite Rplus_opp_r, Rabs_R0; lra|].
  split; [now rewrite map_length, seq_length|]. split.
  - intros l x Hl Hx. apply in_map_iff in Hl. destruct Hl as (k & <- & Hk). apply in_seq in Hk. apply (seg_local k); [lia|exact Hx].
  - rewrite positions_eq, <- part_frac. assert (C : c (length ws) = 1) by (unfold c; now rewrite firstn_all). rewrite <- C at 1. split; [apply parts_perm|].
    intros Hn. rewrite parts_sorted by (apply scaled_sorted; exact Hn). rewrite C. reflexivity.
Qed.
(** within the tolerance the phase ends at the sum of the widths *)
Theorem taus_tol_thm : Rabs (total ws - 1) < 1 / 1000000 ->
  exists ts, interpolation_taus (N := Rnum) nodes ws tau0 tau1 = Ok ts /\ length ts = length ws /\
    (forall l x, In l ts -> In x l -> tau0 < x <= tau1) /\
    Permutation (positions tau0 tau1 ws ts) (part 0 (total ws) (map (frac tau0 tau1) nodes)).
Proof.
  intros Hs. exists (map seg (seq 0 (length ws))). split; [apply taus_eq; exact Hs|].
  split; [now rewrite map_length, seq_length|]. split.
  - intros l x Hl Hx. apply in_map_iff in Hl. destruct Hl as (k & <- & Hk). apply in_seq in Hk. apply (seg_local k); [lia|exact Hx].
  - rewrite positions_eq. assert (C : c (length ws) = total ws) by (unfold c; now rewrite firstn_all). rewrite <- C at 1. apply parts_perm.
Qed.
End Taus.

Lemma taus_raise (nodes ws : list R) tau0 tau1 : 1 / 1000000 <= Rabs (total ws - 1) ->
  interpolation_taus (N := Rnum) nodes ws tau0 tau1 = Raise AssertionError.
Proof.
  intros Hs. unfold interpolation_taus.
  assert (E : last_ (n0 :: cumsum (N := Rnum) ws) = Ok (total ws)).
  { pose proof (cum_nth ws (length ws) (le_n _)) as E. rewrite firstn_all in E. rewrite <- E.
    pose proof (@last_ok R (0 :: cumsum (N := Rnum) ws) 0 ltac:(discriminate)) as L.
    cbn [length] in L. nred. pose proof (cumsum_len ws) as CL. nred. rewrite CL in L.
    replace (S (length ws) - 1)%nat with (length ws) in L by lia. exact L. }
  nred. rewrite E. cbn [bind]. unfold grid_tol. rewrite nlit_R.
  pose proof (nabs_R (total ws - 1)) as A. change (@nabs Rnum) with (fun x : R => if Rltb x 0 then - x else x) in *. nred. cbv beta in *. rewrite A.
  replace (Rltb (Rabs (total ws - 1)) (1 / 1000000)) with false by (symmetry; apply Rltb_false; exact Hs).
  reflexivity.
Qed.

(** ** Times *)
Lemma time_grid_thm (t : list R) (taus : list (list R)) (orders : list nat) tau0 tau1 : tau0 <> tau1 ->
  length t = total_nodes orders -> length taus = length orders ->
  time_grid (N := Rnum) t taus orders tau0 tau1
  = Ok (concat (map (fun k => map (time_at tau0 tau1 t orders k) (nth k taus [])) (seq 0 (length orders)))).
Proof.
  intros Ht Hl Hk. unfold time_grid.
  assert (A : forall i, (i < length t)%nat -> at_ t i = Ok (nth i t 0)).
  { intros i Hi. unfold at_. now rewrite (nth_error_nth' t 0 Hi). }
  unfold total_nodes in Hl. nred. rewrite (A 0%nat) by lia. cbn [bind].
  rewrite (@mapM_ok nat R _ (fun i => nth (offset orders (S i)) t 0)).
  2:{ intros i Hi. apply in_seq in Hi. replace (i + 1)%nat with (S i) by lia. rewrite nsum_firstn. apply A.
      pose proof (offset_mono orders (S i) (length orders) ltac:(lia)). lia. }
  cbn [bind].
  assert (B : forall i, (i <= length orders)%nat ->
     at_ (nth 0 t 0 :: map (fun i => nth (offset orders (S i)) t 0) (seq 0 (length orders))) i = Ok (nth (offset orders i) t 0)).
  { intros i Hi. unfold at_. rewrite (nth_error_nth' _ 0) by (cbn; rewrite map_length, seq_length; lia). f_equal.
    destruct i as [|i]; [now destruct orders|]. cbn [nth].
    rewrite (nth_indep _ 0 ((fun i => nth (offset orders (S i)) t 0) 0%nat)) by (rewrite map_length, seq_length; lia).
    rewrite (map_nth (fun i => nth (offset orders (S i)) t 0)). rewrite seq_nth by lia. reflexivity. }
  rewrite (@mapM_ok nat (list R) _ (fun k => map (time_at tau0 tau1 t orders k) (nth k taus []))); [reflexivity|].
  intros i Hi. apply in_seq in Hi. rewrite (B i) by lia. cbn [bind]. rewrite (B (i + 1)%nat) by lia. cbn [bind].
  unfold at_. rewrite (nth_error_nth' taus []) by (unfold carrier in *; lia). cbn [bind]. f_equal. apply map_ext. intros x.
  unfold time_at, frac. replace (i + 1)%nat with (S i) by lia. nred. unfold Rdiv. ring.
Qed.
