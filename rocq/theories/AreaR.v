(** Equal-area refinement (proofs). *)
From Coq Require Import Reals List Lia Lra Bool Arith.
From Verif Require Import Num PyList Mat Hadapt Spec SpecHadapt NumR ListR MergeR.
Import ListNotations.
Open Scope R_scope.

Lemma last_snoc {A} (l : list A) a : last_ (l ++ [a]) = Ok a.
Proof. unfold last_. rewrite rev_app_distr. reflexivity. Qed.
Lemma last_ok {A} (l : list A) d : l <> [] -> last_ l = Ok (nth (length l - 1) l d).
Proof.
  intros H. destruct (exists_last H) as (m & a & ->). rewrite last_snoc, app_length. cbn.
  rewrite app_nth2 by lia. replace (length m + 1 - 1 - length m)%nat with 0%nat by lia. reflexivity.
Qed.
Lemma diff_len (l : list R) : length (diff_ (N := Rnum) l) = (length l - 1)%nat.
Proof.
  induction l as [|a l IH]; [reflexivity|]. destruct l as [|b l]; [reflexivity|].
  cbn [diff_ length] in *. rewrite IH. lia.
Qed.
Lemma diff_nth (l : list R) : forall i, (S i < length l)%nat -> nth i (diff_ (N := Rnum) l) 0 = nth (S i) l 0 - nth i l 0.
Proof.
  induction l as [|a l IH]; intros i H; [cbn in H; lia|]. destruct l as [|b l]; [cbn in H; lia|].
  destruct i as [|i]; [reflexivity|]. change (nth (S i) (diff_ (N := Rnum) (a :: b :: l)) 0) with (nth i (diff_ (N := Rnum) (b :: l)) 0).
  rewrite IH by (cbn in *; lia). reflexivity.
Qed.
Lemma diff_prefix (l : list R) : forall i, (i < length l)%nat -> total (firstn i (diff_ (N := Rnum) l)) = nth i l 0 - nth 0 l 0.
Proof.
  induction l as [|a l IH]; intros i H; [cbn in H; lia|].
  destruct i as [|i]; [cbn; lra|]. destruct l as [|b l]; [cbn in H; lia|].
  change (diff_ (N := Rnum) (a :: b :: l)) with ((b - a) :: diff_ (N := Rnum) (b :: l)). cbn [firstn].
  change (total (?x :: ?y)) with (x + total y). rewrite IH by (cbn in *; lia). cbn [nth]. lra.
Qed.
Lemma cumsum_from_nth (l : list R) : forall a i, (i < length l)%nat ->
  nth i (cumsum_from (N := Rnum) a l) 0 = a + total (firstn (S i) l).
Proof.
  induction l as [|b l IH]; intros a i H; [cbn in H; lia|]. cbn [cumsum_from]. cbv zeta.
  destruct i as [|i]; [nred; cbn; lra|]. cbn [nth]. nred. rewrite IH by (cbn in H; lia).
  cbn [firstn]. change (total (?x :: ?y)) with (x + total y). destruct l; cbn; lra.
Qed.
Lemma cumsum_len (l : list R) : length (cumsum (N := Rnum) l) = length l.
Proof.
  destruct l as [|a l]; [reflexivity|]. cbn. f_equal. revert a. induction l as [|b l IH]; intros a; [reflexivity|]. cbn. f_equal. apply IH.
Qed.
Lemma cum_nth (l : list R) i : (i <= length l)%nat -> nth i (0 :: cumsum (N := Rnum) l) 0 = total (firstn i l).
Proof.
  intros H. destruct i as [|i]; [reflexivity|]. cbn [nth]. destruct l as [|a l]; [cbn in H; lia|].
  unfold cumsum. destruct i as [|i]; [cbn; lra|]. cbn [nth]. rewrite cumsum_from_nth by (cbn in H; lia). reflexivity.
Qed.
Lemma areas_nth (r : list R) : forall i, (S i < length r)%nat -> nth i (areas (N := Rnum) r) 0 = (nth i r 0 + nth (S i) r 0) / 2.
Proof.
  unfold areas. induction r as [|a r IH]; intros i H; [cbn in H; lia|]. destruct r as [|b r]; [cbn in H; lia|].
  destruct i as [|i].
  - cbn [tl map2 nth]. unfold half. rewrite nlit_R. nred. field.
  - specialize (IH i ltac:(cbn in *; lia)). cbn [tl] in *. cbn [map2 nth]. exact IH.
Qed.
Lemma areas_len (r : list R) : length (areas (N := Rnum) r) = (length r - 1)%nat.
Proof.
  unfold areas. induction r as [|a r IH]; [reflexivity|]. destruct r as [|b r]; [reflexivity|].
  cbn [tl map2 length] in *. rewrite IH. lia.
Qed.
Lemma firstn_S_total (l : list R) i : (i < length l)%nat -> total (firstn (S i) l) = total (firstn i l) + nth i l 0.
Proof.
  revert i; induction l as [|a l IH]; intros i H; [cbn in H; lia|]. destruct i as [|i]; [cbn; lra|].
  cbn [firstn nth]. change (total (?x :: ?y)) with (x + total y).
  specialize (IH i ltac:(cbn in H; lia)). cbn [firstn] in IH. rewrite IH. change (total (a :: firstn i l)) with (a + total (firstn i l)). lra.
Qed.
Lemma area_total (r : list R) i : (i < length r)%nat -> total (firstn i (areas (N := Rnum) r)) = area r i.
Proof.
  induction i as [|i IH]; intros H; [reflexivity|]. rewrite firstn_S_total by (rewrite areas_len; lia).
  specialize (IH ltac:(lia)). pose proof (areas_nth r i ltac:(lia)) as A. cbn [area]. nred. rewrite IH, A. reflexivity.
Qed.
Lemma first_ge_spec (l : list R) q : (exists i, (i < length l)%nat /\ q <= nth i l 0) ->
  exists j, first_ge (N := Rnum) l q = Some j /\ (j < length l)%nat /\ q <= nth j l 0 /\ forall k, (k < j)%nat -> nth k l 0 < q.
Proof.
  induction l as [|a l IH]; intros (i & Hi & Hq); [cbn in Hi; lia|]. cbn [first_ge]. nred.
  destruct (Rleb q a) eqn:E.
  - apply Rleb_true in E. exists 0%nat. repeat split; [cbn; lia|exact E|lia].
  - apply Rleb_false in E. destruct i as [|i]; [cbn in Hq; lra|].
    destruct IH as (j & F & Hj & Hqj & Hk); [exists i; split; [cbn in Hi; lia|exact Hq]|].
    nred. rewrite F. exists (S j). repeat split; [cbn; lia|exact Hqj|]. intros [|k] Hkj; [cbn; lra|]. cbn. apply Hk. lia.
Qed.

Section Area.
Variables (r : list R) (n : nat).
Let m := length r.
Hypothesis Hm : (2 <= m)%nat.
Hypothesis Hn : (1 <= n)%nat.
Hypothesis Hpos : forall x, In x r -> 0 <= x.
Let T := area r (m - 1).
Hypothesis HT : 0 < T.
Let c (i : nat) : R := area r i / T.
Let cl : list R := map (fun a => a / T) (0 :: cumsum (N := Rnum) (areas (N := Rnum) r)).

Lemma area_step i : (S i < m)%nat -> area r i <= area r (S i).
Proof.
  intros H. cbn [area]. assert (0 <= nth i r 0) by (apply Hpos, nth_In; subst m; lia).
  assert (0 <= nth (S i) r 0) by (apply Hpos, nth_In; exact H). lra.
Qed.
Lemma area_mono i j : (i <= j)%nat -> (j < m)%nat -> area r i <= area r j.
Proof.
  intros H. induction H as [|j H IH]; intros Hj; [lra|]. pose proof (area_step j Hj). specialize (IH ltac:(lia)). lra.
Qed.
Lemma cl_len : length cl = m.
Proof. unfold cl. rewrite map_length. cbn [length]. nred. rewrite cumsum_len, areas_len. subst m. nred. lia. Qed.
Lemma cl_nth i : (i < m)%nat -> nth i cl 0 = c i.
Proof.
  intros H. unfold cl. rewrite (nth_indep _ 0 (0 / T)) by (fold cl; rewrite cl_len; exact H).
  rewrite (map_nth (fun a => a / T)). rewrite cum_nth by (rewrite areas_len; subst m; nred; lia).
  rewrite area_total by exact H. reflexivity.
Qed.
Lemma c_mono i j : (i <= j)%nat -> (j < m)%nat -> c i <= c j.
Proof. intros H Hj. unfold c. apply Rmult_le_compat_r; [left; apply Rinv_0_lt_compat; exact HT|apply area_mono; auto]. Qed.
Lemma c_0 : c 0 = 0.
Proof. unfold c. cbn. field. lra. Qed.
Lemma c_last : c (m - 1) = 1.
Proof. unfold c. fold T. field. lra. Qed.

(** the j found for the share [q] *)
Definition finds (q : R) (j : nat) : Prop := (j < m - 1)%nat /\ c j < q <= c (S j).
Definition point (q : R) (j : nat) : R := (INR j + (q - c j) / (c (S j) - c j)) / (INR m - 1).
Lemma finds_ex q : 0 < q <= 1 -> exists j, finds q j /\ argmax_ge (N := Rnum) cl q = S j.
Proof.
  intros [H0 H1]. destruct (first_ge_spec cl q) as (j & F & Hj & Hq & Hk).
  - exists (m - 1)%nat. rewrite cl_len. split; [lia|]. rewrite cl_nth by lia. rewrite c_last. exact H1.
  - rewrite cl_len in Hj. rewrite cl_nth in Hq by exact Hj.
    destruct j as [|j]; [rewrite c_0 in Hq; lra|].
    exists j. split.
    + split; [lia|]. split; [|exact Hq]. specialize (Hk j ltac:(lia)). rewrite cl_nth in Hk by lia. exact Hk.
    + unfold argmax_ge. nred. rewrite F. reflexivity.
Qed.
Lemma m1_pos : 0 < INR m - 1.
Proof. assert (INR 2 <= INR m) by (apply le_INR; exact Hm). cbn in H. lra. Qed.
Lemma point_range q j : finds q j -> INR j < point q j * (INR m - 1) <= INR (S j).
Proof.
  intros (Hj & H1 & H2). pose proof m1_pos. unfold point.
  replace ((INR j + (q - c j) / (c (S j) - c j)) / (INR m - 1) * (INR m - 1)) with (INR j + (q - c j) / (c (S j) - c j)) by (field; lra).
  assert (0 < (q - c j) / (c (S j) - c j)) by (apply Rdiv_lt_0_compat; lra).
  assert ((q - c j) / (c (S j) - c j) <= 1).
  { apply Rmult_le_reg_r with (c (S j) - c j); [lra|]. unfold Rdiv. rewrite Rmult_assoc, Rinv_l by lra. lra. }
  rewrite S_INR. lra.
Qed.
Lemma point_mono q q' j j' : finds q j -> finds q' j' -> q < q' -> point q j < point q' j'.
Proof.
  intros F F' Hq. pose proof m1_pos as Hm1.
  pose proof (point_range q j F) as P. pose proof (point_range q' j' F') as P'.
  destruct F as (Hj & H1 & H2), F' as (Hj' & H1' & H2').
  destruct (lt_eq_lt_dec j j') as [[L|E]|G].
  - assert (INR (S j) <= INR j') by (apply le_INR; lia).
    apply Rmult_lt_reg_r with (INR m - 1); [exact Hm1|lra].
  - subst j'. unfold point. apply Rmult_lt_compat_r; [apply Rinv_0_lt_compat; exact Hm1|]. apply Rplus_lt_compat_l.
    apply Rmult_lt_compat_r; [apply Rinv_0_lt_compat; lra|lra].
  - exfalso. assert (c (S j') <= c j) by (apply c_mono; lia). lra.
Qed.
Lemma point_area q j : finds q j -> area_at r (point q j * (INR m - 1)) (q * T).
Proof.
  intros F. pose proof (point_range q j F) as P. pose proof m1_pos. destruct F as (Hj & H1 & H2).
  exists j. split; [fold m; lia|]. split; [lra|]. unfold point.
  replace ((INR j + (q - c j) / (c (S j) - c j)) / (INR m - 1) * (INR m - 1)) with (INR j + (q - c j) / (c (S j) - c j)) by (field; lra).
  assert (E : forall k, area r k = c k * T) by (intros k; unfold c; field; lra).
  rewrite !E. field. lra.
Qed.

Let q (i : nat) : R := INR (i + 1) / INR n.
Lemma q_range i : (i < n)%nat -> 0 < q i <= 1.
Proof.
  intros H. unfold q. assert (0 < INR n) by (apply lt_0_INR; lia). assert (0 < INR (i + 1)) by (apply lt_0_INR; lia).
  split; [apply Rdiv_lt_0_compat; auto|]. apply Rmult_le_reg_r with (INR n); [auto|]. unfold Rdiv. rewrite Rmult_assoc, Rinv_l by lra.
  rewrite Rmult_1_r, Rmult_1_l. apply le_INR. lia.
Qed.
Lemma q_lt i j : (i < j)%nat -> q i < q j.
Proof. intros H. unfold q. apply Rmult_lt_compat_r; [apply Rinv_0_lt_compat, lt_0_INR; lia|apply lt_INR; lia]. Qed.

Lemma equal_area_eq : exists js, length js = n /\ (forall i, (i < n)%nat -> finds (q i) (nth i js 0%nat)) /\
  equal_area (N := Rnum) r n = Ok (diff_ (N := Rnum) (0 :: map (fun i => point (q i) (nth i js 0%nat)) (seq 0 n))).
Proof.
  assert (J : exists js, length js = n /\ forall i, (i < n)%nat -> finds (q i) (nth i js 0%nat) /\ argmax_ge (N := Rnum) cl (q i) = S (nth i js 0%nat)).
  { exists (map (fun i => pred (argmax_ge (N := Rnum) cl (q i))) (seq 0 n)). rewrite map_length, seq_length. split; [reflexivity|].
    intros i Hi. rewrite nth_indep with (d' := pred (argmax_ge (N := Rnum) cl (q 0))) by (rewrite map_length, seq_length; auto).
    rewrite (map_nth (fun i => pred (argmax_ge (N := Rnum) cl (q i)))). rewrite seq_nth by auto. cbn [plus].
    destruct (finds_ex (q i) (q_range i Hi)) as (j & F & A). nred. rewrite A. cbn. split; [exact F|reflexivity]. }
  destruct J as (js & Hl & HJ). exists js. split; [exact Hl|]. split; [intros i Hi; apply HJ; exact Hi|].
  unfold equal_area. fold m.
  assert (Tl : last_ (0 :: cumsum (N := Rnum) (areas (N := Rnum) r)) = Ok T).
  { rewrite (last_ok _ 0) by discriminate. f_equal. cbn [length]. nred. rewrite cumsum_len, areas_len. fold m.
    replace (S (m - 1) - 1)%nat with (m - 1)%nat by lia. rewrite cum_nth by (rewrite areas_len; fold m; lia).
    rewrite area_total by (fold m; lia). reflexivity. }
  cbv zeta. nred. rewrite Tl. cbn [bind]. fold cl.
  rewrite (mapM_ok _ (fun i => point (q i) (nth i js 0%nat))); [reflexivity|].
  intros i Hi. apply in_seq in Hi. destruct (HJ i ltac:(lia)) as (F & A). fold (q i) in *.
  rewrite !nofnat_R. fold (q i). rewrite A. fold m. destruct F as (Hj & H1 & H2). cbn [prev_].
  pose proof (at_ok cl (nth i js 0%nat) 0 ltac:(rewrite cl_len; lia)) as A1.
  pose proof (at_ok cl (S (nth i js 0%nat)) 0 ltac:(rewrite cl_len; lia)) as A2. nred. rewrite A1. cbn [bind]. nred. rewrite A2. cbn [bind].
  rewrite !cl_nth by lia. f_equal. unfold point.
  rewrite S_INR. replace (INR (nth i js 0%nat) + 1 - 1) with (INR (nth i js 0%nat)) by ring. reflexivity.
Qed.

Theorem equal_area_ok : exists ws, equal_area (N := Rnum) r n = Ok ws /\ length ws = n /\ (forall w, In w ws -> 0 < w) /\
  (forall i, (i <= n)%nat -> area_at r (total (firstn i ws) * (INR (length r) - 1)) (INR i / INR n * area r (length r - 1))) /\
  total ws <= 1 /\ (total ws = 1 <-> 0 < nth (length r - 2) r 0 + nth (length r - 1) r 0).
Proof.
  destruct equal_area_eq as (js & Hl & HF & E). rewrite E. fold m. fold T.
  set (pt := fun i => point (q i) (nth i js 0%nat)) in *.
  assert (Hlen : length (0 :: map pt (seq 0 n)) = S n) by (cbn; rewrite map_length, seq_length; reflexivity).
  assert (Hnth : forall i, (i < n)%nat -> nth (S i) (0 :: map pt (seq 0 n)) 0 = pt i).
  { intros i Hi. cbn [nth]. rewrite nth_indep with (d' := pt 0%nat) by (rewrite map_length, seq_length; auto).
    rewrite map_nth, seq_nth by auto. reflexivity. }
  pose proof m1_pos as Hm1.
  assert (Hp0 : forall i, (i < n)%nat -> 0 < pt i).
  { intros i Hi. pose proof (point_range _ _ (HF i Hi)) as P. unfold pt. pose proof (pos_INR (nth i js 0%nat)).
    apply Rmult_lt_reg_r with (INR m - 1); [exact Hm1|lra]. }
  assert (Htot : forall i, (i < n)%nat -> total (firstn (S i) (diff_ (N := Rnum) (0 :: map pt (seq 0 n)))) = pt i).
  { intros i Hi. rewrite diff_prefix by (rewrite Hlen; lia). rewrite Hnth by exact Hi. cbn [nth]. lra. }
  assert (Hall : total (diff_ (N := Rnum) (0 :: map pt (seq 0 n))) = pt (n - 1)%nat).
  { rewrite <- Htot by lia. rewrite firstn_all2; [reflexivity|]. rewrite diff_len, Hlen. lia. }
  assert (Hq1 : q (n - 1)%nat = 1) by (unfold q; replace (n - 1 + 1)%nat with n by lia; field; apply not_0_INR; lia).
  assert (Hlast : exists j, nth (n - 1) js 0%nat = j /\ (j < m - 1)%nat /\ c j < 1 /\ c (S j) = 1 /\ pt (n - 1)%nat * (INR m - 1) = INR (S j)).
  { exists (nth (n - 1) js 0%nat). split; [reflexivity|]. destruct (HF (n - 1)%nat ltac:(lia)) as (Hj & H1 & H2). rewrite Hq1 in *.
    split; [exact Hj|]. split; [exact H1|].
    assert (c (S (nth (n - 1) js 0%nat)) <= c (m - 1)) by (apply c_mono; lia). rewrite c_last in H.
    assert (E1 : c (S (nth (n - 1) js 0%nat)) = 1) by lra. split; [exact E1|].
    unfold pt, point. rewrite Hq1, E1, S_INR. field. split; lra. }
  eexists. split; [reflexivity|]. split; [rewrite diff_len, Hlen; lia|]. split.
  { intros w Hw. apply In_nth with (d := 0) in Hw. destruct Hw as (i & Hi & <-). rewrite diff_len, Hlen in Hi.
    rewrite diff_nth by (rewrite Hlen; lia). rewrite Hnth by lia.
    destruct i as [|i]; [cbn [nth]; specialize (Hp0 0%nat ltac:(lia)); lra|].
    rewrite Hnth by lia. assert (pt i < pt (S i)); [|lra].
    apply point_mono; [apply HF; lia|apply HF; lia|apply q_lt; lia]. }
  split.
  { intros i Hi. destruct i as [|i].
    - exists 0%nat. split; [fold m; lia|]. cbn [firstn total fold_right INR area]. split; [lra|]. unfold Rdiv. ring.
    - rewrite Htot by lia. unfold pt. replace (INR (S i) / INR n) with (q i) by (unfold q; replace (i + 1)%nat with (S i) by lia; reflexivity).
      apply point_area. apply HF. lia. }
  destruct Hlast as (j & Ej & Hj & H1 & H2 & H3).
  rewrite Hall. split.
  { apply Rmult_le_reg_r with (INR m - 1); [exact Hm1|]. rewrite H3.
    assert (INR (S j) <= INR (m - 1)) by (apply le_INR; lia). rewrite minus_INR in H by lia. change (INR 1) with 1 in H. lra. }
  assert (Hstep : forall k, (S k < m)%nat -> c (S k) = c k + (nth k r 0 + nth (S k) r 0) / 2 / T).
  { intros k Hk. unfold c. cbn [area]. field. lra. }
  split.
  - intros Hone. rewrite Hone in H3. assert (Ej' : INR (S j) = INR (m - 1)) by (rewrite minus_INR by lia; change (INR 1) with 1; lra).
    apply INR_eq in Ej'. assert (J : j = (m - 2)%nat) by lia. rewrite J in H1, H2. rewrite Hstep in H2 by lia.
    replace (S (m - 2)) with (m - 1)%nat in H2 by lia.
    assert (H0 : 0 < (nth (m - 2) r 0 + nth (m - 1) r 0) / 2 / T) by lra.
    apply Rmult_lt_reg_r with (/ 2 * / T); [apply Rmult_lt_0_compat; [lra|apply Rinv_0_lt_compat; exact HT]|].
    rewrite Rmult_0_l. unfold Rdiv in H0. lra.
  - intros Hp. assert (j = m - 2)%nat.
    { assert (C : (j = m - 2 \/ S j <= m - 2)%nat) by lia. destruct C as [C|C]; [exact C|exfalso].
      assert (c (S j) <= c (m - 2)) by (apply c_mono; lia).
      assert (L : c (S (m - 2)) = 1) by (replace (S (m - 2)) with (m - 1)%nat by lia; exact c_last).
      rewrite Hstep in L by lia. replace (S (m - 2)) with (m - 1)%nat in L by lia.
      assert (0 < (nth (m - 2) r 0 + nth (m - 1) r 0) / 2 / T) by (apply Rdiv_lt_0_compat; lra). lra. }
    apply Rmult_eq_reg_r with (INR m - 1); [|lra]. rewrite H3. replace (S j) with (m - 1)%nat by lia. rewrite minus_INR by lia. change (INR 1) with 1. lra.
Qed.
End Area.
