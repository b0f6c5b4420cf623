(** Control-slope refinement (proofs). *)
From Coq Require Import Reals List Lia Lra Bool Arith ZArith Permutation Sorted.
From Verif Require Import Num PyList Mat Hadapt Spec SpecHadapt NumR ListR MergeR AreaR.
Import ListNotations.
Open Scope R_scope.

(** ** Sorting *)
Section Sort.
Context {A : Type} (key : A -> R).
Let le_key (a b : A) : Prop := key a <= key b.
Lemma insert_perm x l : Permutation (insert_by (N := Rnum) key x l) (x :: l).
Proof.
  induction l as [|y l IH]; [reflexivity|]. cbn. nred. destruct (Rleb (key x) (key y)); [reflexivity|].
  rewrite IH. apply perm_swap.
Qed.
Lemma sort_perm l : Permutation (sort_by (N := Rnum) key l) l.
Proof. induction l as [|a l IH]; [reflexivity|]. cbn. rewrite insert_perm, IH. reflexivity. Qed.
Lemma insert_sorted x l : StronglySorted le_key l -> StronglySorted le_key (insert_by (N := Rnum) key x l).
Proof.
  induction 1 as [|y l Hs IH Hf]; cbn; [repeat constructor|]. nred.
  destruct (Rleb (key x) (key y)) eqn:E.
  - apply Rleb_true in E. constructor; [constructor; auto|]. constructor; [exact E|].
    rewrite Forall_forall in *. intros z Hz. unfold le_key. specialize (Hf z Hz). unfold le_key in Hf. lra.
  - apply Rleb_false in E. constructor; [exact IH|]. rewrite Forall_forall in *. intros z Hz.
    apply (Permutation_in _ (insert_perm x l)) in Hz. destruct Hz as [<-|Hz]; [unfold le_key; lra|auto].
Qed.
Lemma sort_sorted l : StronglySorted le_key (sort_by (N := Rnum) key l).
Proof. induction l as [|a l IH]; cbn; [constructor|apply insert_sorted; exact IH]. Qed.
End Sort.
Lemma sorted_nth {A} (P : A -> A -> Prop) l d : StronglySorted P l ->
  forall i j, (i < j)%nat -> (j < length l)%nat -> P (nth i l d) (nth j l d).
Proof.
  induction 1 as [|a l Hs IH Hf]; intros i j Hij Hj; [cbn in Hj; lia|].
  rewrite Forall_forall in Hf. destruct j as [|j]; [lia|]. destruct i as [|i]; cbn in *.
  - apply Hf. apply nth_In. lia.
  - apply IH; lia.
Qed.
Lemma insert_map {A B} (f : A -> B) (key : B -> R) x l :
  insert_by (N := Rnum) key (f x) (map f l) = map f (insert_by (N := Rnum) (fun a => key (f a)) x l).
Proof. induction l as [|y l IH]; [reflexivity|]. cbn. nred. destruct (Rleb _ _); [reflexivity|]. cbn. rewrite IH. reflexivity. Qed.
Lemma sort_map {A B} (f : A -> B) (key : B -> R) l :
  sort_by (N := Rnum) key (map f l) = map f (sort_by (N := Rnum) (fun a => key (f a)) l).
Proof. induction l as [|y l IH]; [reflexivity|]. cbn [map sort_by fold_right]. unfold sort_by in IH. rewrite IH. apply insert_map. Qed.
Lemma filter_map {A B} (f : A -> B) p l : filter p (map f l) = map f (filter (fun a => p (f a)) l).
Proof. induction l as [|a l IH]; [reflexivity|]. cbn. destruct (p (f a)); cbn; rewrite IH; reflexivity. Qed.
Lemma firstn_seq {A} (d : A) l : forall k, (k <= length l)%nat -> firstn k l = map (fun x => nth x l d) (seq 0 k).
Proof.
  induction l as [|b l IH]; intros k Hk; [cbn in Hk; assert (k = 0)%nat by lia; subst; reflexivity|].
  destruct k as [|k]; [reflexivity|]. cbn [firstn seq map nth]. f_equal. rewrite <- seq_shift, map_map. cbn [nth]. apply IH. cbn in Hk. lia.
Qed.
Lemma inner_map {A} (l : list A) d : inner l = map (fun i => nth i l d) (seq 1 (length l - 2)).
Proof.
  unfold inner, but_last. destruct l as [|a l]; [reflexivity|]. cbn [tl length].
  replace (S (length l) - 2)%nat with (length l - 1)%nat by lia.
  rewrite <- seq_shift, map_map. cbn [nth]. apply firstn_seq. lia.
Qed.
Lemma norm2_slope (du : list (list R)) i : norm2 (N := Rnum) (nth i du []) = slope du i.
Proof. unfold norm2, slope. rewrite sum_R. reflexivity. Qed.
Lemma combine_map {A B C} (f : A -> B) (g : A -> C) l : combine (map f l) (map g l) = map (fun a => (f a, g a)) l.
Proof. induction l as [|a l IH]; [reflexivity|]. cbn. rewrite IH. reflexivity. Qed.

Definition cand (du : list (list R)) (thr : R) (m : nat) : list nat :=
  sort_by (N := Rnum) (slope du) (filter (fun i => Rleb thr (slope du i)) (seq 1 (m - 2))).
Lemma time_at_max_eq (t : list R) du thr : length du = length t ->
  time_at_max (N := Rnum) t du thr = map (fun i => nth i t 0) (cand du thr (length t)).
Proof.
  intros H. unfold time_at_max. nred. rewrite (inner_map t 0). pose proof (inner_map (map (norm2 (N := Rnum)) du) (norm2 (N := Rnum) [])) as E. nred. rewrite E. clear E.
  rewrite map_length. rewrite H. rewrite combine_map. rewrite filter_map.
  rewrite sort_map. rewrite map_map. cbn [fst snd]. unfold cand.
  f_equal. f_equal.
  - apply FunctionalExtensionality.functional_extensionality. intros i. rewrite (map_nth (norm2 (N := Rnum))). apply norm2_slope.
  - apply filter_ext. intros i. rewrite (map_nth (norm2 (N := Rnum))), norm2_slope. reflexivity.
Qed.
Lemma cand_in du thr m i : In i (cand du thr m) <-> (1 <= i < m - 1)%nat /\ thr <= slope du i.
Proof.
  unfold cand. split; intros H.
  - apply (Permutation_in _ (sort_perm _ _)) in H. apply filter_In in H. destruct H as [H1 H2]. apply in_seq in H1. apply Rleb_true in H2. split; [lia|auto].
  - apply (Permutation_in _ (Permutation_sym (sort_perm _ _))). apply filter_In. split; [apply in_seq; lia|apply Rleb_true; tauto].
Qed.
Lemma cand_nodup du thr m : NoDup (cand du thr m).
Proof. unfold cand. apply (Permutation_NoDup (Permutation_sym (sort_perm _ _))). apply NoDup_filter, seq_NoDup. Qed.
Lemma cand_sorted du thr m i j : (i < j)%nat -> (j < length (cand du thr m))%nat ->
  slope du (nth i (cand du thr m) 0%nat) <= slope du (nth j (cand du thr m) 0%nat).
Proof. intros Hij Hj. apply (sorted_nth _ _ 0%nat (sort_sorted (slope du) (filter (fun i => Rleb thr (slope du i)) (seq 1 (m - 2)))) i j Hij Hj). Qed.

Theorem time_at_max_ok (t : list R) du thr : length du = length t ->
  exists is, NoDup is /\ (forall i, In i is <-> (1 <= i < length t - 1)%nat /\ thr <= slope du i) /\
    time_at_max (N := Rnum) t du thr = map (fun i => nth i t 0) is /\
    (forall a b, (a < b < length is)%nat -> slope du (nth a is 0%nat) <= slope du (nth b is 0%nat)).
Proof.
  intros H. exists (cand du thr (length t)). split; [apply cand_nodup|]. split; [apply cand_in|]. split; [apply time_at_max_eq; exact H|].
  intros a b Hab. apply cand_sorted; lia.
Qed.

(** ** Widths from boundaries *)
Lemma total_map_div l d : total (map (fun w => w / d) l) = total l / d.
Proof. induction l as [|a l IH]; cbn; [unfold Rdiv; ring|]. unfold total in IH. rewrite IH. unfold Rdiv. ring. Qed.
Lemma firstn_map' {A B} (f : A -> B) l n : firstn n (map f l) = map f (firstn n l).
Proof. revert n; induction l as [|a l IH]; intros [|n]; cbn; [reflexivity..|]. rewrite IH. reflexivity. Qed.
Lemma normalised n ws d : 0 < d -> length ws = n -> (forall w, In w ws -> 0 < w) -> total ws = d -> partition n (map (fun w => w / d) ws).
Proof.
  intros Hd Hl Hp Ht. split; [rewrite map_length; exact Hl|]. split.
  - intros w Hw. apply in_map_iff in Hw. destruct Hw as (x & <- & Hx). apply Rdiv_lt_0_compat; auto.
  - rewrite total_map_div, Ht. field. lra.
Qed.
Lemma diff_pos (l : list R) : (forall i, (S i < length l)%nat -> nth i l 0 < nth (S i) l 0) -> forall w, In w (diff_ (N := Rnum) l) -> 0 < w.
Proof.
  intros H w Hw. apply In_nth with (d := 0) in Hw. destruct Hw as (i & Hi & <-). rewrite diff_len in Hi.
  rewrite diff_nth by lia. specialize (H i ltac:(lia)). lra.
Qed.
Lemma diff_map (l : list R) : diff_ (N := Rnum) l = map (fun i => nth (S i) l 0 - nth i l 0) (seq 0 (length l - 1)).
Proof.
  apply nth_ext with (d := 0) (d' := nth 1 l 0 - nth 0 l 0).
  - rewrite map_length, seq_length, diff_len. reflexivity.
  - intros i Hi. rewrite diff_len in Hi. rewrite diff_nth by lia.
    rewrite (map_nth (fun i => nth (S i) l 0 - nth i l 0)). rewrite seq_nth by lia. reflexivity.
Qed.
(** all given times, sorted, are strictly increasing *)
Lemma strict_sorted (l : list R) : NoDup l -> forall i j, (i < j)%nat -> (j < length l)%nat ->
  nth i (sort_by (N := Rnum) (fun x : R => x) l) 0 < nth j (sort_by (N := Rnum) (fun x : R => x) l) 0.
Proof.
  intros Hn i j Hij Hj. set (s := sort_by (N := Rnum) (fun x : R => x) l).
  assert (P : Permutation s l) by apply sort_perm.
  assert (Hl : length s = length l) by (apply Permutation_length; exact P).
  assert (Hle : nth i s 0 <= nth j s 0) by (apply (sorted_nth _ _ 0 (sort_sorted (fun x : R => x) l) i j Hij); fold s; lia).
  assert (Hd : NoDup s) by (apply (Permutation_NoDup (Permutation_sym P)); exact Hn).
  destruct (Rle_lt_or_eq_dec _ _ Hle) as [L|E]; [exact L|exfalso].
  rewrite (NoDup_nth s 0) in Hd. specialize (Hd i j ltac:(lia) ltac:(lia) E). lia.
Qed.
Lemma NoDup_firstn {A} (l : list A) n : NoDup l -> NoDup (firstn n l).
Proof.
  revert n; induction l as [|a l IH]; intros [|n] H; cbn; try constructor; inversion H; subst.
  - intros C. apply H2. rewrite <- (firstn_skipn n l). apply in_or_app. left. exact C.
  - apply IH. exact H3.
Qed.
Lemma in_firstn {A} (l : list A) n a : In a (firstn n l) -> In a l.
Proof. intros H. rewrite <- (firstn_skipn n l). apply in_or_app. left. exact H. Qed.

Section Times.
Variables (times : list R) (n : nat) (t0 tf : R).
Hypothesis Hn : (2 <= n)%nat.
Hypothesis Hnd : NoDup times.
Hypothesis Hin : forall s, In s times -> t0 < s < tf.
Hypothesis Hne : times <> [].
Let nav := length times.

Lemma t0_tf : t0 < tf.
Proof. destruct times as [|s l] eqn:E; [congruence|]. specialize (Hin s ltac:(left; auto)). lra. Qed.

(** the boundaries [b] of the pieces *)
Lemma from_boundaries (b : list R) : length b = S n -> nth 0 b 0 = t0 -> nth n b 0 = tf ->
  (forall i, (i < n)%nat -> nth i b 0 < nth (S i) b 0) ->
  let ws := map (fun w => w / (tf - t0)) (diff_ (N := Rnum) b) in
  partition n ws /\ forall i, (i <= n)%nat -> boundary t0 tf ws i = nth i b 0.
Proof.
  intros Hl H0 Hend Hinc ws. pose proof t0_tf. split.
  - apply normalised; [lra|rewrite diff_len; lia|apply diff_pos; intros i Hi; apply Hinc; lia|].
    rewrite <- (firstn_all (diff_ (N := Rnum) b)), diff_len, Hl. replace (S n - 1)%nat with n by lia.
    rewrite diff_prefix by lia. rewrite H0, Hend. reflexivity.
  - intros i Hi. unfold boundary, ws. rewrite firstn_map', total_map_div, diff_prefix by lia. rewrite H0. field. lra.
Qed.

Let sorted (l : list R) : list R := sort_by (N := Rnum) (fun x : R => x) l.

Lemma many_times : (n - 2 < nav)%nat -> exists ts,
  (forall s, In s ts -> In s (firstn n times)) /\ (nav <= n -> forall s, In s times -> In s (nth (n - 1) (sorted times) s :: ts))%nat /\
  (nav = n - 1 -> forall s, In s times -> In s ts)%nat /\ length ts = (n - 1)%nat /\
  (forall i j, (i < j)%nat -> (j < n - 1)%nat -> nth i ts 0 < nth j ts 0) /\
  widths_at_times (N := Rnum) times n t0 tf = Ok (map (fun w => w / (tf - t0)) (diff_ (N := Rnum) (t0 :: ts ++ [tf]))).
Proof.
  intros Hm. set (s := sorted (firstn n times)).
  assert (P : Permutation s (firstn n times)) by apply sort_perm.
  assert (Hsl : length s = Nat.min n nav) by (rewrite (Permutation_length P), firstn_length; reflexivity).
  exists (firstn (n - 1) s). split; [intros x Hx; apply (Permutation_in _ P); apply in_firstn in Hx; exact Hx|].
  split.
  { intros Hle x Hx. rewrite (firstn_all2 times) in P by exact Hle. assert (Hx' : In x s) by (apply (Permutation_in _ (Permutation_sym P)); exact Hx).
    assert (Es : sorted times = s) by (unfold s; rewrite firstn_all2 by exact Hle; reflexivity). rewrite Es.
    destruct (In_nth _ _ x Hx') as (k & Hk & E). destruct (Nat.eq_dec k (n - 1)) as [->|D]; [left; exact E|].
    right. rewrite <- E. assert (K : (k < n - 1)%nat) by lia.
    rewrite <- (firstn_skipn (n - 1) s) at 1. rewrite app_nth1 by (rewrite firstn_length; lia). apply nth_In. rewrite firstn_length. lia. }
  split.
  { intros Hle x Hx. rewrite (firstn_all2 s) by lia. apply (Permutation_in _ (Permutation_sym P)). rewrite firstn_all2 by (fold nav; lia). exact Hx. }
  split; [rewrite firstn_length; lia|].
  assert (Hnth : forall i, (i < n - 1)%nat -> nth i (firstn (n - 1) s) 0 = nth i s 0).
  { intros i Hi. rewrite <- (firstn_skipn (n - 1) s) at 2. rewrite app_nth1 by (rewrite firstn_length; lia). reflexivity. }
  split.
  { intros i j Hij Hj. rewrite !Hnth by lia. apply strict_sorted; [apply NoDup_firstn; exact Hnd|exact Hij|rewrite firstn_length; fold nav; lia]. }
  unfold widths_at_times. fold nav.
  assert (E1 : Nat.ltb (n - 2) nav = true) by (apply Nat.ltb_lt; exact Hm). assert (E2 : Nat.leb 2 n = true) by (apply Nat.leb_le; exact Hn).
  cbv zeta. nred. fold nav. rewrite E1, E2. cbn [andb]. cbv zeta. change (sort_by (N := Rnum) (fun x : R => x) (firstn n times)) with s.
  pose proof (at_ok s 0 0 ltac:(lia)) as A0. pose proof (at_ok s (n - 2) 0 ltac:(lia)) as A1. nred. rewrite A0. cbn [bind]. nred. rewrite A1. cbn [bind].
  rewrite (mapM_ok _ (fun i => nth i s 0 - nth (i - 1) s 0)).
  2:{ intros i Hi. apply in_seq in Hi. pose proof (at_ok s i 0 ltac:(lia)) as B0. pose proof (at_ok s (i - 1) 0 ltac:(lia)) as B1. nred. rewrite B0. cbn [bind]. nred. rewrite B1. reflexivity. }
  cbn [bind]. f_equal. f_equal. rewrite (diff_map (t0 :: firstn (n - 1) s ++ [tf])).
  assert (Hb : length (t0 :: firstn (n - 1) s ++ [tf]) = S n) by (cbn; rewrite app_length, firstn_length; cbn; lia). rewrite Hb.
  replace (S n - 1)%nat with (1 + ((n - 2) + 1))%nat by lia. rewrite !seq_app, !map_app. cbn [plus].
  change (seq 0 1) with [0%nat]. cbn [map app nth].
  assert (Hin1 : forall i, (i < n - 1)%nat -> nth i (firstn (n - 1) s ++ [tf]) 0 = nth i s 0).
  { intros i Hi. rewrite app_nth1 by (rewrite firstn_length; lia). apply Hnth. exact Hi. }
  f_equal; [rewrite Hin1 by lia; reflexivity|]. f_equal.
  - apply map_ext_in. intros i Hi. apply in_seq in Hi. destruct i as [|i]; [lia|]. rewrite !Hin1 by lia. cbn [Nat.sub nth]. rewrite Nat.sub_0_r. reflexivity.
  - cbn [seq map]. rewrite (Hin1 (n - 2)%nat) by lia. rewrite app_nth2 by (rewrite firstn_length; lia). rewrite firstn_length.
    replace (S (n - 2) - Nat.min (n - 1) (length s))%nat with 0%nat by lia. reflexivity.
Qed.

(** fewer times than inner boundaries *)
Lemma trunc_range x k : 0 <= x < INR k -> (0 <= Rtrunc x < Z.of_nat k)%Z.
Proof.
  intros [H0 H1]. unfold Rtrunc. destruct (Rle_dec 0 x) as [_|C]; [|lra].
  destruct (base_Int_part x) as [B1 B2]. split.
  - assert (-1 < IZR (Int_part x)) by lra. apply lt_IZR in H. lia.
  - rewrite INR_IZR_INZ in H1. apply lt_IZR. lra.
Qed.
Lemma few_times : (nav <= n - 2)%nat -> exists ts a b,
  Permutation ts times /\ (forall i j, (i < j)%nat -> (j < nav)%nat -> nth i ts 0 < nth j ts 0) /\
  (1 <= a)%nat /\ (1 <= b)%nat /\ (a + (nav - 1) + b = n)%nat /\
  widths_at_times (N := Rnum) times n t0 tf = Ok (map (fun w => w / (tf - t0))
    (repeat ((nth 0 ts 0 - t0) / INR a) a ++ diff_ (N := Rnum) ts ++ repeat ((tf - nth (nav - 1) ts 0) / INR b) b)).
Proof.
  intros Hm. set (s := sorted times).
  assert (P : Permutation s times) by apply sort_perm.
  assert (Hsl : length s = nav) by (apply Permutation_length; exact P).
  assert (Hnav : (1 <= nav)%nat) by (unfold nav; destruct times; [congruence|cbn; lia]).
  assert (Hin0 : forall i, (i < nav)%nat -> t0 < nth i s 0 < tf) by (intros i Hi; apply Hin; apply (Permutation_in _ P); apply nth_In; lia).
  set (nreq := (n - (nav - 1))%nat). set (x := (nth 0 s 0 - t0) / ((nth 0 s 0 - t0) + (tf - nth (nav - 1) s 0)) * INR (nreq - 1)).
  assert (Hx : 0 <= x < INR (nreq - 1)).
  { assert (0 < INR (nreq - 1)) by (apply lt_0_INR; unfold nreq; lia).
    pose proof (Hin0 0%nat ltac:(lia)). pose proof (Hin0 (nav - 1)%nat ltac:(lia)).
    assert (R : 0 < (nth 0 s 0 - t0) / ((nth 0 s 0 - t0) + (tf - nth (nav - 1) s 0)) < 1).
    { split; [apply Rdiv_lt_0_compat; lra|]. apply Rmult_lt_reg_r with ((nth 0 s 0 - t0) + (tf - nth (nav - 1) s 0)); [lra|].
      unfold Rdiv. rewrite Rmult_assoc, Rinv_l by lra. lra. }
    unfold x. split; [apply Rmult_le_pos; lra|]. rewrite <- (Rmult_1_l (INR (nreq - 1))) at 2. apply Rmult_lt_compat_r; lra. }
  pose proof (trunc_range x (nreq - 1) Hx) as Ht.
  set (a := Z.to_nat (1 + Rtrunc x)). exists s, a, (nreq - a)%nat.
  assert (Ha : (1 <= a <= nreq - 1)%nat) by (unfold a, nreq in *; lia).
  split; [exact P|]. split; [intros i j Hij Hj; apply strict_sorted; auto|].
  split; [lia|]. split; [unfold nreq in *; lia|]. split; [unfold nreq in *; lia|].
  unfold widths_at_times. fold nav.
  assert (E1 : Nat.ltb (n - 2) nav = false) by (apply Nat.ltb_ge; exact Hm). assert (E2 : Nat.leb 2 n = true) by (apply Nat.leb_le; exact Hn).
  cbv zeta. nred. fold nav. rewrite E1, E2. cbn [andb]. change (sort_by (N := Rnum) (fun x : R => x) times) with s.
  pose proof (at_ok s 0 0 ltac:(lia)) as A0. assert (A1 : last_ s = Ok (nth (nav - 1) s 0)) by (rewrite (last_ok s 0), Hsl; [reflexivity|destruct s; [cbn in Hsl; lia|discriminate]]).
  nred. rewrite A0. cbn [bind]. nred. rewrite A1. cbn [bind]. fold nreq.
  assert (E3 : Nat.eqb nreq 2 = false) by (apply Nat.eqb_neq; unfold nreq; lia). rewrite E3.
  rewrite nofnat_R. fold x. fold a.
  assert (E4 : Nat.leb (a + (nav - 1)) n = true) by (apply Nat.leb_le; unfold nreq in *; lia). rewrite E4. cbn [bind].
  rewrite (mapM_ok _ (fun i => nth (S i) s 0 - nth i s 0)).
  2:{ intros i Hi. apply in_seq in Hi. replace (i + 1)%nat with (S i) by lia. pose proof (at_ok s i 0 ltac:(lia)) as B0. pose proof (at_ok s (S i) 0 ltac:(lia)) as B1.
      nred. rewrite B1. cbn [bind]. nred. rewrite B0. reflexivity. }
  cbn [bind]. f_equal. f_equal. rewrite nofnat_R. f_equal. rewrite diff_map. rewrite Hsl. f_equal.
  rewrite nofZ_R. rewrite <- Nat2Z.inj_sub by lia. rewrite <- INR_IZR_INZ. f_equal. unfold nreq in *. lia.
Qed.

Lemma div_back x d : d <> 0 -> t0 + d * (x / d) = t0 + x.
Proof. intros H. field. exact H. Qed.
Theorem widths_at_times_ok : exists ws, widths_at_times (N := Rnum) times n t0 tf = Ok ws /\ partition n ws /\
  ((n - 1 <= nav)%nat -> forall i, (1 <= i < n)%nat -> In (boundary t0 tf ws i) (firstn n times)) /\
  ((nav <= n - 1)%nat -> forall s, In s times -> exists i, (1 <= i < n)%nat /\ boundary t0 tf ws i = s).
Proof.
  pose proof t0_tf as Htt.
  destruct (le_lt_dec nav (n - 2)) as [Hm|Hm].
  - destruct (few_times Hm) as (ts & a & b & P & Hs & Ha & Hb & Hab & E). rewrite E.
    assert (Hl : length ts = nav) by (apply Permutation_length; exact P).
    assert (Hnav : (1 <= nav)%nat) by (unfold nav; destruct times; [congruence|cbn; lia]).
    assert (Hin0 : forall i, (i < nav)%nat -> t0 < nth i ts 0 < tf) by (intros i Hi; apply Hin; apply (Permutation_in _ P); apply nth_In; lia).
    pose proof (Hin0 0%nat ltac:(lia)) as K0. pose proof (Hin0 (nav - 1)%nat ltac:(lia)) as K1.
    assert (INR a <> 0) by (apply not_0_INR; lia). assert (INR b <> 0) by (apply not_0_INR; lia).
    eexists. split; [reflexivity|]. split; [|split].
    + apply normalised; [lra| | |].
      * rewrite !app_length, !repeat_length, diff_len. lia.
      * intros w Hw. apply in_app_or in Hw. destruct Hw as [Hw|Hw]; [|apply in_app_or in Hw; destruct Hw as [Hw|Hw]].
        -- apply repeat_spec in Hw. subst w. apply Rdiv_lt_0_compat; [lra|apply lt_0_INR; lia].
        -- revert Hw. apply diff_pos. intros i Hi. apply Hs; lia.
        -- apply repeat_spec in Hw. subst w. apply Rdiv_lt_0_compat; [lra|apply lt_0_INR; lia].
      * rewrite !total_app, !total_repeat.
        rewrite <- (firstn_all (diff_ (N := Rnum) ts)), diff_len, Hl. rewrite diff_prefix by lia. field. auto.
    + intros Hc. exfalso. lia.
    + intros _ x Hx. apply (Permutation_in _ (Permutation_sym P)) in Hx. destruct (In_nth _ _ 0 Hx) as (k & Hk & Ek).
      exists (a + k)%nat. split; [lia|]. unfold boundary. rewrite firstn_map', total_map_div.
      assert (T : total (firstn (a + k) (repeat ((nth 0 ts 0 - t0) / INR a) a ++ diff_ (N := Rnum) ts ++ repeat ((tf - nth (nav - 1) ts 0) / INR b) b)) = nth k ts 0 - t0).
      { rewrite <- (repeat_length ((nth 0 ts 0 - t0) / INR a) a) at 1. rewrite firstn_app_2, total_app, total_repeat.
        rewrite firstn_app. replace (k - length (diff_ (N := Rnum) ts))%nat with 0%nat by (rewrite diff_len; lia).
        cbn [firstn]. rewrite app_nil_r, diff_prefix by lia. field. auto. }
      rewrite T, div_back by lra. lra.
  - destruct (many_times Hm) as (ts & Hts & _ & Hall & Hl & Hs & E). rewrite E.
    destruct (from_boundaries (t0 :: ts ++ [tf])) as (HP & HB).
    + cbn. rewrite app_length. cbn. lia.
    + reflexivity.
    + destruct n as [|n']; [lia|]. cbn [nth]. rewrite app_nth2 by lia. replace (n' - length ts)%nat with 0%nat by lia. reflexivity.
    + assert (Hin0 : forall i, (i < n - 1)%nat -> t0 < nth i ts 0 < tf) by (intros i Hi; apply Hin; apply (in_firstn _ n), Hts; apply nth_In; lia).
      intros i Hi. destruct i as [|i]; cbn [nth].
      * rewrite app_nth1 by lia. apply Hin0. lia.
      * rewrite app_nth1 by lia. destruct (Nat.eq_dec (S i) (n - 1)) as [D|D].
        -- rewrite app_nth2 by lia. replace (S i - length ts)%nat with 0%nat by lia. cbn. apply Hin0. lia.
        -- rewrite app_nth1 by lia. apply Hs; lia.
    + eexists. split; [reflexivity|]. split; [exact HP|]. split.
      * intros _ i Hi. rewrite HB by lia. destruct i as [|i]; [lia|]. cbn [nth]. rewrite app_nth1 by lia. apply Hts, nth_In. lia.
      * intros Hc x Hx. assert (Hx' : In x ts) by (apply Hall; [lia|exact Hx]). destruct (In_nth _ _ 0 Hx') as (k & Hk & Ek).
        exists (S k). split; [lia|]. rewrite HB by lia. cbn [nth]. rewrite app_nth1 by lia. exact Ek.
Qed.
End Times.

(** ** Clamping *)
Lemma clamp_pos lo hi w : 0 < lo -> 0 < hi -> 0 < w -> 0 < clamp (N := Rnum) lo hi w.
Proof. intros A B C. unfold clamp. nred. destruct (Rltb w lo), (Rltb hi w); auto. Qed.
Lemma clamp_in lo hi w : lo <= hi -> lo <= clamp (N := Rnum) lo hi w <= hi.
Proof.
  intros A. unfold clamp. nred. destruct (Rltb hi w) eqn:E1, (Rltb w lo) eqn:E2;
    rewrite ?Rltb_true, ?Rltb_false in *; lra.
Qed.
Lemma clamp_id lo hi w : lo <= w <= hi -> clamp (N := Rnum) lo hi w = w.
Proof.
  intros A. unfold clamp. nred. destruct (Rltb hi w) eqn:E1, (Rltb w lo) eqn:E2;
    rewrite ?Rltb_true, ?Rltb_false in *; auto; lra.
Qed.
Lemma clamp_widths_R lo hi ws : clamp_widths (N := Rnum) lo hi ws =
  map (fun w => w / total (map (clamp (N := Rnum) lo hi) ws)) (map (clamp (N := Rnum) lo hi) ws).
Proof. unfold clamp_widths. rewrite sum_R. reflexivity. Qed.
Theorem clamp_ok lo hi n ws : 0 < lo -> 0 < hi -> partition n ws -> partition n (clamp_widths (N := Rnum) lo hi ws).
Proof.
  intros A B (Hl & Hp & Ht). rewrite clamp_widths_R.
  assert (Hcp : forall w, In w (map (clamp (N := Rnum) lo hi) ws) -> 0 < w).
  { intros w Hw. apply in_map_iff in Hw. destruct Hw as (x & <- & Hx). apply clamp_pos; auto. }
  apply normalised; [|rewrite map_length; exact Hl|exact Hcp|reflexivity].
  apply total_pos; [|exact Hcp]. destruct ws; [cbn in Ht; lra|discriminate].
Qed.
Theorem clamp_keeps lo hi n ws : partition n ws -> (forall w, In w ws -> lo <= w <= hi) -> clamp_widths (N := Rnum) lo hi ws = ws.
Proof.
  intros (Hl & Hp & Ht) H. rewrite clamp_widths_R.
  assert (E : map (clamp (N := Rnum) lo hi) ws = ws) by (rewrite <- (map_id ws) at 2; apply map_ext_in; intros w Hw; apply clamp_id; auto).
  rewrite E, Ht. rewrite <- (map_id ws) at 2. apply map_ext. intros w. field.
Qed.

Theorem by_slope_ok old t du thr t0 tf lo hi n : (2 <= n)%nat -> 0 < lo -> 0 < hi -> partition n old ->
  length du = length t -> NoDup t -> (forall i, (1 <= i < length t - 1)%nat -> t0 < nth i t 0 < tf) ->
  exists ws, widths_by_slope (N := Rnum) old t du thr t0 tf lo hi n = Ok ws /\ partition n ws.
Proof.
  intros Hn Hlo Hhi Hold Hdu Hnd Hin. unfold widths_by_slope.
  destruct (time_at_max_ok t du thr Hdu) as (is & Hnis & Hiff & E & _). nred. rewrite E.
  destruct is as [|i is]; [exists old; split; [reflexivity|exact Hold]|].
  set (js := i :: is) in *. change (map (fun i => nth i t 0) js) with (nth i t 0 :: map (fun i => nth i t 0) is).
  cbv iota. change (nth i t 0 :: map (fun i => nth i t 0) is) with (map (fun i => nth i t 0) js).
  destruct (widths_at_times_ok (map (fun i => nth i t 0) js) n t0 tf) as (ws & Ew & Hp & _); auto.
  - assert (Hr : forall k, In k js -> (k < length t)%nat) by (intros k Hk; apply Hiff in Hk; lia).
    clear - Hnis Hr Hnd. induction js as [|k js IH]; cbn; constructor; inversion Hnis; subst.
    + intros C. apply in_map_iff in C. destruct C as (l & El & Hl). apply H1.
      rewrite (NoDup_nth t 0) in Hnd. rewrite (Hnd k l); auto; apply Hr; [left; auto|right; auto].
    + apply IH; auto. intros x Hx. apply Hr. right. exact Hx.
  - intros s Hs. apply in_map_iff in Hs. destruct Hs as (k & <- & Hk). apply Hin. apply Hiff in Hk. lia.
  - discriminate.
  - nred. rewrite Ew. cbn [bind]. eexists. split; [reflexivity|]. apply clamp_ok; auto.
Qed.
