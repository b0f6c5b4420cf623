(** Refinement of grids and residual data for plots (proofs). *)
From Coq Require Import Reals.
From Coq Require Import List Lia Lra Bool Arith.
From Verif Require Import Num PyList Mat Hadapt Resid Post Spec SpecHadapt SpecResid SpecPost NumR ListR BlockR NlpR  AreaR.
Import ListNotations.
Open Scope R_scope.

(** ** with_mid_points *)
Fixpoint mids (l : list R) : list R :=
  match l with
  | x :: ((y :: _) as t) => x :: (x + y) / 2 :: mids t
  | _ => l
  end.
Lemma mids_2 x y l : mids (x :: y :: l) = x :: (x + y) / 2 :: mids (y :: l).
Proof. reflexivity. Qed.
Lemma mids_len x l : length (mids (x :: l)) = S (2 * length l).
Proof. revert x. induction l as [|y l IH]; intros x; [reflexivity|]. rewrite mids_2. cbn [length]. rewrite IH. lia. Qed.
Lemma mids_even x l : forall i, (i <= length l)%nat -> nth (2 * i) (mids (x :: l)) 0 = nth i (x :: l) 0.
Proof.
  revert x. induction l as [|y l IH]; intros x i Hi; [cbn in Hi; replace i with 0%nat by lia; reflexivity|]. rewrite mids_2.
  destruct i as [|i]; [reflexivity|]. replace (2 * S i)%nat with (S (S (2 * i))) by lia. cbn [nth]. apply IH. cbn in Hi. lia.
Qed.
Lemma mids_odd x l : forall i, (i < length l)%nat -> nth (2 * i + 1) (mids (x :: l)) 0 = (nth i (x :: l) 0 + nth (i + 1) (x :: l) 0) / 2.
Proof.
  revert x. induction l as [|y l IH]; intros x i Hi; [cbn in Hi; lia|]. rewrite mids_2.
  destruct i as [|i]; [reflexivity|]. replace (2 * S i + 1)%nat with (S (S (2 * i + 1))) by lia.
  replace (S i + 1)%nat with (S (i + 1)) by lia. cbn [nth]. apply IH. cbn in Hi. lia.
Qed.
Lemma concat_mids l : forall x, concat (map (fun i => [nth i (x :: l) 0; (nth i (x :: l) 0 + nth (i + 1) (x :: l) 0) / 2]) (seq 0 (length l)))
  ++ [nth (length l) (x :: l) 0] = mids (x :: l).
Proof.
  induction l as [|y l IH]; intros x; [reflexivity|]. rewrite mids_2, <- IH. cbn [length seq map concat nth app Nat.add].
  rewrite <- seq_shift, map_map. reflexivity.
Qed.
Lemma nth_enum_map {A B} (f : nat -> A -> B) (l : list A) i (da : A) (db : B) : (i < length l)%nat ->
  nth i (map (fun '(j, a) => f j a) (enumerate l)) db = f i (nth i l da).
Proof.
  intros Hi. assert (Le : length (enumerate l) = length l) by (unfold enumerate; rewrite combine_length, seq_length; lia).
  rewrite (nth_map_in _ _ _ _ (0%nat, da)) by lia. unfold enumerate. rewrite combine_nth by (now rewrite seq_length). rewrite seq_nth by lia. reflexivity.
Qed.
Lemma length_enum_map {A B} (f : nat * A -> B) (l : list A) : length (map f (enumerate l)) = length l.
Proof. rewrite map_length. unfold enumerate. rewrite combine_length, seq_length. lia. Qed.
Lemma with_mid_points_ok x y l : with_mid_points (N := Rnum) (x :: y :: l) = Ok (mids (x :: y :: l)).
Proof.
  unfold with_mid_points. set (L := x :: y :: l). nred.
  assert (Eb : but_last L = firstn (S (length l)) L) by reflexivity.
  assert (Lb : length (but_last L) = S (length l)) by (rewrite Eb, firstn_length; unfold L; cbn; lia).
  destruct (but_last L) as [|b0 bs] eqn:EB; [cbn in Lb; lia|]. rewrite <- EB in *. clear EB b0 bs.
  rewrite (@mapM_ok _ _ _ (fun '(i, tau) => [tau; (nth i L 0 + nth (i + 1) L 0) / 2])).
  2:{ intros [i tau] Hi. assert (Hi' : (i < S (length l))%nat).
      { unfold enumerate in Hi. apply in_combine_l, in_seq in Hi. nred. rewrite Lb in Hi. lia. }
      rewrite (at_ok _ i 0) by (unfold L; cbn [length]; nred; lia). cbn [bind]. rewrite (at_ok _ (i + 1) 0) by (unfold L; cbn [length]; nred; lia). cbn [bind].
      unfold n2. nred. reflexivity. }
  cbn [bind]. assert (El : last_ L = Ok (nth (S (length l)) L 0)).
  { rewrite (last_ok _ 0) by (unfold L; discriminate). f_equal. }
  nred. rewrite El. cbn [bind]. f_equal.
  assert (Ep : map (fun '(i, tau) => [tau; (nth i L 0 + nth (i + 1) L 0) / 2]) (enumerate (but_last L))
            = map (fun i => [nth i L 0; (nth i L 0 + nth (i + 1) L 0) / 2]) (seq 0 (length (y :: l)))).
  { apply (list_eq_nth _ _ []); [rewrite length_enum_map, map_length, seq_length; exact Lb|].
    intros i Hi. rewrite length_enum_map in Hi. nred. rewrite Lb in Hi.
    rewrite (nth_enum_map (fun i tau => [tau; (nth i L 0 + nth (i + 1) L 0) / 2]) _ i 0) by (nred; lia).
    rewrite (nth_map_in _ _ _ _ 0%nat) by (rewrite seq_length; cbn [length]; lia). rewrite seq_nth by (cbn [length]; lia).
    cbn [Nat.add]. rewrite Eb, nth_firstn_lt by lia. reflexivity. }
  nred. rewrite Ep. apply (concat_mids (y :: l) x).
Qed.

(** ** repeated *)
Fixpoint mids_n (k : nat) (l : list R) : list R := match k with O => l | S k => mids_n k (mids l) end.
Lemma mids_ne l : l <> [] -> mids l <> [].
Proof. destruct l as [|x [|y l]]; intros H; [contradiction| |]; discriminate. Qed.
Lemma mids_n_S k : forall l, mids_n (S k) l = mids (mids_n k l).
Proof. induction k as [|k IH]; intros l; [reflexivity|]. change (mids_n (S k) (mids l) = mids (mids_n k (mids l))). apply IH. Qed.
Lemma mids_n_ne k l : l <> [] -> mids_n k l <> [].
Proof. intros H. induction k as [|k IH]; [exact H|]. rewrite mids_n_S. now apply mids_ne. Qed.
Lemma mids_n_len k : forall l, l <> [] -> length (mids_n k l) = ((length l - 1) * 2 ^ k + 1)%nat.
Proof.
  induction k as [|k IH]; intros l Hl; [cbn; destruct l; [contradiction|cbn; lia]|]. cbn [mids_n]. rewrite IH by (now apply mids_ne).
  destruct l as [|x l]; [contradiction|]. rewrite mids_len. cbn [length]. rewrite Nat.pow_succ_r'.
  replace (S (2 * length l) - 1)%nat with (2 * length l)%nat by lia. replace (S (length l) - 1)%nat with (length l) by lia. lia.
Qed.
Lemma mids_n_nth k : forall l i j, (i + 1 < length l)%nat -> (j <= 2 ^ k)%nat ->
  nth (i * 2 ^ k + j) (mids_n k l) 0 = nth i l 0 + INR j / 2 ^ k * (nth (i + 1) l 0 - nth i l 0).
Proof.
  induction k as [|k IH]; intros l i j Hi Hj.
  - cbn [mids_n]. cbn in Hj. cbn [Nat.pow]. destruct j as [|[|j]]; [| |lia].
    + rewrite Nat.mul_1_r, Nat.add_0_r. cbn. field.
    + rewrite Nat.mul_1_r. cbn. field.
  - assert (Hl : l <> []) by (intros ->; cbn in Hi; lia).
    pose proof (mids_n_len k l Hl) as Lk. rewrite mids_n_S. rewrite Nat.pow_succ_r' in *.
    destruct (mids_n k l) as [|m0 ms] eqn:Em; [exfalso; now apply (mids_n_ne k l)|].
    assert (Hlen : length ms = ((length l - 1) * 2 ^ k)%nat) by (cbn [length] in Lk; lia).
    assert (H2 : (1 <= 2 ^ k)%nat) by (pose proof (Nat.pow_nonzero 2 k); lia).
    assert (Hp : 0 < 2 ^ k) by (apply pow_lt; lra).
    destruct (Nat.Even_or_Odd j) as [[j' ->]|[j' ->]].
    + replace (i * (2 * 2 ^ k) + 2 * j')%nat with (2 * (i * 2 ^ k + j'))%nat by lia.
      rewrite mids_even by nia. rewrite <- Em, IH by lia. rewrite mult_INR. cbn [pow]. replace (INR 2) with 2 by reflexivity. field. lra.
    + replace (i * (2 * 2 ^ k) + (2 * j' + 1))%nat with (2 * (i * 2 ^ k + j') + 1)%nat by lia.
      rewrite mids_odd by nia. rewrite <- Em.
      replace (i * 2 ^ k + j' + 1)%nat with (i * 2 ^ k + (j' + 1))%nat by lia. rewrite !IH by lia.
      rewrite !plus_INR, mult_INR. cbn [pow]. replace (INR 2) with 2 by reflexivity. replace (INR 1) with 1 by reflexivity. field. lra.
Qed.
Lemma loop_ok n : forall passes l, (2 <= length l)%nat -> exists k, (k <= passes)%nat /\
  refine_loop (N := Rnum) passes n l = Ok (mids_n k l) /\
  (forall m, (m < k)%nat -> (length (mids_n m l) < n)%nat) /\ (k = passes \/ (n <= length (mids_n k l))%nat).
Proof.
  induction passes as [|p IH]; intros l Hl; unfold refine_loop; fold (@refine_loop Rnum).
  - exists 0%nat. cbn [mids_n]. split; [lia|]. split; [destruct (length l <? n)%nat; reflexivity|]. split; [intros m Hm; lia|auto].
  - nred. destruct (Nat.ltb_spec (length l) n) as [Hn|Hn].
    + destruct l as [|x [|y l]]; try (cbn in Hl; lia). rewrite with_mid_points_ok. cbn [bind].
      assert (Hm : (2 <= length (mids (x :: y :: l)))%nat) by (rewrite mids_len; cbn [length]; lia).
      destruct (IH _ Hm) as (k & Hk & E & H1 & H2). exists (S k). split; [lia|]. split; [exact E|]. split.
      * intros [|m] Hmk; [exact Hn|]. apply (H1 m). lia.
      * destruct H2 as [->|H2]; [auto|right; exact H2].
    + exists 0%nat. split; [lia|]. split; [reflexivity|]. split; [intros m Hm; lia|auto].
Qed.

Theorem non_uniform_ok (l : list R) (n : nat) : (2 <= length l)%nat -> exists k r, non_uniform_grid (N := Rnum) l n = Ok r /\
  (k <= 6)%nat /\ length r = ((length l - 1) * 2 ^ k + 1)%nat /\
  (forall i j, (i + 1 < length l)%nat -> (j <= 2 ^ k)%nat ->
     nth (i * 2 ^ k + j) r 0 = nth i l 0 + INR j / 2 ^ k * (nth (i + 1) l 0 - nth i l 0)) /\
  (forall m, (m < k)%nat -> ((length l - 1) * 2 ^ m + 1 < n)%nat) /\ (k = 6%nat \/ (n <= length r)%nat).
Proof.
  intros Hl. assert (Hne : l <> []) by (intros ->; cbn in Hl; lia).
  destruct (loop_ok n 6 l Hl) as (k & Hk & E & H1 & H2). exists k, (mids_n k l). split; [exact E|]. split; [exact Hk|].
  split; [now apply mids_n_len|]. split; [intros; now apply mids_n_nth|]. split; [|exact H2].
  intros m Hm. rewrite <- mids_n_len by exact Hne. auto.
Qed.
(** ** consequences *)
Lemma mids_incr x l : increasing (x :: l) -> increasing (mids (x :: l)).
Proof.
  intros H. assert (G : forall i, (i + 1 < length (mids (x :: l)))%nat -> nth i (mids (x :: l)) 0 < nth (i + 1) (mids (x :: l)) 0).
  { intros i Hi. rewrite mids_len in Hi. destruct (Nat.Even_or_Odd i) as [[j ->]|[j ->]].
    - rewrite mids_odd by lia. rewrite mids_even by lia. specialize (H j (j + 1)%nat ltac:(cbn [length]; lia)). lra.
    - replace (2 * j + 1 + 1)%nat with (2 * (j + 1))%nat by lia. rewrite mids_odd by lia. rewrite mids_even by lia.
      specialize (H j (j + 1)%nat ltac:(cbn [length]; lia)). lra. }
  intros i j [Hij Hj]. induction Hij as [|j Hij IH]; [specialize (G i ltac:(lia)); replace (i + 1)%nat with (S i) in G by lia; exact G|].
  specialize (IH ltac:(lia)). specialize (G j ltac:(lia)). replace (j + 1)%nat with (S j) in G by lia. lra.
Qed.
Lemma mids_n_incr k : forall l, l <> [] -> increasing l -> increasing (mids_n k l).
Proof. induction k as [|k IH]; intros l Hl H; [exact H|]. cbn [mids_n]. apply IH; [now apply mids_ne|]. destruct l; [contradiction|now apply mids_incr]. Qed.
Lemma mids_n_in k : forall l x, In x l -> In x (mids_n k l).
Proof.
  induction k as [|k IH]; intros l x H; [exact H|]. cbn [mids_n]. apply IH. clear IH. induction l as [|a [|b l] IH]; [destruct H|exact H|].
  rewrite mids_2. destruct H as [->|H]; [now left|]. right. right. now apply IH.
Qed.
Theorem non_uniform_grid_ok (l : list R) (n : nat) : (2 <= length l)%nat -> increasing l -> exists r,
  non_uniform_grid (N := Rnum) l n = Ok r /\ increasing r /\ (forall x, In x l -> In x r) /\
  nth 0 r 0 = nth 0 l 0 /\ last r 0 = last l 0 /\ ((n <= length l)%nat -> r = l) /\ (length r <= Nat.max (length l) (2 * n - 3))%nat /\
  (length r < n -> (length l - 1) * 64 + 1 = length r)%nat.
Proof.
  intros Hl Hi. assert (Hne : l <> []) by (intros ->; cbn in Hl; lia).
  destruct (loop_ok n 6 l Hl) as (k & Hk & E & H1 & H2). exists (mids_n k l). split; [exact E|]. nred.
  split; [now apply mids_n_incr|]. split; [intros; now apply mids_n_in|].
  pose proof (mids_n_len k l Hne) as L.
  assert (H2k : (1 <= 2 ^ k)%nat) by (pose proof (Nat.pow_nonzero 2 k); lia).
  split; [|split; [|split; [|split]]].
  - pose proof (mids_n_nth k l 0 0 ltac:(lia) ltac:(lia)) as N0. cbn [Nat.mul Nat.add] in N0. etransitivity; [exact N0|]. cbn [INR]. unfold Rdiv. rewrite Rmult_0_l. lra.
  - assert (Ll : forall m : list R, last m 0 = nth (length m - 1) m 0).
    { intros m. induction m as [|a m IH]; [reflexivity|]. destruct m as [|b m]; [reflexivity|].
      change (last (a :: b :: m) 0) with (last (b :: m) 0). rewrite IH. cbn [length]. replace (S (S (length m)) - 1)%nat with (S (S (length m) - 1)) by lia. reflexivity. }
    rewrite !Ll, L. replace ((length l - 1) * 2 ^ k + 1 - 1)%nat with ((length l - 2) * 2 ^ k + 2 ^ k)%nat by nia.
    rewrite mids_n_nth by lia. rewrite pow_INR. replace (INR 2) with 2 by reflexivity.
    replace (2 ^ k / 2 ^ k) with 1 by (field; apply pow_nonzero; lra). replace (length l - 2 + 1)%nat with (length l - 1)%nat by lia. lra.
  - intros Hn. destruct k as [|k]; [reflexivity|]. specialize (H1 0%nat ltac:(lia)). cbn [mids_n] in H1. lia.
  - destruct k as [|k]; [cbn [mids_n]; lia|]. specialize (H1 k ltac:(lia)). rewrite mids_n_len in H1 by exact Hne. rewrite L, Nat.pow_succ_r'. lia.
  - intros Hn. destruct H2 as [->|H2]; [|lia]. rewrite L. reflexivity.
Qed.
Lemma non_uniform_short (l : list R) n : (length l < 2)%nat -> (length l < n)%nat -> non_uniform_grid (N := Rnum) l n = Raise ValueError.
Proof.
  intros H1 H2. unfold non_uniform_grid. cbn [refine_loop]. nred. rewrite (proj2 (Nat.ltb_lt _ _) H2).
  destruct l as [|x [|y l]]; try reflexivity. cbn in H1. lia.
Qed.

(** ** sort_residual_data *)
Lemma norm2_of row : norm2 (N := Rnum) row = norm_of row.
Proof.
  unfold norm2, norm_of. rewrite sum_R. cbn [nsqrt Rnum]. f_equal. induction row as [|x row IH]; [reflexivity|]. cbn. nred. rewrite <- IH. reflexivity.
Qed.
Lemma norm_residual_ok rs : rs <> [] -> norm_residual (N := Rnum) rs = Ok (concat (map SpecPost.seg_norms rs)).
Proof.
  intros H. unfold norm_residual, concat_. destruct rs as [|r rs]; [contradiction|].
  transitivity (Ok (concat (map (fun r : option (list (list R)) => match r with Some m => map (norm2 (N := Rnum)) m | None => [] end) (r :: rs)))); [reflexivity|].
  f_equal. f_equal. apply map_ext. intros [m|]; [|reflexivity]. apply map_ext. apply norm2_of.
Qed.
Lemma matching_len ts rs : matching ts rs -> length (concat ts) = length (concat (map SpecPost.seg_norms rs)).
Proof.
  intros H. induction H as [|t r ts rs Htr H IH]; [reflexivity|]. cbn [concat map]. rewrite !app_length, IH, Htr.
  destruct r as [m|]; cbn [SpecPost.seg_norms]; [rewrite map_length|]; reflexivity.
Qed.
Lemma matching_ne ts rs : matching ts rs -> ts <> [] -> rs <> [].
Proof. intros H. destruct H; auto. discriminate. Qed.
Lemma uniform_len m (ts : list (list R)) : uniform m ts -> length (concat ts) = (length ts * m)%nat.
Proof.
  induction ts as [|t ts IH]; intros H; [reflexivity|]. cbn [concat length]. rewrite app_length, IH by (intros x Hx; apply H; now right).
  rewrite (H t) by (now left). lia.
Qed.
Lemma as_rows_uniform m t ts : uniform m (t :: ts) -> as_rows (N := Rnum) (t :: ts) = map (map CNum) (t :: ts).
Proof.
  intros H. unfold as_rows. replace (forallb _ _) with true; [reflexivity|]. symmetry. apply forallb_forall. intros x Hx. apply Nat.eqb_eq.
  transitivity m; [exact (H x Hx)|]. symmetry. apply H. now left.
Qed.
Lemma as_rows_ragged ts : ts <> [] -> (forall m, ~ uniform m ts) -> as_rows (N := Rnum) ts = [map CArr ts].
Proof.
  intros Hne H. destruct ts as [|t ts]; [contradiction|]. unfold as_rows. destruct (forallb _ _) eqn:E; [|reflexivity].
  exfalso. apply (H (length t)). rewrite forallb_forall in E. intros x Hx. apply Nat.eqb_eq. exact (E x Hx).
Qed.

Section Sort.
Variables (time : list (list (list R))) (residuals : list (list (option (list (list R))))).
Local Notation norms := (SpecPost.norms residuals).
Local Notation times := (SpecPost.times time).
Local Notation present := (SpecPost.present time residuals).
Lemma at_time ph : present ph -> at_ time ph = Ok (nth ph time []) /\ @at_ (list (rows (N := Rnum))) residuals ph = Ok (nth ph residuals []) /\
  norm_residual (N := Rnum) (nth ph residuals []) = Ok (norms ph).
Proof.
  intros (H1 & H2 & H3 & H4). rewrite (at_ok _ _ []) by exact H1. rewrite (at_ok _ _ []) by exact H2. repeat split; auto.
  apply norm_residual_ok. eapply matching_ne; eauto.
Qed.
Theorem sort_single ph : present 0 -> sort_residual_data (N := Rnum) time residuals [ph] = Ok (norms 0, map CNum (times 0)).
Proof.
  intros H. destruct (at_time 0 H) as (E1 & E2 & E3). unfold sort_residual_data. nred. rewrite E1. cbn [bind]. rewrite E2. cbn [bind]. rewrite E3. cbn [bind length Nat.ltb Nat.leb].
  destruct H as (_ & _ & Hne & Hm). unfold concat_. destruct (nth 0 time []) as [|t ts] eqn:E; [contradiction|]. cbn [bind]. rewrite <- E.
  rewrite map_length, <- E in *. rewrite (proj2 (Nat.eqb_eq _ _)); [reflexivity|]. unfold SpecPost.norms. symmetry. apply matching_len. exact Hm.
Qed.
Lemma concat_concat_map {A B} (f : A -> list (list B)) l : concat (concat (map f l)) = concat (map (fun a => concat (f a)) l).
Proof. induction l as [|a l IH]; [reflexivity|]. cbn. rewrite concat_app, IH. reflexivity. Qed.
Lemma concat_map_map {A B} (f : A -> B) ls : concat (map (map f) ls) = map f (concat ls).
Proof. induction ls as [|l ls IH]; [reflexivity|]. cbn. rewrite map_app, IH. reflexivity. Qed.
Lemma len_eq_concat {A B C} (f : C -> list A) (g : C -> list B) l : (forall c, In c l -> length (f c) = length (g c)) ->
  length (concat (map f l)) = length (concat (map g l)).
Proof. induction l as [|c l IH]; intros H; [reflexivity|]. cbn. rewrite !app_length, IH, H by (cbn; auto; intros; apply H; now right). reflexivity. Qed.
Theorem sort_uniform m n p rest : (forall ph, In ph (0%nat :: rest) -> present ph /\ uniform m (nth ph time []) /\ length (nth ph time []) = n) ->
  sort_residual_data (N := Rnum) time residuals (p :: rest)
  = Ok (concat (map norms (0%nat :: rest)), map CNum (concat (map times (0%nat :: rest)))).
Proof.
  intros H. destruct (H 0%nat (or_introl eq_refl)) as (H0 & U0 & L0).
  destruct rest as [|q rest].
  { cbn [map concat]. rewrite !app_nil_r. apply sort_single. exact H0. }
  destruct (at_time 0 H0) as (E1 & E2 & E3). unfold sort_residual_data. nred. rewrite E1. cbn [bind]. rewrite E2. cbn [bind]. rewrite E3. cbn [bind].
  change (1 <? length (p :: q :: rest))%nat with true. cbn [tl].
  set (tr := q :: rest) in *. set (f := fun ph => map (map (@CNum Rnum)) (nth ph time [])).
  assert (Hrow : forall ph, In ph (0%nat :: tr) -> length (norms ph) = (n * m)%nat).
  { intros ph Hp. destruct (H ph Hp) as ((_ & _ & _ & Hm) & U & L). unfold SpecPost.norms. rewrite <- (matching_len _ _ Hm), (uniform_len m) by exact U. now rewrite L. }
  assert (Hhd : forall ph, In ph (0%nat :: tr) -> exists t ts, nth ph time [] = t :: ts /\ length t = m).
  { intros ph Hp. destruct (H ph Hp) as ((_ & _ & Hne & _) & U & _). destruct (nth ph time []) as [|t ts]; [contradiction|]. exists t, ts. split; [reflexivity|apply U; now left]. }
  match goal with |- context [foldM ?g tr ?s] =>
    assert (F : forall l done, (forall ph, In ph l -> In ph (0%nat :: tr)) -> (forall ph, In ph done -> In ph (0%nat :: tr)) -> done <> [] ->
      foldM g l (map norms done, concat (map f done)) = Ok (map norms (done ++ l), concat (map f (done ++ l)))) end.
  { induction l as [|ph l IH]; intros done Hl Hd Hne; [cbn [foldM]; now rewrite app_nil_r|].
    cbn [foldM]. destruct (H ph (Hl ph (or_introl eq_refl))) as (Hp & Up & Lp). destruct (at_time ph Hp) as (G1 & G2 & G3).
    rewrite G1. cbn [bind]. rewrite G2. cbn [bind]. rewrite G3. cbn [bind].
    destruct done as [|d0 done]; [contradiction|].
    assert (V1 : vstack_rows (map norms (d0 :: done)) [norms ph] = Ok (map norms ((d0 :: done) ++ [ph]))).
    { cbn [map vstack_rows]. rewrite !Hrow by auto using in_eq. rewrite Nat.eqb_refl. rewrite map_app. reflexivity. }
    nred. rewrite V1. cbn [bind].
    destruct (Hhd ph (Hl ph (or_introl eq_refl))) as (t & ts & Et & Lt). destruct (Hhd d0 (Hd d0 (or_introl eq_refl))) as (t' & ts' & Et' & Lt').
    assert (V2 : vstack_rows (concat (map f (d0 :: done))) (as_rows (N := Rnum) (nth ph time [])) = Ok (concat (map f ((d0 :: done) ++ [ph])))).
    { rewrite map_app, concat_app. cbn [map concat]. rewrite Et in Up |- *. rewrite (as_rows_uniform m) by exact Up.
      unfold f at 1. rewrite Et'. cbn [map app vstack_rows]. rewrite !map_length. nred. rewrite Lt, Lt', Nat.eqb_refl.
      assert (F1 : f d0 = map CNum t' :: map (map CNum) ts') by (unfold f; now rewrite Et').
      assert (F2 : f ph = map CNum t :: map (map CNum) ts) by (unfold f; now rewrite Et). rewrite F1, F2, app_nil_r. reflexivity. }
    rewrite V2. cbn [bind]. rewrite IH.
    - now rewrite <- app_assoc.
    - intros x Hx. apply Hl. now right.
    - intros x Hx. apply in_app_iff in Hx. destruct Hx as [Hx|[<-|[]]]; [apply Hd; exact Hx|apply Hl; now left].
    - intros C. now apply app_eq_nil in C. }
  assert (F0 := F tr [0%nat] ltac:(intros; now right) ltac:(intros ph [<-|[]]; now left) ltac:(discriminate)). clear F.
  change ([0%nat] ++ tr) with (0%nat :: tr) in F0.
  destruct (Hhd 0%nat (or_introl eq_refl)) as (t & ts & Et & Lt).
  assert (E0 : as_rows (N := Rnum) (nth 0 time []) = concat (map f [0%nat])).
  { cbn [map concat]. rewrite app_nil_r. unfold f. rewrite Et. apply (as_rows_uniform m). rewrite <- Et. exact U0. }
  nred. rewrite E0. change [norms 0] with (map norms [0%nat]). rewrite F0. cbn [bind].
  assert (EB : concat (concat (map f (0%nat :: tr))) = map CNum (concat (map times (0%nat :: tr)))).
  { rewrite concat_concat_map. rewrite <- concat_map_map, map_map. f_equal. apply map_ext. intros ph. unfold f, times. apply concat_map_map. }
  nred. rewrite EB. rewrite map_length.
  assert (EL : length (concat (map norms (0%nat :: tr))) = length (concat (map times (0%nat :: tr)))).
  { apply len_eq_concat. intros ph Hp. destruct (H ph Hp) as ((_ & _ & _ & Hm) & _). unfold SpecPost.norms, SpecPost.times. symmetry. now apply matching_len. }
  nred. rewrite EL, Nat.eqb_refl. reflexivity.
Qed.
Definition rows_of {A} (len k : nat) (l : list (list A)) : Prop := length l = k /\ forall r, In r l -> length r = len.
Lemma rows_concat {A} len k (l : list (list A)) : rows_of len k l -> length (concat l) = (k * len)%nat.
Proof.
  intros [<- H]. induction l as [|r l IH]; [reflexivity|]. cbn [concat length]. rewrite app_length, IH by (intros x Hx; apply H; now right).
  rewrite (H r) by (now left). lia.
Qed.
Lemma rows_stack {A} len k (l : list (list A)) r : rows_of len k l -> (1 <= k)%nat ->
  vstack_rows l [r] = Raise ValueError \/ (vstack_rows l [r] = Ok (l ++ [r]) /\ rows_of len (k + 1) (l ++ [r])).
Proof.
  intros [Hk H] H1. destruct l as [|r0 l]; [cbn in Hk; lia|]. cbn [vstack_rows]. destruct (Nat.eqb_spec (length r0) (length r)) as [E|E]; [|auto].
  right. split; [reflexivity|]. split; [rewrite app_length; cbn in *; lia|]. intros x Hx. apply in_app_iff in Hx. destruct Hx as [Hx|[<-|[]]]; [auto|].
  rewrite <- E. apply H. now left.
Qed.
(** several phases with unequal segments *)
Theorem sort_ragged p q rest n : (forall ph, In ph (0%nat :: q :: rest) -> present ph /\ (forall m, ~ uniform m (nth ph time [])) /\ length (nth ph time []) = n) ->
  length (times 0) <> n -> sort_residual_data (N := Rnum) time residuals (p :: q :: rest) = Raise ValueError.
Proof.
  intros H Hn. destruct (H 0%nat (or_introl eq_refl)) as (H0 & U0 & L0).
  destruct (at_time 0 H0) as (E1 & E2 & E3). unfold sort_residual_data. nred. rewrite E1. cbn [bind]. rewrite E2. cbn [bind]. rewrite E3. cbn [bind].
  change (1 <? length (p :: q :: rest))%nat with true. cbn [tl]. set (tr := q :: rest) in *.
  rewrite as_rows_ragged by (auto; apply H0).
  match goal with |- context [foldM ?g tr ?s] =>
    assert (F : forall l k R T, (forall ph, In ph l -> In ph (0%nat :: tr)) -> rows_of (length (norms 0)) k R -> rows_of n k T -> (1 <= k)%nat ->
      foldM g l (R, T) = Raise ValueError \/ exists R' T' k', foldM g l (R, T) = Ok (R', T') /\ rows_of (length (norms 0)) k' R' /\ rows_of n k' T' /\ (1 <= k')%nat) end.
  { induction l as [|ph l IH]; intros k R T Hl HR HT Hk; [right; exists R, T, k; auto|]. cbn [foldM].
    destruct (H ph (Hl ph (or_introl eq_refl))) as (Hp & Up & Lp). destruct (at_time ph Hp) as (G1 & G2 & G3).
    rewrite G1. cbn [bind]. rewrite G2. cbn [bind]. rewrite G3. cbn [bind].
    destruct (rows_stack _ _ _ (norms ph) HR Hk) as [E|[E HR']]; nred; rewrite E; cbn [bind]; [now left|].
    rewrite as_rows_ragged by (auto; apply Hp).
    destruct (rows_stack _ _ _ (map CArr (nth ph time [])) HT Hk) as [E'|[E' HT']]; nred; rewrite E'; cbn [bind]; [now left|].
    apply (IH (k + 1)%nat); auto; [|lia]. intros x Hx. apply Hl. now right. }
  destruct (F tr 1%nat [norms 0] [map CArr (nth 0 time [])]) as [E|(R' & T' & k' & E & HR & HT & Hk)]; auto.
  - intros ph Hp. now right.
  - split; [reflexivity|]. intros r [<-|[]]. reflexivity.
  - split; [reflexivity|]. intros r [<-|[]]. now rewrite map_length.
  - nred. rewrite E. reflexivity.
  - nred. rewrite E. cbn [bind]. rewrite (rows_concat _ _ _ HR), (rows_concat _ _ _ HT).
    assert (EN : length (norms 0) = length (times 0)) by (destruct H0 as (_ & _ & _ & Hm); unfold SpecPost.norms, SpecPost.times; symmetry; now apply matching_len).
    rewrite (proj2 (Nat.eqb_neq _ _)); [reflexivity|]. rewrite EN. nia.
Qed.
End Sort.
Theorem sort_first_ignored time residuals p q rest :
  sort_residual_data (N := Rnum) time residuals (p :: rest) = sort_residual_data (N := Rnum) time residuals (q :: rest).
Proof. reflexivity. Qed.
