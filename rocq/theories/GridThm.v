(** Points at which residuals are evaluated (proofs). *)
From Coq Require Import String.
From Coq Require Import Reals List Lia Lra Bool Arith Permutation.
From Coquelicot Require Import Coquelicot.
From Verif Require Import Num PyList Mat Poly Roots Colloc Ocp Transcribe Hadapt Resid.
From Verif Require Import Spec SpecOcp SpecHadapt SpecResid NumR ListR CompR DiscR NlpR BlockR GuessR AreaR GridR ResidR.
Import ListNotations.
Open Scope R_scope.

Lemma widths_of_part mp p ph : widths_of (N := Rnum) mp p ph = phase_part (mp_nseg mp) ph p.
Proof. unfold widths_of, slice, phase_part. f_equal. lia. Qed.

(** ** positions *)
Lemma total_firstn_pos ws i j : (forall w, In w ws -> 0 < w) -> (i < j <= length ws)%nat -> total (firstn i ws) < total (firstn j ws).
Proof.
  intros Hp H. apply Rlt_le_trans with (total (firstn (S i) ws)).
  - rewrite firstn_S_total by lia. pose proof (Hp (nth i ws 0) ltac:(apply nth_In; lia)). lra.
  - apply total_firstn_le; [intros; apply Rlt_le, Hp; auto|lia].
Qed.
Lemma position_in tau0 tau1 ws k x : tau0 < tau1 -> (forall w, In w ws -> 0 < w) -> (k < length ws)%nat -> tau0 < x <= tau1 ->
  total (firstn k ws) < position tau0 tau1 ws k x <= total (firstn (S k) ws).
Proof.
  intros Ht Hw Hk Hx. rewrite firstn_S_total by exact Hk. unfold position.
  pose proof (Hw (nth k ws 0) ltac:(apply nth_In; exact Hk)) as W.
  assert (F : 0 < frac tau0 tau1 x <= 1).
  { unfold frac. split; [apply Rdiv_lt_0_compat; lra|]. apply Rmult_le_reg_r with (tau1 - tau0); [lra|]. unfold Rdiv. rewrite Rmult_assoc, Rinv_l by lra. lra. }
  split; nra.
Qed.
Lemma position_inside tau0 tau1 ws n k x : tau0 < tau1 -> partition n ws -> (k < n)%nat -> tau0 < x < tau1 ->
  0 < position tau0 tau1 ws k x < 1.
Proof.
  intros Ht (Hl & Hw & Hs) Hk Hx. rewrite <- Hl in Hk. rewrite <- Hs.
  pose proof (total_firstn_le ws 0 k ltac:(intros; apply Rlt_le, Hw; auto) ltac:(lia)) as A. cbn [firstn] in A. change (total []) with 0 in A.
  pose proof (total_firstn_le ws (S k) (length ws) ltac:(intros; apply Rlt_le, Hw; auto) ltac:(lia)) as B. rewrite firstn_all in B.
  rewrite firstn_S_total in B by exact Hk. unfold position.
  pose proof (Hw (nth k ws 0) ltac:(apply nth_In; exact Hk)) as W.
  assert (F : 0 < frac tau0 tau1 x < 1).
  { unfold frac. split; [apply Rdiv_lt_0_compat; lra|]. apply Rmult_lt_reg_r with (tau1 - tau0); [lra|]. unfold Rdiv. rewrite Rmult_assoc, Rinv_l by lra. lra. }
  split; nra.
Qed.
Lemma positions_cons tau0 tau1 w ws t ts : positions tau0 tau1 (w :: ws) (t :: ts)
  = map (position tau0 tau1 (w :: ws) 0) t ++ concat (map (fun k => map (position tau0 tau1 (w :: ws) (S k)) (nth k ts [])) (seq 0 (length ts))).
Proof.
  unfold positions. cbn [length seq map concat nth]. f_equal. rewrite <- seq_shift, map_map. reflexivity.
Qed.
Lemma positions_In tau0 tau1 ws ts v : In v (positions tau0 tau1 ws ts) <->
  exists k x, (k < length ts)%nat /\ In x (nth k ts []) /\ v = position tau0 tau1 ws k x.
Proof.
  unfold positions. rewrite in_concat. split.
  - intros (l & Hl & Hv). apply in_map_iff in Hl. destruct Hl as (k & <- & Hk). apply in_seq in Hk.
    apply in_map_iff in Hv. destruct Hv as (x & <- & Hx). exists k, x. repeat split; [lia|auto].
  - intros (k & x & Hk & Hx & ->). exists (map (position tau0 tau1 ws k) (nth k ts [])). split.
    + apply in_map_iff. exists k. split; [reflexivity|apply in_seq; lia].
    + now apply in_map.
Qed.

(** ** the grids built from collocation points *)
Lemma mid_len (r : list R) : length (mid_points (N := Rnum) r) = (length r - 1)%nat.
Proof. induction r as [|a r IH]; [reflexivity|]. destruct r as [|b r]; [reflexivity|]. cbn [mid_points length] in *. nred. lia. Qed.
Lemma mid_nth (r : list R) j : (S j < length r)%nat ->
  nth j (mid_points (N := Rnum) r) 0 = (nth j r 0 + nth (S j) r 0) / 2.
Proof.
  revert j; induction r as [|a r IH]; intros j Hj; [cbn in Hj; lia|]. destruct r as [|b r]; [cbn in Hj; lia|].
  cbn [mid_points]. destruct j as [|j].
  - cbn [nth]. nred. lra.
  - change (nth (S j) (?h :: ?t) 0) with (nth j t 0). cbn [nth] in *. rewrite <- IH by (cbn in *; lia). reflexivity.
Qed.
Lemma firstn_In' {A} (l : list A) n x : In x (firstn n l) -> In x l.
Proof. rewrite <- (firstn_skipn n l) at 2. intros. apply in_or_app. auto. Qed.
Lemma last_at {A} (l : list A) d : last l d = nth (length l - 1) l d.
Proof.
  induction l as [|a l IH]; [reflexivity|]. destruct l as [|b l]; [reflexivity|]. change (last (a :: b :: l) d) with (last (b :: l) d). rewrite IH.
  cbn [length]. replace (S (S (length l)) - 1)%nat with (S (S (length l) - 1)) by lia. reflexivity.
Qed.
Lemma mid_strict t0 t1 q r : good_nodes t0 t1 q r -> length (mid_points (N := Rnum) r) = q /\
  forall x, In x (mid_points (N := Rnum) r) -> t0 < x < t1.
Proof.
  intros (L & I & E0 & E1). split; [rewrite mid_len; nred; lia|]. intros x Hx.
  destruct (In_nth _ _ 0 Hx) as (i & Hi & <-). rewrite mid_len in Hi. rewrite mid_nth by lia.
  pose proof (I i (S i) ltac:(lia)). assert (t0 <= nth i r 0).
  { rewrite <- E0. destruct i as [|i]; [lra|]. apply Rlt_le, I. lia. }
  assert (nth (S i) r 0 <= t1).
  { rewrite <- E1. destruct (Nat.eq_dec (S i) q) as [->|]; [lra|]. apply Rlt_le, I. lia. }
  lra.
Qed.
Lemma inner_strict t0 t1 q r : good_nodes t0 t1 q r -> length (but_last (tl r)) = (q - 1)%nat /\
  forall x, In x (but_last (tl r)) -> t0 < x < t1.
Proof.
  intros (L & I & E0 & E1). destruct r as [|a r]; [discriminate|]. cbn [tl length nth] in *. subst a. unfold but_last. split.
  - rewrite firstn_length. lia.
  - intros x Hx. destruct (In_nth _ _ 0 Hx) as (i & Hi & E). rewrite firstn_length in Hi. rewrite nth_firstn_lt in E by lia. subst x.
    split; [apply (I 0%nat (S i)); cbn; lia|]. rewrite <- E1. destruct q as [|q]; [lia|]. cbn [nth] in *. apply (I (S i) (S q)). cbn; lia.
Qed.

Theorem mid_grid_thm rc mp sw ph : mpo_ok mp ->
  exists ts, residual_grid rc mp sw ph (Some "mid-points"%string) = Ok (Some ts) /\
    map (@length R) ts = mp_orders mp /\
    forall l x, In l ts -> In x l -> cf_tau0 (mp_cf mp) < x < cf_tau1 (mp_cf mp).
Proof.
  intros Hmp. unfold residual_grid. cbn [bind String.eqb Ascii.eqb Bool.eqb].
  assert (H : exists ts, mapM (fun q => r <- c_roots (mp_cf mp) q ;; Ok (mid_points r)) (mp_orders mp) = Ok ts /\
    map (@length R) ts = mp_orders mp /\ forall l x, In l ts -> In x l -> cf_tau0 (mp_cf mp) < x < cf_tau1 (mp_cf mp)).
  { pose proof (mo_pos _ Hmp) as Hp. induction (mp_orders mp) as [|q qs IH]; [exists []; split; [reflexivity|split; [reflexivity|intros ? ? []]]|].
    destruct (c_roots_good (mp_cf mp) q (mo_cfg _ Hmp) (Hp q (or_introl eq_refl))) as (r & Er & Hr).
    destruct IH as (ts & Ets & El & Hin); [intros; apply Hp; cbn; auto|].
    destruct (mid_strict _ _ _ _ Hr) as [Lm Hm].
    exists (mid_points (N := Rnum) r :: ts). cbn [mapM bind]. nred. rewrite Er. cbn [bind]. rewrite Ets. cbn [bind]. split; [reflexivity|].
    split; [cbn [map]; now rewrite Lm, El|]. intros l x [<-|Hl] Hx; [apply Hm; exact Hx|eapply Hin; eauto]. }
  destruct H as (ts & E & H). exists ts. rewrite E. cbn [bind]. auto.
Qed.
Theorem spectral_grid_thm rc mp sw ph : mpo_ok mp ->
  exists ts, residual_grid rc mp sw ph (Some "spectral"%string) = Ok (Some ts) /\
    map (@length R) ts = map (fun _ => S (r_points rc)) (mp_orders mp) /\
    forall l x, In l ts -> In x l -> cf_tau0 (mp_cf mp) < x < cf_tau1 (mp_cf mp).
Proof.
  intros Hmp. unfold residual_grid. cbn [bind String.eqb Ascii.eqb Bool.eqb].
  destruct (c_roots_good (mp_cf mp) (r_points rc + 2) (mo_cfg _ Hmp) ltac:(lia)) as (r & Er & Hr).
  destruct (inner_strict _ _ _ _ Hr) as [Lm Hm].
  exists (map (fun _ => but_last (tl r)) (mp_orders mp)).
  rewrite (@mapM_ok nat (list R) _ (fun _ => but_last (tl r))) by (intros; nred; rewrite Er; reflexivity). cbn [bind].
  split; [reflexivity|]. split; [rewrite map_map; apply map_ext; intros; nred; pose proof Lm as E; nred; rewrite E; lia|].
  intros l x Hl Hx. apply in_map_iff in Hl. destruct Hl as (q & <- & _). apply Hm. exact Hx.
Qed.

(** ** the equally spaced grid *)
Lemma linspace_part t0 t1 n : t0 < t1 -> (2 <= n)%nat ->
  sorted (linspace (N := Rnum) t0 t1 n) /\
  map (frac t0 t1) (part t0 t1 (linspace (N := Rnum) t0 t1 n)) = map (fun i => INR i / INR (n - 1)) (seq 1 (n - 1)).
Proof.
  intros Ht Hn. set (l := linspace (N := Rnum) t0 t1 n). pose proof (linspace_length t0 t1 n) as Ll. fold l in Ll. nred.
  assert (Hnth : forall i, (i < n)%nat -> nth i l 0 = t0 + (t1 - t0) * (INR i / INR (n - 1))) by (intros; apply nth_linspace; lia).
  assert (Hd : 0 < INR (n - 1)) by (apply lt_0_INR; lia).
  assert (Hle : forall i, (i < n)%nat -> 0 <= INR i / INR (n - 1) <= 1).
  { intros i Hi. split; [apply Rmult_le_pos; [apply pos_INR|apply Rlt_le, Rinv_0_lt_compat, Hd]|].
    apply Rmult_le_reg_r with (INR (n - 1)); [exact Hd|]. unfold Rdiv. rewrite Rmult_assoc, Rinv_l, Rmult_1_l, Rmult_1_r by lra. apply le_INR. lia. }
  split.
  - intros i j Hij. rewrite Ll in Hij. rewrite !Hnth by lia.
    assert (INR i / INR (n - 1) <= INR j / INR (n - 1)).
    { unfold Rdiv. apply Rmult_le_compat_r; [apply Rlt_le, Rinv_0_lt_compat, Hd|apply le_INR; lia]. }
    nra.
  - destruct l as [|a l'] eqn:El; [cbn in Ll; lia|].
    assert (Ea : a = t0). { specialize (Hnth 0%nat ltac:(lia)). cbn [nth] in Hnth. rewrite Hnth. cbn [INR]. unfold Rdiv. lra. }
    assert (E : part t0 t1 (a :: l') = l').
    { unfold part. cbn [filter]. subst a. destruct (Rlt_dec t0 t0) as [H|_]; [lra|].
      assert (H : forall y, In y l' -> t0 < y <= t1).
      { intros y Hy. destruct (In_nth _ _ 0 Hy) as (i & Hi & <-). cbn [length] in Ll. specialize (Hnth (S i) ltac:(lia)). cbn [nth] in Hnth. rewrite Hnth.
        specialize (Hle (S i) ltac:(lia)). assert (0 < INR (S i) / INR (n - 1)) by (apply Rdiv_lt_0_compat; [apply lt_0_INR; lia|exact Hd]). nra. }
      revert H. clear. induction l' as [|y l IH]; intros H; [reflexivity|]. cbn [filter]. destruct (H y (or_introl eq_refl)) as [A B].
      destruct (Rlt_dec t0 y); [|lra]. destruct (Rle_dec y t1); [|lra]. f_equal. apply IH. intros; apply H; cbn; auto. }
    rewrite E. cbn [length] in Ll. apply (list_eq_nth _ _ 0); [rewrite !map_length, seq_length; lia|].
    intros i Hi. rewrite map_length in Hi. rewrite (nth_map_in _ _ _ _ 0) by exact Hi.
    rewrite (nth_map_in _ _ _ _ 0%nat) by (rewrite seq_length; lia). rewrite seq_nth by lia.
    specialize (Hnth (S i) ltac:(lia)). cbn [nth] in Hnth. rewrite Hnth. unfold frac. cbn [Nat.add]. field. lra.
Qed.
(** the points are the inner ones of the equally spaced grid and the end of the phase, without the
    last one of the first segment *)
Theorem fixed_grid_thm rc mp sw ph : mpo_ok mp ->
  let ws := phase_part (mp_nseg mp) ph sw in partition (mp_nseg mp) ws ->
  let cf := mp_cf mp in let n := (fixed_count rc mp - 1)%nat in
  exists ts m, residual_grid rc mp sw ph (Some "fixed"%string) = Ok (Some ts) /\ length ts = mp_nseg mp /\
    (forall l x, In l ts -> In x l -> cf_tau0 cf < x <= cf_tau1 cf) /\
    (m <= n)%nat /\ (forall i, (1 <= i <= n)%nat -> ((i <= m)%nat <-> INR i / INR n <= nth 0 ws 0)) /\
    positions (cf_tau0 cf) (cf_tau1 cf) ws ts = map (fun i => INR i / INR n) (seq 1 (m - 1) ++ seq (S m) (n - m)).
Proof.
  intros Hmp ws Hws cf n. pose proof (co_taus _ (mo_cfg _ Hmp)) as Ht. fold cf in Ht.
  assert (Hn : (2 <= fixed_count rc mp)%nat) by (unfold fixed_count; lia).
  destruct Hws as (Lw & Hw & Hs). pose proof (mo_nseg _ Hmp) as Hseg.
  destruct (linspace_part (cf_tau0 cf) (cf_tau1 cf) (fixed_count rc mp) Ht Hn) as [Hsort Hpart].
  destruct (taus_thm (linspace (N := Rnum) (cf_tau0 cf) (cf_tau1 cf) (fixed_count rc mp)) ws (cf_tau0 cf) (cf_tau1 cf) Ht ltac:(intros; apply Rlt_le, Hw; auto) Hs)
    as (ts & Ets & Lts & Hloc & _ & Hpos). specialize (Hpos Hsort). rewrite Hpart in Hpos. clear Hpart. fold n in Hpos.
  unfold residual_grid. cbn [bind String.eqb Ascii.eqb Bool.eqb]. rewrite widths_of_part. fold ws cf. fold (fixed_count rc mp). nred. rewrite Ets. cbn [bind].
  destruct ts as [|t ts]; [cbn in Lts; lia|]. destruct ws as [|w0 ws'] eqn:Ew; [cbn in Lw; lia|].
  rewrite positions_cons in Hpos. set (rest := concat _) in Hpos.
  set (f := fun i : nat => INR i / INR n) in *. set (m := length t).
  assert (Lm : (m + length rest = n)%nat).
  { apply (f_equal (@length R)) in Hpos. rewrite app_length, !map_length, seq_length in Hpos. exact Hpos. }
  assert (Hsplit : seq 1 n = seq 1 m ++ seq (S m) (n - m)).
  { replace n with (m + (n - m))%nat at 1 by lia. rewrite seq_app. reflexivity. }
  rewrite Hsplit, map_app in Hpos.
  assert (Hl1 : length (map (position (cf_tau0 cf) (cf_tau1 cf) (w0 :: ws') 0) t) = length (map f (seq 1 m))) by (rewrite !map_length, seq_length; reflexivity).
  assert (H12 : map (position (cf_tau0 cf) (cf_tau1 cf) (w0 :: ws') 0) t = map f (seq 1 m) /\ rest = map f (seq (S m) (n - m))).
  { split.
    - apply (f_equal (firstn m)) in Hpos. rewrite !firstn_app in Hpos. rewrite !map_length, seq_length in Hpos. fold m in Hpos.
      rewrite Nat.sub_diag in Hpos. cbn [firstn] in Hpos. rewrite !app_nil_r in Hpos.
      rewrite !firstn_all2 in Hpos by (rewrite map_length, ?seq_length; fold m; lia). exact Hpos.
    - apply (f_equal (skipn m)) in Hpos. rewrite !skipn_app in Hpos. rewrite !map_length, seq_length in Hpos. fold m in Hpos.
      rewrite Nat.sub_diag in Hpos. cbn [skipn] in Hpos.
      rewrite !skipn_all2 in Hpos by (rewrite map_length, ?seq_length; fold m; lia). exact Hpos. }
  destruct H12 as [H1 H2].
  exists (but_last t :: ts), m. split; [reflexivity|]. split; [cbn [length] in *; lia|]. split.
  { intros l x [<-|Hl] Hx; [apply (Hloc t); [cbn; auto|eapply firstn_In'; exact Hx]|eapply Hloc; [right; exact Hl|exact Hx]]. }
  split; [lia|]. split.
  - intros i Hi. cbn [nth]. split; intros H.
    + assert (Hin : In (f i) (map f (seq 1 m))) by (apply in_map, in_seq; lia). rewrite <- H1 in Hin. apply in_map_iff in Hin. destruct Hin as (x & Ex & Hx).
      unfold f in Ex. rewrite <- Ex.
      pose proof (position_in (cf_tau0 cf) (cf_tau1 cf) (w0 :: ws') 0 x Ht Hw ltac:(cbn; lia) (Hloc t x (or_introl eq_refl) Hx)) as [_ B].
      cbn [firstn] in B. unfold total in B. cbn [fold_right] in B. lra.
    + destruct (le_lt_dec i m) as [|Hlt]; [assumption|exfalso].
      assert (Hin : In (f i) rest) by (rewrite H2; apply in_map, in_seq; lia). unfold rest in Hin. apply in_concat in Hin. destruct Hin as (l & Hl & Hv).
      apply in_map_iff in Hl. destruct Hl as (k & <- & Hk). apply in_seq in Hk. apply in_map_iff in Hv. destruct Hv as (x & Ex & Hx).
      cbn [length] in Lts.
      pose proof (position_in (cf_tau0 cf) (cf_tau1 cf) (w0 :: ws') (S k) x Ht Hw ltac:(cbn; lia)
         (Hloc (nth k ts []) x ltac:(right; apply nth_In; lia) Hx)) as [A _].
      pose proof (total_firstn_le (w0 :: ws') 1 (S k) ltac:(intros; apply Rlt_le, Hw; auto) ltac:(lia)) as B.
      cbn [firstn] in B. unfold total in A, B. cbn [fold_right] in A, B. unfold f in Ex. cbn [firstn] in A. rewrite Ex in A. cbn [firstn fold_right] in A. lra.
  - rewrite positions_cons. fold rest. rewrite H2, map_app. f_equal. unfold but_last. fold m.
    rewrite <- firstn_map, H1, firstn_map. f_equal. destruct m as [|m']; [reflexivity|]. replace (S m' - 1)%nat with m' by lia.
    rewrite seq_S, firstn_app, firstn_all2 by (rewrite seq_length; lia). rewrite seq_length, Nat.sub_diag. cbn [firstn]. apply app_nil_r.
Qed.
Theorem fixed_grid_single rc mp sw ph : mpo_ok mp -> mp_nseg mp = 1%nat ->
  partition 1 (phase_part 1 ph sw) ->
  let cf := mp_cf mp in
  exists l, residual_grid rc mp sw ph (Some "fixed"%string) = Ok (Some [l]) /\
    forall x, In x l -> cf_tau0 cf < x < cf_tau1 cf.
Proof.
  intros Hmp H1 Hws cf. rewrite <- H1 in Hws. destruct (fixed_grid_thm rc mp sw ph Hmp Hws) as (ts & m & E & L & Hloc & Hm & Hi & Hpos).
  fold cf in Hloc, Hpos. rewrite H1 in L. destruct ts as [|l [|? ?]]; [discriminate| |discriminate]. exists l. split; [exact E|].
  intros x Hx. pose proof (Hloc l x (or_introl eq_refl) Hx) as A. split; [tauto|]. destruct A as [A [B| ->]]; [exact B|exfalso].
  destruct Hws as (Lw & Hw & Hs). rewrite H1 in *. destruct (phase_part 1 ph sw) as [|w [|? ?]] eqn:Ew; try discriminate.
  unfold total in Hs. cbn [fold_right] in Hs. set (n := (fixed_count rc mp - 1)%nat) in *.
  assert (Hn : (1 <= n)%nat) by (unfold n, fixed_count; lia). assert (Hd : 0 < INR n) by (apply lt_0_INR; lia).
  assert (m = n). { destruct (le_lt_dec n m); [lia|]. exfalso. assert ((n <= m)%nat); [|lia]. apply Hi; [lia|]. cbn [nth]. unfold Rdiv. rewrite Rinv_r by lra. lra. }
  subst m. rewrite Nat.sub_diag in Hpos. cbn [seq] in Hpos. rewrite app_nil_r in Hpos.
  unfold positions in Hpos. cbn [length seq map concat nth] in Hpos. rewrite app_nil_r in Hpos.
  assert (Hin : In (position (cf_tau0 cf) (cf_tau1 cf) [w] 0 (cf_tau1 cf)) (map (fun i => INR i / INR n) (seq 1 (n - 1)))).
  { rewrite <- Hpos. now apply in_map. }
  apply in_map_iff in Hin. destruct Hin as (i & Ei & Hin). apply in_seq in Hin.
  unfold position, frac in Ei. cbn in Ei. pose proof (co_taus _ (mo_cfg _ Hmp)) as Ht. fold cf in Ht.
  assert (INR i / INR n < 1). { apply Rmult_lt_reg_r with (INR n); [exact Hd|]. unfold Rdiv. rewrite Rmult_assoc, Rinv_l, Rmult_1_l, Rmult_1_r by lra. apply lt_INR. lia. }
  rewrite Ei in H. unfold Rdiv in H. rewrite Rinv_r in H by lra. lra.
Qed.
(** with several segments the end node of the phase is in the grid *)
Theorem fixed_grid_end rc mp sw ph : mpo_ok mp -> (2 <= mp_nseg mp)%nat ->
  let ws := phase_part (mp_nseg mp) ph sw in partition (mp_nseg mp) ws ->
  let cf := mp_cf mp in
  exists ts, residual_grid rc mp sw ph (Some "fixed"%string) = Ok (Some ts) /\
    In (cf_tau1 cf) (last ts []) /\ In 1 (positions (cf_tau0 cf) (cf_tau1 cf) ws ts).
Proof.
  intros Hmp H2 ws Hws cf. destruct (fixed_grid_thm rc mp sw ph Hmp Hws) as (ts & m & E & L & Hloc & Hm & Hi & Hpos).
  fold cf ws in Hi, Hpos, Hloc. exists ts. split; [exact E|]. set (n := (fixed_count rc mp - 1)%nat) in *.
  destruct Hws as (Lw & Hw & Hs). fold ws in Lw, Hw, Hs.
  assert (Hn : (1 <= n)%nat) by (unfold n, fixed_count; lia). assert (Hd : 0 < INR n) by (apply lt_0_INR; lia).
  assert (Hm' : (m < n)%nat).
  { destruct (le_lt_dec n m) as [H|]; [exfalso|assumption]. apply Hi in H; [|lia]. unfold Rdiv in H. rewrite Rinv_r in H by lra.
    pose proof (total_firstn_pos ws 1 (length ws) Hw ltac:(lia)) as B. rewrite firstn_all in B. rewrite (firstn_S_total ws 0) in B by lia.
    cbn [firstn] in B. change (total []) with 0 in B. lra. }
  assert (H1 : In 1 (positions (cf_tau0 cf) (cf_tau1 cf) ws ts)).
  { rewrite Hpos. replace 1 with (INR n / INR n) by (field; lra). apply (in_map (fun i => INR i / INR n)), in_or_app. right. apply in_seq. lia. }
  split; [|exact H1]. apply positions_In in H1. destruct H1 as (k & x & Hk & Hx & Ex).
  pose proof (Hloc (nth k ts []) x ltac:(apply nth_In; exact Hk) Hx) as Hl. pose proof (co_taus _ (mo_cfg _ Hmp)) as Ht. fold cf in Ht.
  nred. pose proof (position_in (cf_tau0 cf) (cf_tau1 cf) ws k x Ht Hw ltac:(lia) Hl) as [_ B]. rewrite <- Ex in B.
  assert (Hlast : S k = length ws).
  { destruct (Nat.eq_dec (S k) (length ws)); [assumption|exfalso]. pose proof (total_firstn_pos ws (S k) (length ws) Hw ltac:(lia)) as C. rewrite firstn_all in C. lra. }
  assert (x = cf_tau1 cf).
  { pose proof (Hw (nth k ws 0) ltac:(apply nth_In; lia)) as W. unfold position in Ex.
    pose proof (firstn_S_total ws k ltac:(lia)) as C. rewrite Hlast, firstn_all, Hs in C.
    assert (F : frac (cf_tau0 cf) (cf_tau1 cf) x = 1) by nra. unfold frac in F.
    apply (f_equal (fun v => v * (cf_tau1 cf - cf_tau0 cf))) in F. unfold Rdiv in F. rewrite Rmult_assoc, Rinv_l in F by lra. lra. }
  subst x. rewrite last_at. replace (length ts - 1)%nat with k by lia. exact Hx.
Qed.
