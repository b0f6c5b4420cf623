(** Refinement over all phases (proofs). *)
From Coq Require Import String Reals List Lia Lra Bool Arith.
From Verif Require Import Num PyList Mat Hadapt Spec SpecHadapt NumR ListR MergeR AreaR.
Import ListNotations.
Open Scope list_scope.
Open Scope R_scope.

(** ** Maxima *)
Lemma largest_nonneg l v : largest l v -> 0 <= v.
Proof. intros [_ [->|(x & _ & ->)]]; [lra|apply Rabs_pos]. Qed.
Lemma fold_max (l : list R) a : (forall x, In x (a :: l) -> x <= fold_left Rmax l a) /\ In (fold_left Rmax l a) (a :: l).
Proof.
  revert a; induction l as [|b l IH]; intros a; cbn [fold_left].
  - split; [intros x [<-|[]]; lra|left; reflexivity].
  - destruct (IH (Rmax a b)) as [H1 H2]. split.
    + intros x Hx. assert (Rmax a b <= fold_left Rmax l (Rmax a b)) by (apply H1; left; auto).
      pose proof (Rmax_l a b). pose proof (Rmax_r a b).
      destruct Hx as [<-|[<-|Hx]]; [lra|lra|apply H1; right; exact Hx].
    + destruct H2 as [H2|H2]; [|right; right; exact H2].
      rewrite <- H2. unfold Rmax. destruct (Rle_dec a b); [right; left|left]; reflexivity.
Qed.
Lemma nmax_fun : @nmax Rnum = Rmax.
Proof.
  apply FunctionalExtensionality.functional_extensionality. intros x. apply FunctionalExtensionality.functional_extensionality. intros y. apply nmax_R.
Qed.
Lemma max_spec (l : list R) : l <> [] -> exists v, max_ (N := Rnum) l = Ok v /\ (forall x, In x l -> x <= v) /\ In v l.
Proof.
  destruct l as [|a l]; [congruence|]. intros _. exists (fold_left Rmax l a). unfold max_. rewrite nmax_fun. split; [reflexivity|]. apply fold_max.
Qed.
Definition seg_entries (e : option (list (list R))) : list R := match e with Some m => concat m | None => [] end.
Lemma seg_max_ok (e : option (list (list R))) : (forall m, e = Some m -> concat m <> []) -> exists v, seg_max (N := Rnum) e = Ok v /\ largest (seg_entries e) v.
Proof.
  intros H. destruct e as [m|].
  - specialize (H m eq_refl). unfold seg_max. cbn [seg_entries].
    destruct (max_spec (map (@nabs Rnum) (concat m))) as (v & E & H1 & H2).
    { destruct (concat m); [congruence|discriminate]. }
    exists v. split; [exact E|]. apply in_map_iff in H2. destruct H2 as (x & Ex & Hx). rewrite nabs_R in Ex. split.
    + intros y Hy. apply H1. apply in_map_iff. exists y. rewrite nabs_R. auto.
    + right. exists x. auto.
  - exists 0. split; [reflexivity|]. split; [intros x []|left; reflexivity].
Qed.
Lemma mapM_seg_max rs : (forall m, In (Some m) rs -> concat m <> []) ->
  exists ms : list R, mapM (seg_max (N := Rnum)) rs = Ok ms /\ length ms = length rs /\ Forall2 (fun e v => largest (seg_entries e) v) rs ms.
Proof.
  induction rs as [|e rs IH]; intros H; [exists []; repeat split; constructor|].
  destruct (seg_max_ok e) as (v & Ev & Hv); [intros m ->; apply H; left; reflexivity|].
  destruct IH as (ms & Em & Hl & HF); [intros m Hm; apply H; right; exact Hm|].
  exists (v :: ms). cbn [mapM]. rewrite Ev. cbn [bind]. rewrite Em. cbn [bind]. split; [reflexivity|]. split; [cbn; nred; lia|]. constructor; auto.
Qed.
Lemma maxima_ok rs (ms : list R) : (forall m, In (Some m) rs -> concat m <> []) -> mapM (seg_max (N := Rnum)) rs = Ok ms -> segment_maxima rs ms.
Proof.
  intros H E. destruct (mapM_seg_max rs H) as (ms' & E' & Hl & HF).
  assert (ms' = ms) by exact (f_equal (fun r => match r with Ok t => t | _ => [] end) (eq_trans (eq_sym E') E)). subst ms'.
  split; [exact Hl|]. clear - HF. induction HF as [|e v rs ms Hv HF IH]; intros k Hk; [cbn in Hk; lia|]. destruct k as [|k]; cbn [nth].
  - unfold entries. cbn [map concat]. rewrite app_nil_r. exact Hv.
  - apply IH. cbn in Hk. lia.
Qed.
Lemma phase_max rs : rs <> [] -> (forall m, In (Some m) rs -> concat m <> []) ->
  exists (ms : list R) (mr : R), mapM (seg_max (N := Rnum)) rs = Ok ms /\ length ms = length rs /\ max_ (N := Rnum) ms = Ok mr /\ largest (entries rs) mr.
Proof.
  intros Hne H. destruct (mapM_seg_max rs H) as (ms & Em & Hl & HF).
  destruct (max_spec ms) as (mr & Emr & H1 & H2).
  { intros C. subst ms. destruct rs; [congruence|discriminate]. }
  exists ms, mr. split; [exact Em|]. split; [exact Hl|]. split; [exact Emr|].
  assert (Hpos : 0 <= mr).
  { clear - HF H2. revert H2. induction HF; intros [<-|H2] || intros []; [|auto]. eapply largest_nonneg; eauto. }
  unfold entries. split.
  - intros x Hx. apply in_concat in Hx. destruct Hx as (l & Hl' & Hx). apply in_map_iff in Hl'. destruct Hl' as (e & <- & He).
    clear - HF H1 He Hx. induction HF as [|e' v rs ms Hv HF IH]; [destruct He|]. destruct He as [->|He].
    + assert (v <= mr) by (apply H1; left; auto). assert (Rabs x <= v) by (apply Hv; exact Hx). lra.
    + apply IH; auto. intros y Hy. apply H1. right. exact Hy.
  - clear Em Emr Hl H1 Hne H. induction HF as [|e v rs ms Hv HF IH]; [destruct H2|]. destruct H2 as [<-|H2].
    + destruct Hv as [_ [->|(x & Hx & ->)]]; [left; reflexivity|]. right. exists x. split; [|reflexivity].
      apply in_concat. exists (seg_entries e). split; [left; reflexivity|exact Hx].
    + destruct (IH H2) as [C|(x & Hx & Ex)]; [left; exact C|]. right. exists x. split; [|exact Ex].
      apply in_concat in Hx. destruct Hx as (l & Hl' & Hx). apply in_concat. exists l. split; [right; exact Hl'|exact Hx].
Qed.

(** ** Phases *)
Lemma concat_part {A} (ws : list (list A)) n : (forall w, In w ws -> length w = n) ->
  length (concat ws) = (n * length ws)%nat /\ forall ph, (ph < length ws)%nat -> firstn n (skipn (n * ph) (concat ws)) = nth ph ws [].
Proof.
  induction ws as [|w ws IH]; intros H; [split; [cbn; lia|intros ph Hp; cbn in Hp; lia]|].
  assert (Hw : length w = n) by (apply H; left; auto). destruct IH as [IH1 IH2]; [intros x Hx; apply H; right; auto|].
  split; [cbn; rewrite app_length; nia|]. intros [|ph] Hp; cbn [concat nth].
  - rewrite Nat.mul_0_r. cbn [skipn]. rewrite firstn_app, <- Hw, Nat.sub_diag, firstn_all. cbn. apply app_nil_r.
  - rewrite <- IH2 by (cbn in Hp; lia). f_equal. rewrite skipn_app.
    replace (n * S ph - length w)%nat with (n * ph)%nat by nia. rewrite skipn_all2 by nia. reflexivity.
Qed.
Lemma slice_part (sw : list R) n ph : slice (n * ph) (n * (ph + 1)) sw = phase_part n ph sw.
Proof. unfold slice, phase_part. f_equal. nia. Qed.

Section Loop.
Variables (method : string) (n nph : nat) (sw tol : list R) (residuals : list (list (option (list (list R))))).
Hypothesis Hn : (1 <= n)%nat.
Hypothesis Hsw : widths_ok n nph sw.
Hypothesis Hres : residuals_ok n nph residuals.
Hypothesis Hpts : points_ok residuals.
Hypothesis Htol : (nph <= length tol)%nat.

Let below (ph : nat) : Prop := within_tol (nth ph tol 0) (nth ph residuals []).
Lemma non_empty rs m : In rs residuals -> In (Some m) rs -> concat m <> [].
Proof.
  intros Hr Hm. destruct Hres as [_ H]. destruct (H rs Hr) as [_ H1]. pose proof (Hpts rs Hr m Hm) as H2. specialize (H1 m Hm).
  destruct m as [|row m]; [congruence|]. cbn. specialize (H1 row ltac:(left; auto)). destruct row; [congruence|discriminate].
Qed.
(** what is left of a phase after the common part *)
Lemma phase_common ph acc e : (ph < nph)%nat -> exists (ms : list R) (mr : R),
  mapM (seg_max (N := Rnum)) (nth ph residuals []) = Ok ms /\ segment_maxima (nth ph residuals []) ms /\ length ms = n /\ largest (entries (nth ph residuals [])) mr /\
  (mr < nth ph tol 0 <-> below ph) /\
  phase_by_residual (N := Rnum) method n sw tol residuals (acc, e) ph =
   if Rltb mr (nth ph tol 0) then Ok (acc ++ [phase_part n ph sw], Rmax e mr)
   else
    w <- refine (N := Rnum) method (nth ph residuals []) (phase_part n ph sw) (nth ph tol 0) n ;;
    if String.eqb method "equal_area" then
      _ <- (if Nat.eqb (length w) (length (phase_part n ph sw)) then Ok tt else Raise ValueError) ;;
      Ok (acc ++ [map2 (fun a b => 4 / 10 * a + 6 / 10 * b) w (phase_part n ph sw)], Rmax e mr)
    else Ok (acc ++ [w], Rmax e mr).
Proof.
  intros Hph. destruct Hres as [Hl Hr]. set (rs := nth ph residuals []).
  assert (Hin : In rs residuals) by (apply nth_In; lia). destruct (Hr rs Hin) as [Hrl _].
  assert (Hne : rs <> []) by (intros C; rewrite C in Hrl; cbn in Hrl; lia).
  destruct (phase_max rs Hne (fun m Hm => non_empty rs m Hin Hm)) as (ms & mr & E1 & El & E2 & Hmr).
  exists ms, mr. split; [exact E1|]. split; [exact (maxima_ok rs ms (fun m Hm => non_empty rs m Hin Hm) E1)|]. split; [nred; lia|]. split; [exact Hmr|]. split.
  { unfold below, within_tol. fold rs. split.
    - intros H. pose proof (largest_nonneg _ _ Hmr). split; [|lra]. intros x Hx. destruct Hmr as [Hu _]. specialize (Hu x Hx). lra.
    - intros [H1 H2]. destruct Hmr as [_ [->|(x & Hx & ->)]]; [exact H2|apply H1; exact Hx]. }
  unfold phase_by_residual. pose proof (at_ok residuals ph [] ltac:(lia)) as A. fold rs in A.
  unfold rows in *. nred. rewrite A. cbn [bind]. unfold rows in *. nred. rewrite E1. cbn [bind]. nred. rewrite E2. cbn [bind]. cbv zeta.
  assert (Hmax : (if Rltb e mr then mr else e) = Rmax e mr) by exact (nmax_R e mr). nred. rewrite Hmax.
  pose proof (at_ok tol ph 0 ltac:(lia)) as At. nred. rewrite At. cbn [bind]. rewrite slice_part.
  nred. destruct (Rltb mr (nth ph tol 0)); [reflexivity|].
  unfold rs. destruct (refine (N := Rnum) method (nth ph residuals []) (phase_part n ph sw) (nth ph tol 0) n) as [w|x]; [|reflexivity].
  cbn [bind]. destruct (String.eqb method "equal_area"); [|reflexivity].
  rewrite !nlit_R. reflexivity.
Qed.

(** the loop, given what happens in each phase *)
Lemma fold_phases (F : list (list Rnum) * Rnum -> nat -> res (list (list Rnum) * Rnum)) (P : nat -> list R -> Prop) :
  (forall ph acc e, (ph < nph)%nat -> exists w mr, F (acc, e) ph = Ok (acc ++ [w], Rmax e mr) /\
      length w = n /\ largest (entries (nth ph residuals [])) mr /\ P ph w) ->
  exists ws e, foldM F (seq 0 nph) ([], 0) = Ok (ws, e) /\ length (concat ws) = (n * nph)%nat /\
    (forall ph, (ph < nph)%nat -> P ph (phase_part n ph (concat ws))) /\ largest (concat (map entries residuals)) e.
Proof.
  intros H.
  assert (G : forall k a acc e, (a + k <= nph)%nat -> exists ws f,
     foldM F (seq a k) (acc, e) = Ok (acc ++ ws, f) /\ length ws = k /\
     (forall i, (i < k)%nat -> length (nth i ws []) = n /\ P (a + i)%nat (nth i ws [])) /\
     e <= f /\ (forall i x, (i < k)%nat -> In x (entries (nth (a + i) residuals [])) -> Rabs x <= f) /\
     (f = e \/ f = 0 \/ exists i x, (i < k)%nat /\ In x (entries (nth (a + i) residuals [])) /\ f = Rabs x)).
  { induction k as [|k IH]; intros a acc e Hk.
    - exists [], e. cbn. rewrite app_nil_r. split; [reflexivity|]. split; [reflexivity|]. split; [intros i Hi; lia|].
      split; [lra|]. split; [intros i x Hi; lia|auto].
    - cbn [seq foldM]. destruct (H a acc e ltac:(lia)) as (w & mr & E & Hw & Hmr & HP). nred. rewrite E. cbn [bind].
      destruct (IH (S a) (acc ++ [w]) (Rmax e mr) ltac:(lia)) as (ws & f & E' & Hl & Hi & Hf & Hx & Hor).
      exists (w :: ws), f. nred. rewrite E'. rewrite <- app_assoc. cbn [app].
      pose proof (Rmax_l e mr). pose proof (Rmax_r e mr).
      split; [reflexivity|]. split; [cbn; lia|]. split.
      { intros [|i] Hi'; cbn [nth]; [rewrite Nat.add_0_r; auto|]. replace (a + S i)%nat with (S a + i)%nat by lia. apply Hi. lia. }
      split; [lra|]. split.
      { intros [|i] x Hi' Hin; [rewrite Nat.add_0_r in Hin; destruct Hmr as [Hu _]; specialize (Hu x Hin); lra|].
        apply (Hx i x); [lia|]. replace (S a + i)%nat with (a + S i)%nat by lia. exact Hin. }
      destruct Hor as [->|[->|(i & x & Hi' & Hin & ->)]].
      + unfold Rmax. destruct (Rle_dec e mr); [|auto]. destruct Hmr as [_ [->|(x & Hin & ->)]]; [auto|].
        right. right. exists 0%nat, x. rewrite Nat.add_0_r. split; [lia|auto].
      + auto.
      + right. right. exists (S i), x. split; [lia|]. split; [|reflexivity]. replace (a + S i)%nat with (S a + i)%nat by lia. exact Hin. }
  destruct (G nph 0%nat [] 0 ltac:(lia)) as (ws & f & E & Hl & Hi & Hf & Hx & Hor).
  exists ws, f. split; [exact E|].
  destruct (concat_part ws n) as [C1 C2].
  { intros w Hw. destruct (In_nth _ _ [] Hw) as (i & Hi' & <-). apply Hi. lia. }
  split; [rewrite C1, Hl; reflexivity|]. split.
  - intros ph Hph. unfold phase_part. rewrite C2 by lia. apply (Hi ph Hph).
  - destruct Hres as [Hrl _]. split.
    + intros x Hin. apply in_concat in Hin. destruct Hin as (l & Hin & Hxl). apply in_map_iff in Hin. destruct Hin as (rs & <- & Hrs).
      destruct (In_nth _ _ [] Hrs) as (i & Hi' & <-). apply (Hx i x); [lia|exact Hxl].
    + destruct Hor as [->|[->|(i & x & Hi' & Hin & ->)]]; auto. right. exists x. split; [|reflexivity].
      apply in_concat. exists (entries (nth i residuals [])). split; [|exact Hin]. apply in_map. apply nth_In. lia.
Qed.

Lemma loop_ok (P : nat -> list R -> Prop) :
  (forall ph acc e, (ph < nph)%nat -> exists w mr, phase_by_residual (N := Rnum) method n sw tol residuals (acc, e) ph = Ok (acc ++ [w], Rmax e mr) /\
      length w = n /\ largest (entries (nth ph residuals [])) mr /\ P ph w) ->
  exists ws e, widths_by_residual (N := Rnum) method n nph sw tol residuals = Ok (ws, e) /\ length ws = (n * nph)%nat /\
    (forall ph, (ph < nph)%nat -> P ph (phase_part n ph ws)) /\ largest (concat (map entries residuals)) e.
Proof.
  intros H. destruct (fold_phases _ P H) as (ws & e & E & HH). exists (concat ws), e. split; [|exact HH].
  unfold widths_by_residual. nred. rewrite E. reflexivity.
Qed.

(** any method but equal_area *)
Theorem by_residual_ok : method <> "equal_area"%string ->
  exists ws e, widths_by_residual (N := Rnum) method n nph sw tol residuals = Ok (ws, e) /\ widths_ok n nph ws /\
    (forall ph, (ph < nph)%nat -> below ph -> phase_part n ph ws = phase_part n ph sw) /\
    (forall ph, (ph < nph)%nat -> ~ below ph ->
       (method = "merge_split"%string -> exists mx, segment_maxima (nth ph residuals []) mx /\
          merge_split (N := Rnum) mx (phase_part n ph sw) (nth ph tol 0) = Ok (phase_part n ph ws)) /\
       (method <> "merge_split"%string -> phase_part n ph ws = phase_part n ph sw)) /\
    largest (concat (map entries residuals)) e.
Proof.
  intros Hm. destruct Hsw as [Hswl Hp].
  destruct (loop_ok (fun ph w => (partition n w /\ (below ph -> w = phase_part n ph sw)) /\ (~ below ph ->
       (method = "merge_split"%string -> exists mx, segment_maxima (nth ph residuals []) mx /\
          merge_split (N := Rnum) mx (phase_part n ph sw) (nth ph tol 0) = Ok w) /\
       (method <> "merge_split"%string -> w = phase_part n ph sw)))) as (ws & e & E & Hl & HP & He).
  - intros ph acc e Hph. destruct (phase_common ph acc e Hph) as (ms & mr & Ems & Hmx & Hmsl & Hmr & Hb & E). rewrite E.
    pose proof (Hp ph Hph) as Hpart.
    destruct (Rltb mr (nth ph tol 0)) eqn:El.
    + apply Rltb_true, Hb in El. exists (phase_part n ph sw), mr. split; [reflexivity|]. split; [apply Hpart|]. split; [exact Hmr|].
      split; [split; [exact Hpart|auto]|intros C; contradiction].
    + apply Rltb_false in El. assert (Hnb : ~ below ph) by (intros C; apply Hb in C; lra).
      assert (Em : String.eqb method "equal_area" = false) by (apply String.eqb_neq; exact Hm). rewrite Em.
      unfold refine. rewrite Em. destruct (String.eqb_spec method "merge_split") as [Es|Es].
      * nred. rewrite Ems. cbn [bind].
        destruct (merge_split_ok (nth ph tol 0) ms (phase_part n ph sw)) as (w & Ew & Hwl & Hwt & Hwp & _).
        { destruct Hpart as [L _]. lia. }
        nred. rewrite Ew. cbn [bind]. exists w, mr. destruct Hpart as (L & Q & T).
        split; [reflexivity|]. split; [lia|]. split; [exact Hmr|]. split; [split; [|intros C; contradiction]|].
        { split; [lia|]. split; [auto|lra]. }
        intros _. split; [intros _; exists ms; split; [exact Hmx|exact Ew]|intros C; contradiction].
      * cbn [bind]. exists (phase_part n ph sw), mr. split; [reflexivity|]. split; [apply Hpart|]. split; [exact Hmr|]. split; [split; [exact Hpart|auto]|].
        intros _. split; [intros C; contradiction|auto].
  - exists ws, e. split; [exact E|]. split; [split; [exact Hl|intros ph Hph; apply HP; exact Hph]|]. split; [intros ph Hph; apply HP; exact Hph|].
    split; [intros ph Hph; apply HP; exact Hph|exact He].
Qed.

(** ** equal_area *)
Lemma point_norms_R rs : concat (map (seg_norms (N := Rnum)) rs) = point_norms rs.
Proof.
  unfold point_norms. f_equal. apply map_ext. intros [m|]; [|reflexivity]. unfold seg_norms. apply map_ext. intros row.
  unfold norm2. rewrite sum_R. reflexivity.
Qed.
Lemma point_norms_pos rs x : In x (point_norms rs) -> 0 <= x.
Proof.
  unfold point_norms. intros H. apply in_concat in H. destruct H as (l & Hl & Hx). apply in_map_iff in Hl. destruct Hl as ([m|] & <- & He).
  - apply in_map_iff in Hx. destruct Hx as (row & <- & _). apply sqrt_pos.
  - destruct Hx as [<-|[]]. lra.
Qed.
Lemma sq_sum_nonneg l : 0 <= total (map (fun x => x * x) l).
Proof. induction l as [|a l IH]; cbn; [lra|]. unfold total in IH. pose proof (Rle_0_sqr a) as H. unfold Rsqr in H. lra. Qed.
Lemma sq_sum_pos l x : In x l -> x <> 0 -> 0 < total (map (fun x => x * x) l).
Proof.
  induction l as [|a l IH]; intros Hin Hx; [destruct Hin|]. cbn. pose proof (sq_sum_nonneg l) as H. unfold total in *.
  destruct Hin as [->|Hin].
  - assert (0 < x * x) by (pose proof (Rlt_0_sqr x Hx) as Q; exact Q). lra.
  - specialize (IH Hin Hx). pose proof (Rle_0_sqr a) as Q. unfold Rsqr in Q. lra.
Qed.
Lemma point_norms_ex rs x : In x (entries rs) -> x <> 0 -> exists y, In y (point_norms rs) /\ 0 < y.
Proof.
  unfold entries, point_norms. intros H Hx. apply in_concat in H. destruct H as (l & Hl & Hin). apply in_map_iff in Hl. destruct Hl as (e & <- & He).
  destruct e as [m|]; [|destruct Hin]. apply in_concat in Hin. destruct Hin as (row & Hrow & Hin).
  exists (sqrt (total (map (fun x => x * x) row))). split.
  - apply in_concat. exists (map (fun row => sqrt (total (map (fun x => x * x) row))) m). split; [|apply in_map_iff; exists row; auto]. apply in_map_iff. exists (Some m). auto.
  - apply sqrt_lt_R0. eapply sq_sum_pos; eauto.
Qed.
Lemma point_norms_len rs : (forall m, In (Some m) rs -> m <> []) -> (length rs <= length (point_norms rs))%nat.
Proof.
  unfold point_norms. induction rs as [|e rs IH]; intros H; [cbn; lia|]. cbn [map concat length]. rewrite app_length.
  specialize (IH (fun m Hm => H m (or_intror Hm))).
  assert (1 <= length (match e with Some m => map (fun row => sqrt (total (map (fun x : R => (x * x)%R) row))) m | None => [0%R] end))%nat; [|lia].
  destruct e as [m|]; [|cbn; lia]. rewrite map_length. pose proof (H m (or_introl eq_refl)). destruct m; [congruence|cbn; lia].
Qed.
Lemma area_mono' r i j : (forall x, In x r -> 0 <= x) -> (i <= j)%nat -> area r i <= area r j.
Proof.
  intros Hp H. induction H as [|j H IH]; [lra|]. cbn [area].
  assert (forall k, 0 <= nth k r 0) by (intros k; destruct (nth_in_or_default k r 0) as [Q| ->]; [apply Hp; exact Q|lra]).
  pose proof (H0 j). pose proof (H0 (S j)). lra.
Qed.
Lemma area_pos r y : (2 <= length r)%nat -> (forall x, In x r -> 0 <= x) -> In y r -> 0 < y -> 0 < area r (length r - 1).
Proof.
  intros Hl Hp Hin Hy. destruct (In_nth _ _ 0 Hin) as (k & Hk & E).
  assert (Hz : forall k, 0 <= nth k r 0) by (intros j; destruct (nth_in_or_default j r 0) as [Q| ->]; [apply Hp; exact Q|lra]).
  pose proof (area_mono' r 0 k Hp ltac:(lia)) as M. cbn in M.
  destruct (Nat.eq_dec k (length r - 1)) as [D|D].
  - destruct k as [|k]; [lia|]. rewrite <- D. cbn [area]. pose proof (area_mono' r 0 k Hp ltac:(lia)) as M'. cbn [area] in M'.
    pose proof (Hz k). rewrite E. lra.
  - pose proof (area_mono' r (S k) (length r - 1) Hp ltac:(lia)) as M'. cbn [area] in M'. pose proof (Hz (S k)). rewrite E in M'. lra.
Qed.
Lemma blend_total (w old : list R) : length w = length old ->
  total (map2 (fun a b => 4 / 10 * a + 6 / 10 * b) w old) = 4 / 10 * total w + 6 / 10 * total old.
Proof.
  revert old; induction w as [|a w IH]; intros [|b old] H; try discriminate; cbn; [lra|]. specialize (IH old ltac:(cbn in H; lia)). unfold total in IH. rewrite IH. lra.
Qed.
Lemma blend_len (w old : list R) : length w = length old -> length (map2 (fun a b => 4 / 10 * a + 6 / 10 * b) w old) = length old.
Proof. revert old; induction w as [|a w IH]; intros [|b old] H; try discriminate; cbn; [reflexivity|]. rewrite IH; [reflexivity|cbn in H; lia]. Qed.
Lemma blend_nth (w old : list R) k : length w = length old -> (k < length old)%nat ->
  nth k (map2 (fun a b => 4 / 10 * a + 6 / 10 * b) w old) 0 = 4 / 10 * nth k w 0 + 6 / 10 * nth k old 0.
Proof. revert old k; induction w as [|a w IH]; intros [|b old] [|k] H Hk; try discriminate; cbn in *; try lia; [lra|]. apply IH; lia. Qed.
Lemma blend_pos (w old : list R) : (forall x, In x w -> 0 < x) -> (forall x, In x old -> 0 < x) ->
  forall x, In x (map2 (fun a b => 4 / 10 * a + 6 / 10 * b) w old) -> 0 < x.
Proof.
  revert old; induction w as [|a w IH]; intros [|b old] Hw Ho x Hx; try (cbn in Hx; destruct Hx; fail). cbn in Hx. destruct Hx as [<-|Hx].
  - pose proof (Hw a (or_introl eq_refl)). pose proof (Ho b (or_introl eq_refl)). lra.
  - apply (IH old); auto; intros y Hy; [apply Hw|apply Ho]; right; exact Hy.
Qed.

Theorem by_area_ok : method = "equal_area"%string -> (2 <= n)%nat -> (forall ph, (ph < nph)%nat -> 0 < nth ph tol 0) ->
  exists ws e, widths_by_residual (N := Rnum) method n nph sw tol residuals = Ok (ws, e) /\ length ws = (n * nph)%nat /\
    (forall ph, (ph < nph)%nat ->
       (forall w, In w (phase_part n ph ws) -> 0 < w) /\ 6 / 10 < total (phase_part n ph ws) <= 1 /\
       (below ph -> phase_part n ph ws = phase_part n ph sw) /\
       (~ below ph -> let r := point_norms (nth ph residuals []) in
          (exists new, equal_area (N := Rnum) r n = Ok new /\
             forall k, (k < n)%nat -> nth k (phase_part n ph ws) 0 = 4 / 10 * nth k new 0 + 6 / 10 * nth k (phase_part n ph sw) 0) /\
          (total (phase_part n ph ws) = 1 <-> 0 < nth (length r - 2) r 0 + nth (length r - 1) r 0))) /\
    largest (concat (map entries residuals)) e.
Proof.
  intros Hm Hn2 Htp. destruct Hsw as [Hswl Hp].
  apply (loop_ok (fun ph part => (forall w, In w part -> 0 < w) /\ 6 / 10 < total part <= 1 /\
       (below ph -> part = phase_part n ph sw) /\
       (~ below ph -> let r := point_norms (nth ph residuals []) in
          (exists new, equal_area (N := Rnum) r n = Ok new /\ forall k, (k < n)%nat -> nth k part 0 = 4 / 10 * nth k new 0 + 6 / 10 * nth k (phase_part n ph sw) 0) /\
          (total part = 1 <-> 0 < nth (length r - 2) r 0 + nth (length r - 1) r 0)))).
  intros ph acc e Hph. destruct (phase_common ph acc e Hph) as (ms & mr & Ems & Hmx & Hmsl & Hmr & Hb & E). rewrite E.
  pose proof (Hp ph Hph) as (HL & HQ & HT).
  destruct (Rltb mr (nth ph tol 0)) eqn:El.
  - apply Rltb_true in El. exists (phase_part n ph sw), mr. split; [reflexivity|]. split; [exact HL|]. split; [exact Hmr|].
    split; [exact HQ|]. split; [lra|]. split; [auto|]. intros C. exfalso. apply C, Hb. exact El.
  - apply Rltb_false in El. assert (Hnb : ~ below ph) by (intros C; apply Hb in C; lra).
    subst method. unfold refine. cbn [String.eqb Ascii.eqb Bool.eqb]. 
    set (r := point_norms (nth ph residuals [])).
    destruct Hres as [Hrl Hr]. assert (Hin : In (nth ph residuals []) residuals) by (apply nth_In; lia).
    assert (Hlr : (2 <= length r)%nat).
    { destruct (Hr _ Hin) as [L _]. pose proof (point_norms_len _ (Hpts _ Hin)). unfold r. lia. }
    assert (Har : 0 < area r (length r - 1)).
    { pose proof (Htp ph Hph). destruct Hmr as [_ [C|(x & Hx & Ex)]]; [lra|].
      destruct (point_norms_ex _ x Hx) as (y & Hy & Hy0); [intros C; subst x; rewrite Rabs_R0 in Ex; lra|].
      apply (area_pos r y); auto. apply point_norms_pos. }
    destruct (equal_area_ok r n Hlr ltac:(lia) (point_norms_pos _) Har) as (w & Ew & Hwl & Hwp & _ & Hw1 & Hiff).
    pose proof (point_norms_R (nth ph residuals [])) as En. fold r in En. nred. rewrite En. rewrite Ew. cbn [bind].
    assert (EL : Nat.eqb (length w) (length (phase_part n ph sw)) = true) by (apply Nat.eqb_eq; lia). rewrite EL. cbn [bind].
    eexists. exists mr. split; [reflexivity|]. split; [rewrite blend_len; lia|]. split; [exact Hmr|].
    split; [apply blend_pos; auto|]. rewrite blend_total by lia. rewrite HT.
    assert (0 < total w) by (apply total_pos; [intros C; subst w; cbn in Hwl; lia|exact Hwp]).
    split; [lra|]. split; [intros C; contradiction|]. intros _. fold r. cbv zeta. split; [|rewrite <- Hiff; split; lra].
    exists w. split; [reflexivity|]. intros k Hk. apply blend_nth; lia.
Qed.
End Loop.
