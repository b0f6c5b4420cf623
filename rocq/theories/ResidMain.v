(** Residuals of all phases, relative residuals (proofs). *)
From Coq Require Import String.
From Coq Require Import Reals List Lia Lra Bool Arith Classical.
From Coquelicot Require Import Coquelicot.
From Verif Require Import Num PyList Mat Poly Roots Colloc Ocp Transcribe Hadapt Resid.
From Verif Require Import Spec SpecOcp SpecHadapt SpecResid NumR ListR CompR BlockR NlpR NlpThm NlpMain AreaR GridR GridThm ResidR ResidThm.
Import ListNotations.
Open Scope R_scope.

(** ** all phases *)
Lemma step_given rc mp tr sw z nodes (rel : bool) g ts rs ph taus segs out : nth_error nodes ph = Some taus ->
  dyn_residuals_phase_by rc mp tr sw z ph (Some taus) = Ok segs ->
  (if rel then mapM (fun s => relative (col_max (o_nx (mp_ocp mp)) (map (@sr_f Rnum) segs)) (sr_r s)) segs
   else Ok (map (@sr_r Rnum) segs)) = Ok out ->
  residuals_step_by rc mp tr sw z (Some nodes) rel (g, ts, rs) ph = Ok (g, ts ++ [map (@sr_t Rnum) segs], rs ++ [out]).
Proof.
  intros E1 E2 E3. unfold residuals_step_by, at_. nred. rewrite E1. cbn [bind]. rewrite E2. cbn [bind]. rewrite E3. reflexivity.
Qed.
Lemma fold_given rc mp tr sw z nodes (rel : bool) (S : nat -> list (segres (N := Rnum))) (O : nat -> list (rows (N := Rnum))) l : forall g ts rs,
  (forall ph, In ph l -> exists taus, nth_error nodes ph = Some taus /\ dyn_residuals_phase_by rc mp tr sw z ph (Some taus) = Ok (S ph) /\
     (if rel then mapM (fun s => relative (col_max (o_nx (mp_ocp mp)) (map (@sr_f Rnum) (S ph))) (sr_r s)) (S ph)
      else Ok (map (@sr_r Rnum) (S ph))) = Ok (O ph)) ->
  foldM (residuals_step_by rc mp tr sw z (Some nodes) rel) l (g, ts, rs)
  = Ok (g, ts ++ map (fun ph => map (@sr_t Rnum) (S ph)) l, rs ++ map O l).
Proof.
  induction l as [|ph l IH]; intros g ts rs H; [cbn; now rewrite !app_nil_r|].
  destruct (H ph (or_introl eq_refl)) as (taus & E1 & E2 & E3). cbn [foldM].
  rewrite (step_given rc mp tr sw z nodes rel g ts rs ph taus (S ph) (O ph) E1 E2 E3). cbn [bind].
  rewrite IH by (intros; apply H; cbn; auto). cbn [map]. now rewrite <- !app_assoc.
Qed.
Theorem residuals_given rc mp tr sw z nodes gt (rel : bool) S O :
  (forall ph, (ph < o_nph (mp_ocp mp))%nat -> exists taus, nth_error nodes ph = Some taus /\
     dyn_residuals_phase_by rc mp tr sw z ph (Some taus) = Ok (S ph) /\
     (if rel then mapM (fun s => relative (col_max (o_nx (mp_ocp mp)) (map (@sr_f Rnum) (S ph))) (sr_r s)) (S ph)
      else Ok (map (@sr_r Rnum) (S ph))) = Ok (O ph)) ->
  dynamics_residuals_by rc mp tr sw z (Some nodes) gt rel
  = Ok (map (fun ph => map (@sr_t Rnum) (S ph)) (seq 0 (o_nph (mp_ocp mp))), map O (seq 0 (o_nph (mp_ocp mp)))).
Proof.
  intros H. unfold dynamics_residuals_by. rewrite (fold_given rc mp tr sw z nodes rel S O); [reflexivity|].
  intros ph Hph. apply in_seq in Hph. apply H. lia.
Qed.

(** without nodes all phases use one grid type: the given one, or that of the first phase *)
Lemma fold_auto rc mp sw z rel gt g (G : nat -> list (list R)) nodes l : forall g0 ts rs,
  (match g0 with Some x => x = g | None => exists ph l', l = ph :: l' /\ nth_error (r_grid rc) ph = Some g end) ->
  (forall ph, In ph l -> nth_error nodes ph = Some (G ph) /\ residual_grid rc mp sw ph (Some g) = Ok (Some (G ph))) ->
  '(_, a, b) <- foldM (residuals_step rc mp sw z None rel) l (g0, ts, rs) ;; Ok (a, b)
  = ('(_, a, b) <- foldM (residuals_step rc mp sw z (Some nodes) rel) l (gt, ts, rs) ;; Ok (a, b)).
Proof.
  induction l as [|ph l IH]; intros g0 ts rs H0 H; [reflexivity|]. cbn [foldM].
  destruct (H ph (or_introl eq_refl)) as [E1 E2].
  assert (E0 : match g0 with Some g => Ok g | None => at_ (r_grid rc) ph end = Ok g).
  { destruct g0 as [x|]; [now subst|]. destruct H0 as (ph' & l' & [= <- <-] & E). unfold at_. now rewrite E. }
  unfold residuals_step_by at 1 3. nred. rewrite E0. cbn [bind]. rewrite E2. cbn [bind]. unfold at_ at 1. rewrite E1. cbn [bind].
  destruct (dyn_residuals_phase rc mp sw z ph (Some (G ph))) as [segs|]; [|reflexivity]. cbn [bind].
  match goal with |- bind (bind (bind ?m _) _) _ = _ => destruct m as [out|] end; [|reflexivity]. cbn [bind].
  apply IH; [reflexivity|]. intros; apply H; cbn; auto.
Qed.
Theorem residuals_one_grid rc mp sw z gt rel g (G : nat -> list (list R)) :
  match gt with Some x => x = g | None => nth_error (r_grid rc) 0 = Some g end ->
  (forall ph, (ph < o_nph (mp_ocp mp))%nat -> residual_grid rc mp sw ph (Some g) = Ok (Some (G ph))) ->
  dynamics_residuals rc mp sw z None gt rel = dynamics_residuals rc mp sw z (Some (map G (seq 0 (o_nph (mp_ocp mp))))) gt rel.
Proof.
  intros Hg H. unfold dynamics_residuals_by. destruct (o_nph (mp_ocp mp)) as [|n] eqn:En; [reflexivity|].
  apply (fold_auto rc mp sw z rel gt g G).
  - destruct gt as [x|]; [exact Hg|]. exists 0%nat, (seq 1 n). split; [reflexivity|exact Hg].
  - intros ph Hph. apply in_seq in Hph. split; [|apply H; lia]. rewrite nth_error_map, (nth_error_nth' _ 0%nat) by (rewrite seq_length; lia).
    rewrite seq_nth by lia. reflexivity.
Qed.

(** ** relative residuals *)
Lemma fold_max_R l : forall a, let v := fold_left (@nmax Rnum) l a in a <= v /\ (forall x, In x l -> x <= v) /\ (v = a \/ In v l).
Proof.
  induction l as [|x l IH]; intros a; cbn [fold_left]; [split; [apply Rle_refl|split; [intros ? []|auto]]|].
  specialize (IH (@nmax Rnum a x)). cbv zeta in *. rewrite nmax_R in *. destruct IH as (A & B & C).
  pose proof (Rmax_l a x). pose proof (Rmax_r a x). split; [nred; lra|]. split.
  - intros y [<-|Hy]; [nred; lra|auto].
  - destruct C as [C|C]; [|right; right; exact C]. rewrite C. destruct (Rle_dec a x).
    + right. left. symmetry. apply Rmax_right. assumption.
    + left. apply Rmax_left. lra.
Qed.
Lemma nabs_Rabs (x : R) : @nabs Rnum x = Rabs x.
Proof. apply nabs_R. Qed.
Lemma col_max_spec nx rss : length (col_max (N := Rnum) nx rss) = nx /\
  forall j, (j < nx)%nat -> column_max rss j (nth j (col_max (N := Rnum) nx rss) 0).
Proof.
  unfold col_max. induction rss as [|r rss IH] using rev_ind.
  - cbn [fold_left]. rewrite repeat_length. split; [reflexivity|]. intros j Hj. nred. rewrite nth_repeat.
    split; [lra|]. split; [intros ? ? []|auto].
  - rewrite fold_left_app. cbn [fold_left]. set (acc := fold_left _ rss _) in *. destruct IH as [L IH].
    destruct r as [m|].
    + split; [rewrite map_length; unfold enumerate; rewrite combine_length, seq_length, Nat.min_id; exact L|].
      intros j Hj. specialize (IH j Hj). destruct IH as (P & U & A).
      set (s := fold_left (@nmax Rnum) (map (fun row => nabs (nth j row 0)) m) 0).
      assert (E : nth j (map (fun '(j, v) => let s := fold_left (@nmax Rnum) (map (fun row => nabs (nth j row n0)) m) n0 in if nltb s v then v else s) (enumerate acc)) 0
        = Rmax s (nth j acc 0)).
      { unfold enumerate. erewrite (nth_map_in _ _ _ _ (0%nat, 0)); [|rewrite combine_length, seq_length, Nat.min_id; nred; lia].
        rewrite combine_nth by apply seq_length. rewrite seq_nth by (nred; lia). cbn [Nat.add]. cbv zeta. nred. fold s.
        rewrite <- nmax_R. unfold nmax. nred. reflexivity. }
      nred. rewrite E. destruct (fold_max_R (map (fun row => @nabs Rnum (nth j row 0)) m) 0) as (Q0 & Q1 & Q2). fold s in Q0, Q1, Q2.
      pose proof (Rmax_l s (nth j acc 0)) as M1. pose proof (Rmax_r s (nth j acc 0)) as M2.
      split; [nred; lra|]. split.
      * intros m' row Hm Hr. apply in_app_or in Hm. destruct Hm as [Hm|[[= <-]|[]]]; [specialize (U m' row Hm Hr); nred; lra|].
        rewrite <- nabs_Rabs. apply Rle_trans with s; [|exact M1]. apply Q1. apply (in_map (fun row => @nabs Rnum (nth j row 0))). exact Hr.
      * destruct (Rle_dec s (nth j acc 0)) as [Hle|Hle].
        -- rewrite Rmax_right by exact Hle. destruct A as [A|(m' & row & Hm & Hr & A)]; [auto|]. right. exists m', row. split; [apply in_or_app; auto|auto].
        -- rewrite Rmax_left by lra. destruct Q2 as [Q2|Q2]; [auto|]. apply in_map_iff in Q2. destruct Q2 as (row & Eq & Hr).
           right. exists m, row. split; [apply in_or_app; cbn; auto|]. split; [exact Hr|]. etransitivity; [symmetry; exact Eq|apply nabs_Rabs].
    + split; [exact L|]. intros j Hj. specialize (IH j Hj). destruct IH as (P & U & A). split; [exact P|]. split.
      * intros m row Hm. apply in_app_or in Hm. destruct Hm as [Hm|[[=]|[]]]. apply U. exact Hm.
      * destruct A as [A|(m & row & Hm & Hr & A)]; [auto|]. right. exists m, row. split; [apply in_or_app; auto|auto].
Qed.

Lemma nth_map2_div (a b : list R) j : length a = length b -> (j < length b)%nat -> nth j (map2 (@ndiv Rnum) a b) 0 = nth j a 0 / nth j b 0.
Proof.
  revert b j; induction a as [|x a IH]; intros [|y b] j L Hj; cbn in L, Hj; try lia. destruct j as [|j]; [reflexivity|].
  cbn [map2 nth]. apply IH; lia.
Qed.
Lemma map2_div_len (a b : list R) : length a = length b -> length (map2 (@ndiv Rnum) a b) = length b.
Proof. revert b; induction a as [|x a IH]; intros [|y b] L; cbn in L |- *; try lia. rewrite IH; lia. Qed.
(** every entry is at most the largest dynamics of its column, which is positive *)
Definition relative_possible (mx : list R) (m : list (list R)) : Prop :=
  (forall v, In v mx -> 0 < v) /\ forall row, In row m -> forall j, (j < length mx)%nat -> Rabs (nth j row 0) <= nth j mx 0.
Lemma relative_spec mx m : (forall row, In row m -> length row = length mx) ->
  (relative_possible mx m -> relative (N := Rnum) mx (Some m) = Ok (Some (map (fun row => map2 (@ndiv Rnum) row mx) m))) /\
  (~ relative_possible mx m -> relative (N := Rnum) mx (Some m) = Raise AssertionError).
Proof.
  intros Hl. unfold relative. set (q := map (fun row => vquot row mx) m).
  assert (H : forallb (fun v => nltb n0 v) mx && forallb (fun v => nleb (nabs v) n1) (concat q) = true <-> relative_possible mx m).
  { rewrite andb_true_iff, !forallb_forall. split; intros [A B].
    - assert (P : forall v, In v mx -> 0 < v) by (intros v Hv; apply Rltb_true, (A v Hv)). split; [exact P|].
      intros row Hr j Hj. specialize (Hl row Hr).
      assert (Hin : In (nth j row 0 / nth j mx 0) (concat q)).
      { apply in_concat. exists (vquot row mx). split; [unfold q; now apply (in_map (fun row => vquot row mx))|].
        rewrite <- (nth_map2_div row mx j) by auto. apply (nth_In (map2 (@ndiv Rnum) row mx) 0). pose proof (map2_div_len row mx Hl) as E. nred. rewrite E. exact Hj. }
      specialize (B _ Hin). apply Rleb_true in B. rewrite nabs_Rabs in B. nred.
      specialize (P (nth j mx 0) ltac:(apply nth_In; exact Hj)).
      unfold Rdiv in B. rewrite Rabs_mult, (Rabs_pos_eq (/ _)) in B by (apply Rlt_le, Rinv_0_lt_compat, P).
      apply Rmult_le_reg_r with (/ nth j mx 0); [apply Rinv_0_lt_compat, P|]. rewrite Rinv_r by lra. exact B.
    - split; [intros v Hv; apply Rltb_true, A, Hv|]. intros v Hv. apply in_concat in Hv. destruct Hv as (r & Hr & Hv).
      unfold q in Hr. apply in_map_iff in Hr. destruct Hr as (row & <- & Hr). unfold vquot in Hv.
      destruct (In_nth _ _ 0 Hv) as (j & Hj & <-). specialize (Hl row Hr). rewrite map2_div_len in Hj by auto.
      rewrite nth_map2_div by auto. apply Rleb_true. rewrite nabs_Rabs. nred.
      specialize (A (nth j mx 0) ltac:(apply nth_In; exact Hj)). specialize (B row Hr j Hj).
      unfold Rdiv. rewrite Rabs_mult, (Rabs_pos_eq (/ _)) by (apply Rlt_le, Rinv_0_lt_compat, A).
      apply Rmult_le_reg_r with (nth j mx 0); [exact A|]. rewrite Rmult_assoc, Rinv_l by lra. lra. }
  destruct (_ && _) eqn:E; split; intros K.
  - reflexivity.
  - exfalso. apply K, H. reflexivity.
  - exfalso. apply H in K. discriminate.
  - reflexivity.
Qed.
Lemma relative_bounded mx r r' : relative (N := Rnum) mx r = Ok r' -> forall m row v, r' = Some m -> In row m -> In v row -> -1 <= v <= 1.
Proof.
  unfold relative. destruct r as [m0|]; [|intros [= <-]; discriminate].
  destruct (_ && _) eqn:E; cbn [assert_ bind]; [|discriminate]. intros [= <-] m row v [= <-] Hr Hv.
  apply andb_true_iff in E. destruct E as [_ E]. rewrite forallb_forall in E. specialize (E v ltac:(apply in_concat; eauto)).
  apply Rleb_true in E. rewrite nabs_Rabs in E. nred. apply Rabs_le_between in E. lra.
Qed.
Lemma mapM_In {A B} (f : A -> res B) l bs b : mapM f l = Ok bs -> In b bs -> exists a, In a l /\ f a = Ok b.
Proof.
  revert bs; induction l as [|a l IH]; intros bs H Hb; cbn in H; [injection H as <-; destruct Hb|].
  destruct (f a) as [x|] eqn:E; [|discriminate]. cbn in H. destruct (mapM f l) as [xs|] eqn:E'; [|discriminate]. injection H as <-.
  destruct Hb as [<-|Hb]; [exists a; cbn; auto|]. destruct (IH xs eq_refl Hb) as (y & Hy & Ey). exists y; cbn; auto.
Qed.
Lemma mapM_raise {A B} (f : A -> res B) l e : (forall a, In a l -> (exists b, f a = Ok b) \/ f a = Raise e) ->
  (exists a, In a l /\ f a = Raise e) -> mapM f l = Raise e.
Proof.
  induction l as [|a l IH]; intros H (x & Hx & Ex); [destruct Hx|]. cbn.
  destruct (H a (or_introl eq_refl)) as [[b E]|E]; rewrite E; cbn; [|reflexivity].
  rewrite IH; [reflexivity|intros; apply H; cbn; auto|]. destruct Hx as [<-|Hx]; [congruence|eauto].
Qed.
Theorem residuals_bounded rc (mp : mpo Rnum) tr sw z nodes gt ts rs : dynamics_residuals_by rc mp tr sw z nodes gt true = Ok (ts, rs) ->
  forall r m row v, In r rs -> In (Some m) r -> In row m -> In v row -> -1 <= v <= 1.
Proof.
  unfold dynamics_residuals_by.
  assert (H : forall l g ts0 rs0 g' ts rs, (forall r m row v, In r rs0 -> In (Some m) r -> In row m -> In v row -> -1 <= v <= 1) ->
    foldM (residuals_step_by rc mp tr sw z nodes true) l (g, ts0, rs0) = Ok (g', ts, rs) ->
    forall r m row v, In r rs -> In (Some m) r -> In row m -> In v row -> -1 <= v <= 1).
  { clear. induction l as [|ph l IH]; intros g ts0 rs0 g' ts rs H0 E; cbn [foldM] in E; [injection E as <- <- <-; exact H0|].
    destruct (residuals_step_by rc mp tr sw z nodes true (g, ts0, rs0) ph) as [[[g1 ts1] rs1]|] eqn:Es; [|discriminate]. cbn [bind] in E.
    apply (IH _ _ _ _ _ _) with (2 := E). unfold residuals_step_by in Es.
    match type of Es with bind ?m _ = _ => destruct m as [[g2 tg]|]; [|discriminate] end. cbn [bind] in Es.
    destruct (dyn_residuals_phase_by rc mp tr sw z ph tg) as [segs|]; [|discriminate]. cbn [bind] in Es.
    match type of Es with bind ?m _ = _ => destruct m as [out|] eqn:Eo; [|discriminate] end. cbn [bind] in Es. injection Es as <- <- <-.
    intros r m row v Hr Hm Hrow Hv. apply in_app_or in Hr. destruct Hr as [Hr|[<-|[]]]; [eapply H0; eauto|].
    destruct (mapM_In _ _ _ _ Eo Hm) as (s & _ & Er). eapply relative_bounded; eauto. }
  destruct (foldM _ _ _) as [[[g ts1] rs1]|] eqn:E; [|discriminate]. cbn [bind]. intros [= <- <-]. refine (H _ _ _ _ _ _ _ _ E). intros ? ? ? ? [].
Qed.

Lemma fold_fails rc mp sw z nodes (S : nat -> list (segres (N := Rnum))) l e : forall g ts rs,
  let M ph := mapM (fun s => relative (col_max (o_nx (mp_ocp mp)) (map (@sr_f Rnum) (S ph))) (sr_r s)) (S ph) in
  (forall ph, In ph l -> exists taus, nth_error nodes ph = Some taus /\ dyn_residuals_phase rc mp sw z ph (Some taus) = Ok (S ph)) ->
  (forall ph, In ph l -> (exists o, M ph = Ok o) \/ M ph = Raise e) ->
  (exists ph, In ph l /\ M ph = Raise e) ->
  foldM (residuals_step rc mp sw z (Some nodes) true) l (g, ts, rs) = Raise e.
Proof.
  induction l as [|ph l IH]; intros g ts rs M H1 H2 (x & Hx & Ex); [destruct Hx|]. cbn [foldM].
  destruct (H1 ph (or_introl eq_refl)) as (taus & E1 & E2).
  destruct (H2 ph (or_introl eq_refl)) as [[o E3]|E3].
  - rewrite (step_given rc mp (trajectories mp) sw z nodes true g ts rs ph taus (S ph) o E1 E2 E3). cbn [bind].
    apply IH; [intros; apply H1; cbn; auto|intros; apply H2; cbn; auto|]. destruct Hx as [<-|Hx]; [|eauto].
    unfold M in Ex, E3. rewrite E3 in Ex. discriminate.
  - unfold residuals_step_by, at_. nred. rewrite E1. cbn [bind]. rewrite E2. cbn [bind]. unfold M in E3. rewrite E3. reflexivity.
Qed.

Lemma column_max_unique rss j v v' : column_max rss j v -> column_max rss j v' -> v = v'.
Proof.
  intros (P & U & A) (P' & U' & A'). apply Rle_antisym.
  - destruct A as [->|(m & row & Hm & Hr & ->)]; [exact P'|apply (U' m row Hm Hr)].
  - destruct A' as [->|(m & row & Hm & Hr & ->)]; [exact P|apply (U m row Hm Hr)].
Qed.
Theorem residuals_relative rc mp npath nterm z p nodes gt : input_ok mp npath nterm z p ->
  length nodes = o_nph (mp_ocp mp) -> (forall taus, In taus nodes -> length taus = length (mp_orders mp)) ->
  exists S, (forall ph taus, nth_error nodes ph = Some taus -> dyn_residuals_phase rc mp p z ph (Some taus) = Ok (S ph)) /\
  dynamics_residuals rc mp p z (Some nodes) gt false = Ok (map (fun ph => map (@sr_t Rnum) (S ph)) (seq 0 (o_nph (mp_ocp mp))),
     map (fun ph => map (@sr_r Rnum) (S ph)) (seq 0 (o_nph (mp_ocp mp)))) /\
  ((forall ph, (ph < o_nph (mp_ocp mp))%nat -> phase_relative mp (S ph)) ->
   exists ts rs, dynamics_residuals rc mp p z (Some nodes) gt true = Ok (ts, rs) /\
     ts = map (fun ph => map (@sr_t Rnum) (S ph)) (seq 0 (o_nph (mp_ocp mp))) /\ length rs = o_nph (mp_ocp mp) /\
     forall ph k seg, (ph < o_nph (mp_ocp mp))%nat -> nth_error (S ph) k = Some seg ->
       exists mx, (forall j, (j < o_nx (mp_ocp mp))%nat -> column_max (map (@sr_f Rnum) (S ph)) j (nth j mx 0)) /\
         nth_error (nth ph rs []) k = Some (option_map (map (fun row => vec (o_nx (mp_ocp mp)) (fun j => nth j row 0 / nth j mx 0))) (sr_r seg))) /\
  (~ (forall ph, (ph < o_nph (mp_ocp mp))%nat -> phase_relative mp (S ph)) ->
   dynamics_residuals rc mp p z (Some nodes) gt true = Raise AssertionError).
Proof.
  intros Hin Ln Ht. set (nph := o_nph (mp_ocp mp)) in *. set (nx := o_nx (mp_ocp mp)).
  assert (HS : forall ph, exists segs, (ph < nph)%nat -> exists taus, nth_error nodes ph = Some taus /\ dyn_residuals_phase rc mp p z ph (Some taus) = Ok segs /\
     (forall seg m row, In seg segs -> sr_r seg = Some m -> In row m -> length row = nx)).
  { intros ph. destruct (lt_dec ph nph) as [Hph|]; [|exists []; lia].
    destruct (nth_error nodes ph) as [taus|] eqn:E; [|apply nth_error_None in E; lia].
    pose proof (Ht taus ltac:(eapply nth_error_In; eauto)) as Htl.
    destruct (residuals_phase_thm rc mp npath nterm z p Hin ph Hph taus Htl) as (rs & segs & _ & Es & Ls & Hex & Hv).
    exists segs. intros _. exists taus. split; [reflexivity|]. split; [exact Es|].
    intros seg m row Hs Hm Hr. apply In_nth_error in Hs. destruct Hs as [k Hk].
    assert (Hk' : (k < length (mp_orders mp))%nat) by (rewrite <- Ls; apply nth_error_Some; congruence).
    destruct (Hex k Hk') as (cx & cu & Hc). destruct (nth_error taus k) as [pts|] eqn:Ep; [|apply nth_error_None in Ep; lia].
    specialize (Hv k pts cx cu Ep Hc). rewrite Hk in Hv. destruct pts as [|x pts].
    - assert (seg = Segres [] None None) by congruence. subst seg. discriminate.
    - match type of Hv with _ = Some ?t => assert (seg = t) by congruence end. subst seg. cbn [sr_r] in Hm.
      match type of Hm with Some ?t = _ => assert (m = t) by congruence end. subst m.
      unfold state_rows in Hr. apply in_map_iff in Hr. destruct Hr as (t & <- & _). unfold vec. now rewrite map_length, seq_length. }
  assert (exists S, forall ph, (ph < nph)%nat -> exists taus, nth_error nodes ph = Some taus /\ dyn_residuals_phase rc mp p z ph (Some taus) = Ok (S ph) /\
     (forall seg m row, In seg (S ph) -> sr_r seg = Some m -> In row m -> length row = nx)) as [S HS'].
  { clear -HS. set (n := nph) in *. clearbody n. 
    assert (forall m, exists S, forall ph, (ph < m)%nat -> (ph < n)%nat -> exists taus, nth_error nodes ph = Some taus /\ dyn_residuals_phase rc mp p z ph (Some taus) = Ok (S ph) /\
     (forall seg m row, In seg (S ph) -> sr_r seg = Some m -> In row m -> length row = nx)) as H.
    { induction m as [|m [S IH]]; [exists (fun _ => []); lia|]. destruct (HS m) as [segs Hs].
      exists (fun ph => if Nat.eqb ph m then segs else S ph). intros ph Hph Hn. destruct (Nat.eqb_spec ph m) as [->|]; [auto|apply IH; lia]. }
    destruct (H n) as [S HS']. exists S. intros; apply HS'; lia. }
  clear HS. exists S. split.
  { intros ph taus E. assert (Hph : (ph < nph)%nat) by (rewrite <- Ln; apply nth_error_Some; congruence).
    destruct (HS' ph Hph) as (t & E1 & E2 & _). congruence. }
  split.
  { apply (residuals_given rc mp (trajectories mp) p z nodes gt false S (fun ph => map (@sr_r Rnum) (S ph))). intros ph Hph. destruct (HS' ph Hph) as (t & E1 & E2 & _). eauto. }
  set (mx := fun ph => col_max (N := Rnum) nx (map (@sr_f Rnum) (S ph))).
  assert (Hmx : forall ph, length (mx ph) = nx /\ forall j, (j < nx)%nat -> column_max (map (@sr_f Rnum) (S ph)) j (nth j (mx ph) 0)) by (intros; apply col_max_spec).
  assert (Hseg : forall ph seg m, (ph < nph)%nat -> In seg (S ph) -> sr_r seg = Some m ->
    (relative_possible (mx ph) m -> relative (N := Rnum) (mx ph) (Some m) = Ok (Some (map (fun row => map2 (@ndiv Rnum) row (mx ph)) m))) /\
    (~ relative_possible (mx ph) m -> relative (N := Rnum) (mx ph) (Some m) = Raise AssertionError)).
  { intros ph seg m Hph Hs Hm. apply relative_spec. intros row Hr. destruct (HS' ph Hph) as (t & _ & _ & HL). pose proof (proj1 (Hmx ph)) as Lx. nred. rewrite Lx. eapply HL; eauto. }
  assert (Hposs : forall ph m, (ph < nph)%nat -> In (Some m) (map (@sr_r Rnum) (S ph)) ->
    (relative_possible (mx ph) m <-> forall j v, (j < nx)%nat -> column_max (map (@sr_f Rnum) (S ph)) j v -> 0 < v /\ forall row, In row m -> Rabs (nth j row 0) <= v)).
  { intros ph m Hph Hm. destruct (Hmx ph) as [Lx Hc]. split.
    - intros [A B] j v Hj Hv. rewrite (column_max_unique _ _ _ _ Hv (Hc j Hj)). split; [apply A, nth_In; nred; lia|]. intros row Hr. apply B; [exact Hr|nred; lia].
    - intros H. split.
      + intros v Hv. destruct (In_nth _ _ 0 Hv) as (j & Hj & <-). apply (H j); [nred; lia|]. apply Hc. nred; lia.
      + intros row Hr j Hj. apply (H j); [nred; lia| |exact Hr]. apply Hc. nred; lia. }
  split.
  - intros Hall.
    set (O := fun ph => map (fun s => option_map (map (fun row => map2 (@ndiv Rnum) row (mx ph))) (sr_r s)) (S ph)).
    exists (map (fun ph => map (@sr_t Rnum) (S ph)) (seq 0 nph)), (map O (seq 0 nph)). split; [|split; [reflexivity|split; [now rewrite map_length, seq_length|]]].
    + apply (residuals_given rc mp (trajectories mp) p z nodes gt true S O). intros ph Hph. destruct (HS' ph Hph) as (t & E1 & E2 & _). exists t. split; [exact E1|]. split; [exact E2|].
      fold nx. fold (mx ph). unfold O. apply (@mapM_ok (segres (N := Rnum)) (rows (N := Rnum))).
      intros s Hs. destruct (sr_r s) as [m|] eqn:Em; [|reflexivity]. cbn [option_map]. apply (Hseg ph s m Hph Hs Em).
      assert (Hm : In (Some m) (map (@sr_r Rnum) (S ph))) by (rewrite <- Em; now apply in_map).
      apply (Hposs ph m Hph Hm). apply Hall; [exact Hph|exact Hm].
    + intros ph k seg Hph Hk. exists (mx ph). split; [apply Hmx|].
      rewrite (nth_map_in _ _ _ _ 0%nat) by (rewrite seq_length; exact Hph). rewrite seq_nth by exact Hph. cbn [Nat.add]. unfold O.
      rewrite nth_error_map, Hk. cbn [option_map]. f_equal. destruct (sr_r seg) as [m|] eqn:Em; [|reflexivity]. cbn [option_map]. f_equal.
      apply map_ext_in. intros row Hr. destruct (HS' ph Hph) as (t & _ & _ & HL).
      pose proof (HL seg m row ltac:(eapply nth_error_In; eauto) Em Hr) as Lr. destruct (Hmx ph) as [Lx _].
      apply (list_eq_nth _ _ 0); [rewrite map2_div_len; unfold vec; rewrite ?map_length, ?seq_length; nred; lia|].
      intros j Hj. rewrite map2_div_len in Hj by (nred; lia). rewrite nth_map2_div by (nred; lia).
      unfold vec. rewrite (nth_map_in _ _ _ _ 0%nat) by (rewrite seq_length; nred; lia). rewrite seq_nth by (nred; lia). reflexivity.
  - intros Hnot. unfold dynamics_residuals_by.
    assert (HO : forall ph, In ph (seq 0 nph) -> let M := mapM (fun s => relative (mx ph) (sr_r s)) (S ph) in
      ((exists o, M = Ok o) \/ M = Raise AssertionError) /\ (~ phase_relative mp (S ph) -> M = Raise AssertionError)).
    { intros ph Hph M. apply in_seq in Hph.
      assert (Hs : forall s, In s (S ph) -> (exists b, relative (N := Rnum) (mx ph) (sr_r s) = Ok b) \/ relative (N := Rnum) (mx ph) (sr_r s) = Raise AssertionError).
      { intros s Hs. destruct (sr_r s) as [m|] eqn:Em; [|left; eexists; reflexivity].
        destruct (Hseg ph s m ltac:(lia) Hs Em) as [A B]. destruct (classic (relative_possible (mx ph) m)) as [K|K]; [left; eauto|right; auto]. }
      assert (HM : (exists s, In s (S ph) /\ relative (N := Rnum) (mx ph) (sr_r s) = Raise AssertionError) -> M = Raise AssertionError) by (intros; apply mapM_raise; auto).
      split.
      - destruct (classic (exists s, In s (S ph) /\ relative (N := Rnum) (mx ph) (sr_r s) = Raise AssertionError)) as [K|K]; [right; auto|left].
        destruct (mapM_total (fun s => relative (N := Rnum) (mx ph) (sr_r s)) (S ph)) as (bs & Eb & _); [|exists bs; exact Eb].
        intros s Hin'. destruct (Hs s Hin') as [?|?]; [assumption|exfalso; eauto].
      - intros K. apply HM. apply NNPP. intros Hno. apply K. intros m Hm. apply (Hposs ph m ltac:(lia) Hm). apply NNPP. intros Hn.
        apply Hno. apply in_map_iff in Hm. destruct Hm as (s & Em & Hin'). exists s. split; [exact Hin'|]. rewrite Em. apply (Hseg ph s m ltac:(lia) Hin' Em). exact Hn. }
    fold nph. rewrite (fold_fails rc mp p z nodes S (seq 0 nph) AssertionError); [reflexivity| | |].
    + intros ph Hph. apply in_seq in Hph. destruct (HS' ph ltac:(lia)) as (t & E1 & E2 & _). eauto.
    + intros ph Hph. apply (HO ph Hph).
    + apply NNPP. intros Hno. apply Hnot. intros ph Hph. apply NNPP. intros K. apply Hno. exists ph. split; [apply in_seq; lia|]. apply (HO ph ltac:(apply in_seq; lia)). exact K.
Qed.

(** ** results for all phases *)
Theorem residuals_all rc mp npath nterm z p nodes gt : input_ok mp npath nterm z p ->
  length nodes = o_nph (mp_ocp mp) -> (forall taus, In taus nodes -> length taus = length (mp_orders mp)) ->
  exists rs ts res, mapM (c_roots (mp_cf mp)) (mp_orders mp) = Ok rs /\
    dynamics_residuals rc mp p z (Some nodes) gt false = Ok (ts, res) /\
    length ts = o_nph (mp_ocp mp) /\ length res = o_nph (mp_ocp mp) /\
    forall ph, (ph < o_nph (mp_ocp mp))%nat -> let w := width mp p ph in let y := user_traj mp z ph in
      length (nth ph ts []) = length (mp_orders mp) /\ length (nth ph res []) = length (mp_orders mp) /\
      (forall k, (k < length (mp_orders mp))%nat -> exists cx cu, seg_polys mp rs y k cx cu) /\
      forall k pts cx cu, nth_error (nth ph nodes []) k = Some pts -> seg_polys mp rs y k cx cu ->
        nth_error (nth ph ts []) k = Some (map (seg_time (mp_cf mp) w y k) pts) /\
        nth_error (nth ph res []) k = Some (match pts with [] => None | _ => Some (state_rows mp (defect mp w ph y k cx cu) pts) end).
Proof.
  intros Hin Ln Ht. destruct (residuals_relative rc mp npath nterm z p nodes gt Hin Ln Ht) as (S & HS & Hd & _).
  destruct (setup mp npath nterm z p Hin) as (rs & ap & Ers & _).
  eexists rs, _, _. split; [exact Ers|]. split; [exact Hd|]. rewrite !map_length, !seq_length. split; [reflexivity|]. split; [reflexivity|].
  intros ph Hph w y. rewrite !(nth_map_in _ _ _ _ 0%nat) by (rewrite seq_length; exact Hph). rewrite seq_nth by exact Hph. cbn [Nat.add].
  destruct (nth_error nodes ph) as [taus|] eqn:En; [|apply nth_error_None in En; lia].
  pose proof (HS ph taus En) as Es. pose proof (Ht taus ltac:(eapply nth_error_In; eauto)) as Htl.
  destruct (residuals_phase_thm rc mp npath nterm z p Hin ph Hph taus Htl) as (rs' & segs & Ers' & Es' & Ls & Hex & Hv).
  assert (rs' = rs) by (nred; congruence). subst rs'. assert (segs = S ph) by (nred; congruence). subst segs.
  rewrite !map_length. split; [exact Ls|]. split; [exact Ls|]. split; [exact Hex|].
  intros k pts cx cu Hp Hc. rewrite (nth_error_nth _ _ [] En) in Hp. rewrite !nth_error_map, (Hv k pts cx cu Hp Hc).
  destruct pts; split; reflexivity.
Qed.
(** feasible points *)
Theorem residuals_feasible rc mp npath nterm z p nodes gt : input_ok mp npath nterm z p ->
  length nodes = o_nph (mp_ocp mp) -> (forall taus, In taus nodes -> length taus = length (mp_orders mp)) ->
  exists rs n ts res, mapM (c_roots (mp_cf mp)) (mp_orders mp) = Ok rs /\ nlp_at mp z p = Ok n /\
    dynamics_residuals rc mp p z (Some nodes) gt false = Ok (ts, res) /\
    forall ph, (ph < o_nph (mp_ocp mp))%nat ->
      (sat (g_block mp npath nterm n ph 0) ->
       forall k rows pts i x row v, nth_error (nth ph res []) k = Some (Some rows) -> nth_error (nth ph nodes []) k = Some pts ->
         nth_error pts i = Some x -> In x (own_points rs k) -> nth_error rows i = Some row -> In v row -> v = 0) /\
      (nth ph nodes [] = map (own_points rs) (seq 0 (length (mp_orders mp))) ->
       (forall rows row v, In (Some rows) (nth ph res []) -> In row rows -> In v row -> v = 0) ->
       sat (g_block mp npath nterm n ph 0)).
Proof.
  intros Hin Ln Ht. destruct (residuals_relative rc mp npath nterm z p nodes gt Hin Ln Ht) as (S & HS & Hd & _).
  destruct (setup mp npath nterm z p Hin) as (rs & ap & Ers & _).
  destruct (nlp_blocks mp npath nterm z p Hin) as (rs0 & n & _ & En & _).
  eexists rs, n, _, _. split; [exact Ers|]. split; [exact En|]. split; [exact Hd|]. intros ph Hph.
  rewrite !(nth_map_in _ _ _ _ 0%nat) by (rewrite seq_length; exact Hph). rewrite seq_nth by exact Hph. cbn [Nat.add].
  destruct (nth_error nodes ph) as [taus|] eqn:Eno; [|apply nth_error_None in Eno; lia].
  pose proof (HS ph taus Eno) as Es. pose proof (Ht taus ltac:(eapply nth_error_In; eauto)) as Htl. rewrite (nth_error_nth _ _ [] Eno).
  destruct (residual_vanishes rc mp npath nterm z p ph taus Hin Hph Htl) as (rs' & segs & n' & Ers' & En' & Es' & Ls & H1 & H2).
  assert (rs' = rs) by (nred; congruence). subst rs'. assert (segs = S ph) by (nred; congruence). subst segs. assert (n' = n) by (nred; congruence). subst n'.
  split.
  - intros Hs k rows pts i x row v Hk Hp Hx Ho Hrow Hv. rewrite nth_error_map in Hk. destruct (nth_error (S ph) k) as [seg|] eqn:Ek; [|discriminate].
    cbn [option_map] in Hk. assert (Er : sr_r seg = Some rows) by congruence. exact (H1 Hs k seg rows pts i x row v Ek Er Hp Hx Ho Hrow Hv).
  - intros Et Hz. apply H2; [exact Et|]. intros seg rows row v Hseg Er Hrow Hv. apply (Hz rows row v); auto. rewrite <- Er. now apply in_map.
Qed.

(** ** times *)
Lemma time_at_ends tau0 tau1 t orders k : tau0 <> tau1 ->
  time_at tau0 tau1 t orders k tau0 = nth (offset orders k) t 0 /\ time_at tau0 tau1 t orders k tau1 = nth (offset orders (S k)) t 0.
Proof. intros H. unfold time_at, frac. split; field; lra. Qed.
Lemma time_at_mono tau0 tau1 t orders k x x' : tau0 < tau1 -> nth (offset orders k) t 0 < nth (offset orders (S k)) t 0 -> x < x' ->
  time_at tau0 tau1 t orders k x < time_at tau0 tau1 t orders k x'.
Proof.
  intros H1 H2 H3. unfold time_at, frac. assert ((x - tau0) / (tau1 - tau0) < (x' - tau0) / (tau1 - tau0)).
  { unfold Rdiv. apply Rmult_lt_compat_r; [apply Rinv_0_lt_compat; lra|lra]. }
  nra.
Qed.
Lemma time_at_mono_segments tau0 tau1 t orders k k' x x' : tau0 < tau1 ->
  (forall j, nth (offset orders j) t 0 <= nth (offset orders (S j)) t 0) ->
  (k < k')%nat -> x <= tau1 -> tau0 <= x' ->
  time_at tau0 tau1 t orders k x <= time_at tau0 tau1 t orders k' x'.
Proof.
  intros H1 H2 Hk Hx Hx'.
  assert (F1 : frac tau0 tau1 x <= 1). { unfold frac. apply Rmult_le_reg_r with (tau1 - tau0); [lra|]. unfold Rdiv. rewrite Rmult_assoc, Rinv_l by lra. lra. }
  assert (F2 : 0 <= frac tau0 tau1 x'). { unfold frac, Rdiv. apply Rmult_le_pos; [lra|]. apply Rlt_le, Rinv_0_lt_compat. lra. }
  assert (H : nth (offset orders (S k)) t 0 <= nth (offset orders k') t 0).
  { clear Hx Hx' F1 F2. induction Hk as [|k' Hk IH]; [lra|]. specialize (H2 k'). lra. }
  pose proof (H2 k). pose proof (H2 k'). unfold time_at. nra.
Qed.
Lemma Rsum_firstn ws k : Rsum k (fun j => nth j ws 0) = total (firstn k ws).
Proof.
  revert k; induction ws as [|a ws IH]; intros k.
  - rewrite firstn_nil. induction k as [|k IHk]; [reflexivity|]. cbn [Rsum]. rewrite IHk. destruct k; unfold total; cbn; ring.
  - induction k as [|k IHk]; [reflexivity|]. cbn [Rsum]. rewrite IHk. destruct (le_lt_dec (length (a :: ws)) k) as [H|H].
    + rewrite (nth_overflow _ _ H), (firstn_all2 _ H), firstn_all2 by lia. ring.
    + now rewrite firstn_S_total by exact H.
Qed.
Lemma Rsum_ext' n (f g : nat -> R) : (forall i, (i < n)%nat -> f i = g i) -> Rsum n f = Rsum n g.
Proof. intros H. apply Rsum_ext. exact H. Qed.
Lemma seg_time_position mp npath nterm z p ph k x : input_ok mp npath nterm z p -> (ph < o_nph (mp_ocp mp))%nat -> (k < mp_nseg mp)%nat ->
  let cf := mp_cf mp in let y := user_traj mp z ph in
  seg_time cf (width mp p ph) y k x = y_t0 y + (y_tf y - y_t0 y) * position (cf_tau0 cf) (cf_tau1 cf) (phase_part (mp_nseg mp) ph p) k x.
Proof.
  intros Hin Hph Hk cf y. pose proof (co_taus _ (mo_cfg _ (in_mpo _ _ _ _ _ Hin))) as Ht. fold cf in Ht. nred.
  assert (Hw : forall j, (j < mp_nseg mp)%nat -> width mp p ph j = nth j (phase_part (mp_nseg mp) ph p) 0).
  { intros j Hj. unfold width, phase_part. rewrite nth_firstn_lt by exact Hj. rewrite nth_skipn. f_equal. nia. }
  unfold seg_time, seg_start, seg_h, position. fold cf. rewrite <- Rsum_firstn.
  rewrite (Rsum_ext k (width mp p ph) (fun j => nth j (phase_part (mp_nseg mp) ph p) 0)) by (intros; apply Hw; lia).
  rewrite Hw by exact Hk. unfold frac. field. lra.
Qed.
(** points requested anywhere in the phase get the time of that place *)
Theorem requested_times rc mp npath nterm z p ph nodes : input_ok mp npath nterm z p -> (ph < o_nph (mp_ocp mp))%nat ->
  partition (mp_nseg mp) (phase_part (mp_nseg mp) ph p) -> sorted nodes ->
  let cf := mp_cf mp in let y := user_traj mp z ph in
  exists taus it, interpolation_taus nodes (widths_of mp p ph) (cf_tau0 cf) (cf_tau1 cf) = Ok taus /\
    interpolate_phase rc mp p z ph (Some taus) = Ok it /\
    i_t it = map (fun x => y_t0 y + (y_tf y - y_t0 y) * frac (cf_tau0 cf) (cf_tau1 cf) x) (part (cf_tau0 cf) (cf_tau1 cf) nodes).
Proof.
  intros Hin Hph (Lw & Hw & Hs) Hn cf y. pose proof (in_mpo _ _ _ _ _ Hin) as Hmp. pose proof (co_taus _ (mo_cfg _ Hmp)) as Ht. fold cf in Ht.
  destruct (taus_thm nodes (phase_part (mp_nseg mp) ph p) (cf_tau0 cf) (cf_tau1 cf) Ht ltac:(intros; apply Rlt_le, Hw; auto) Hs)
    as (ts & Ets & Lts & Hloc & _ & Hpos). specialize (Hpos Hn).
  assert (Htl : length ts = length (mp_orders mp)) by (rewrite (mo_len _ Hmp); nred; congruence).
  destruct (interp_spec rc mp npath nterm z p Hin ph Hph ts Htl) as (rs & it & _ & _ & _ & Eit & Hit).
  exists ts, it. rewrite widths_of_part. split; [exact Ets|]. split; [exact Eit|].
  rewrite (io_t _ _ _ _ _ _ _ Hit). rewrite <- (map_map (frac (cf_tau0 cf) (cf_tau1 cf)) (fun q => y_t0 y + (y_tf y - y_t0 y) * q)), <- Hpos.
  unfold positions. rewrite concat_map, map_map. f_equal. rewrite <- Htl. apply map_ext_in. intros k Hk. apply in_seq in Hk. rewrite map_map.
  apply map_ext. intros x. apply (seg_time_position mp npath nterm z p ph k x Hin Hph). nred. rewrite <- (mo_len _ Hmp). lia.
Qed.

(** ** states and second derivatives of all phases *)
Theorem states_all rc mp npath nterm z p nodes phases : input_ok mp npath nterm z p ->
  length nodes = o_nph (mp_ocp mp) ->
  (forall taus, In taus nodes -> length taus = length (mp_orders mp) /\ forall pts, In pts taus -> NoDup pts) ->
  (forall ph, In ph phases -> (ph < o_nph (mp_ocp mp))%nat) ->
  exists rs res, mapM (c_roots (mp_cf mp)) (mp_orders mp) = Ok rs /\
    states_residuals rc mp p z (Some phases) (Some nodes) false = Ok res /\ map fst res = phases /\
    forall ph segs, In (ph, segs) res -> let w := width mp p ph in let y := user_traj mp z ph in
      length segs = length (mp_orders mp) /\
      (forall k, (k < length (mp_orders mp))%nat -> exists cx cu, seg_polys mp rs y k cx cu) /\
      (forall k pts cx cu, nth_error (nth ph nodes []) k = Some pts -> exists cq, dyn_interp mp w ph y k cx cu cq pts) /\
      forall k pts cx cu cq, nth_error (nth ph nodes []) k = Some pts -> seg_polys mp rs y k cx cu -> dyn_interp mp w ph y k cx cu cq pts ->
        nth_error segs k = Some (match pts with
          | [] => None
          | _ => Some (Segstate (N := Rnum) (state_rows mp (integrated mp w y k cq) pts)
                   (control_rows mp (fun q tau => peval (cu q) tau) pts) (map (seg_time (mp_cf mp) w y k) pts)
                   (state_rows mp (fun s tau => peval (cx s) tau - integrated mp w y k cq s tau) pts))
          end).
Proof.
  intros Hin Ln Ht Hp. destruct (setup mp npath nterm z p Hin) as (rs & ap & Ers & _). exists rs.
  assert (HS : forall ph, In ph phases -> exists b, (r <- states_residuals_phase rc mp p z (Some nodes) false ph ;; Ok (ph, r)) = Ok b).
  { intros ph Hph. specialize (Hp ph Hph). destruct (nth_error nodes ph) as [taus|] eqn:En; [|apply nth_error_None in En; lia].
    destruct (Ht taus ltac:(eapply nth_error_In; eauto)) as [Htl Hnd].
    destruct (states_phase_thm rc mp npath nterm z p Hin ph Hp taus Htl Hnd) as (rs' & segs & _ & Es & _).
    unfold states_residuals_phase_by, at_. nred. rewrite En. cbn [bind]. rewrite Es. cbn [bind]. eauto. }
  destruct (mapM_total _ _ HS) as (res & Er & Lr & Hn). exists res. split; [exact Ers|]. split; [exact Er|]. clear HS.
  assert (Hel : forall i ph, nth_error phases i = Some ph -> exists segs, nth_error res i = Some (ph, segs) /\
     exists taus, nth_error nodes ph = Some taus /\ integrate_phase rc mp p z ph (Some taus) = Ok segs).
  { intros i ph Hi. destruct (nth_error res i) as [[ph' segs]|] eqn:Ei.
    2:{ apply nth_error_None in Ei. assert (i < length phases)%nat by (apply nth_error_Some; congruence). lia. }
    destruct (Hn i ph Hi) as (b & E & Eb). assert (b = (ph', segs)) by congruence. subst b. unfold states_residuals_phase_by, at_ in E. nred.
    destruct (nth_error nodes ph) as [taus|] eqn:En; [|discriminate]. cbn [bind] in E.
    destruct (integrate_phase rc mp p z ph (Some taus)) as [sg|] eqn:Es; [|discriminate]. cbn [bind] in E. injection E as <- <-. eauto 6. }
  split.
  - apply (list_eq_nth _ _ 0%nat); [rewrite map_length; lia|]. intros i Hi. rewrite map_length in Hi.
    destruct (nth_error phases i) as [ph|] eqn:Ei; [|apply nth_error_None in Ei; lia]. destruct (Hel i ph Ei) as (segs & Er' & _).
    rewrite (nth_error_nth _ _ _ Ei). rewrite (nth_map_in _ _ _ _ (0%nat, [])) by exact Hi. now rewrite (nth_error_nth _ _ _ Er').
  - intros ph segs Hr w y. apply In_nth_error in Hr. destruct Hr as [i Hr].
    destruct (nth_error phases i) as [ph'|] eqn:Ei; [|apply nth_error_None in Ei; assert (i < length res)%nat by (apply nth_error_Some; congruence); lia].
    destruct (Hel i ph' Ei) as (segs' & Er' & taus & En & Es). rewrite Hr in Er'. injection Er' as <- <-.
    assert (Hph : (ph < o_nph (mp_ocp mp))%nat) by (apply Hp; eapply nth_error_In; eauto).
    destruct (Ht taus ltac:(eapply nth_error_In; eauto)) as [Htl Hnd]. rewrite (nth_error_nth _ _ [] En).
    destruct (states_phase_thm rc mp npath nterm z p Hin ph Hph taus Htl Hnd) as (rs' & sg & Ers' & Es' & H1 & H2 & H3 & H4).
    assert (rs' = rs) by (nred; congruence). subst rs'. assert (sg = segs) by (nred; congruence). subst sg. auto.
Qed.
Theorem second_all rc mp npath nterm z p gt nodes : input_ok mp npath nterm z p ->
  length nodes = o_nph (mp_ocp mp) -> (forall taus, In taus nodes -> length taus = length (mp_orders mp)) ->
  exists rs res, mapM (c_roots (mp_cf mp)) (mp_orders mp) = Ok rs /\
    second_derivative rc mp p z gt (Some nodes) = Ok res /\ length res = o_nph (mp_ocp mp) /\
    forall ph, (ph < o_nph (mp_ocp mp))%nat -> let w := width mp p ph in let y := user_traj mp z ph in
      length (nth ph res []) = length (mp_orders mp) /\
      forall k pts cx cu, nth_error (nth ph nodes []) k = Some pts -> seg_polys mp rs y k cx cu ->
        nth_error (nth ph res []) k = Some (match pts with
          | [] => None
          | _ => Some (Segdd (N := Rnum) (map (seg_time (mp_cf mp) w y k) pts)
                   (state_rows mp (fun s tau => Derive_n (peval (cx s)) 2 tau) pts)
                   (control_rows mp (fun s tau => Derive_n (peval (cu s)) 2 tau) pts))
          end).
Proof.
  intros Hin Ln Ht. destruct (setup mp npath nterm z p Hin) as (rs & ap & Ers & _). exists rs.
  pose (f := fun ph : nat => target <- (t <- at_ nodes ph ;; Ok (Some t)) ;; second_derivative_phase rc mp p z ph target).
  assert (Hf : forall ph, In ph (seq 0 (o_nph (mp_ocp mp))) -> exists b, f ph = Ok b).
  { intros ph Hph. apply in_seq in Hph. destruct (nth_error nodes ph) as [taus|] eqn:En; [|apply nth_error_None in En; lia].
    destruct (second_derivative_thm rc mp npath nterm z p ph taus Hin ltac:(lia) (Ht taus ltac:(eapply nth_error_In; eauto))) as (rs' & segs & _ & Es & _).
    unfold f, at_. nred. rewrite En. cbn [bind]. eauto. }
  destruct (mapM_total _ _ Hf) as (res & Er & Lr & Hn). exists res. split; [exact Ers|]. split; [exact Er|]. rewrite seq_length in Lr. split; [exact Lr|].
  intros ph Hph w y. destruct (nth_error nodes ph) as [taus|] eqn:En; [|apply nth_error_None in En; lia].
  destruct (second_derivative_thm rc mp npath nterm z p ph taus Hin Hph (Ht taus ltac:(eapply nth_error_In; eauto))) as (rs' & segs & Ers' & Es & H1 & H2).
  assert (rs' = rs) by (nred; congruence). subst rs'.
  destruct (nth_error res ph) as [sg|] eqn:Ep; [|apply nth_error_None in Ep; lia].
  assert (E : f ph = Ok sg).
  { destruct (Hn ph ph) as (b & Eb & Eb'); [rewrite (nth_error_nth' _ 0%nat) by (rewrite seq_length; lia); now rewrite seq_nth by lia|]. nred. congruence. }
  unfold f, at_ in E. nred. rewrite En in E. cbn [bind] in E. assert (sg = segs) by congruence. subst sg.
  rewrite (nth_error_nth _ _ [] Ep), (nth_error_nth _ _ [] En). auto.
Qed.
(** relative residuals of the integrated states *)
Lemma vquot_nth (row mx : list R) j : 0 < nth j mx 0 -> nth j (vquot (N := Rnum) row mx) 0 = nth j row 0 / nth j mx 0.
Proof.
  revert mx j. induction row as [|a row IH]; intros mx j H.
  - cbn. destruct j; unfold Rdiv; nred; ring.
  - destruct mx as [|b mx]; [destruct j; cbn in H; lra|]. destruct j as [|j]; [reflexivity|]. apply (IH mx j H).
Qed.
Theorem states_relative_thm rc (mp : mpo Rnum) sw z phases nodes res : states_residuals rc mp sw z phases nodes false = Ok res ->
  exists res', states_residuals rc mp sw z phases nodes true = Ok res' /\ map fst res' = map fst res /\
  forall i ph segs, nth_error res i = Some (ph, segs) -> exists segs' mx, nth_error res' i = Some (ph, segs') /\
    length mx = o_nx (mp_ocp mp) /\ (forall j, (j < o_nx (mp_ocp mp))%nat -> column_max (map (option_map (@ss_x Rnum)) segs) j (nth j mx 0)) /\
    length segs' = length segs /\
    forall k, match nth_error segs k, nth_error segs' k with
      | Some (Some s), Some (Some s') => ss_x s' = ss_x s /\ ss_u s' = ss_u s /\ ss_t s' = ss_t s /\ length (ss_r s') = length (ss_r s) /\
          forall q j, 0 < nth j mx 0 -> nth j (nth q (ss_r s') []) 0 = nth j (nth q (ss_r s) []) 0 / nth j mx 0
      | Some None, r => r = Some None
      | None, r => r = None
      | _, _ => False
      end.
Proof.
  unfold states_residuals_by. set (l := match phases with Some l => l | None => _ end). clearbody l. revert res. induction l as [|ph l IH]; intros res E; cbn [mapM] in *.
  - inversion E; subst. exists []. split; [reflexivity|]. split; [reflexivity|]. intros [|i] ph segs C; discriminate C.
  - unfold states_residuals_phase_by in *. match type of E with bind (bind (bind ?m _) _) _ = _ => destruct m as [tg|]; [|discriminate E] end. cbn [bind] in *.
    destruct (integrate_phase rc mp sw z ph tg) as [s|]; [|discriminate E]. cbn [bind] in *.
    match type of E with bind ?m _ = _ => destruct m as [r|]; [|discriminate E] end. cbn [bind] in *.
    inversion E; subst res. destruct (IH r eq_refl) as (res' & E' & F & H). rewrite E'. cbn [bind].
    eexists. split; [reflexivity|]. split; [cbn [map fst]; now rewrite F|].
    intros [|i] ph' segs Hi; [|exact (H i ph' segs Hi)]. cbn in Hi. inversion Hi; subst ph' segs. clear Hi.
    eexists _, (col_max (N := Rnum) (o_nx (mp_ocp mp)) (map (option_map (@ss_x Rnum)) s)). split; [reflexivity|].
    destruct (col_max_spec (o_nx (mp_ocp mp)) (map (option_map (@ss_x Rnum)) s)) as [L C]. split; [exact L|]. split; [exact C|]. split; [apply map_length|].
    intros k. rewrite nth_error_map. destruct (nth_error s k) as [[g|]|]; cbn [option_map]; try reflexivity.
    cbn [ss_x ss_u ss_t ss_r]. do 3 (split; [reflexivity|]). split; [apply map_length|]. intros q j Hj.
    rewrite <- (vquot_nth _ _ _ Hj).
    rewrite <- (map_nth (fun row => vquot (N := Rnum) row (col_max (o_nx (mp_ocp mp)) (map (option_map (@ss_x Rnum)) s))) (ss_r g) [] q).
    reflexivity.
Qed.
