(** Worked cases and counterexamples for refinement. *)
From Coq Require Import String Reals List Lia Lra Bool Arith ZArith Permutation.
From Verif Require Import Num PyList Mat Hadapt Spec SpecHadapt NumR ListR MergeR AreaR SlopeR HadaptR.
Import ListNotations.
Open Scope list_scope.
Open Scope R_scope.

(** ** Merging and splitting *)
Lemma merge_case (N : num) (tol a b : N) (w : N) : nltb a tol = true -> nltb b tol = false ->
  merge_split [a; b; b; a; a] [w; w; w; w; w] tol =
  let h := ndiv (nadd (nadd n0 w) w) (nofnat 3) in Ok [nadd n0 w; h; h; h; nadd (nadd n0 w) w].
Proof.
  intros Ha Hb. unfold merge_split. cbn [mapM at_ nth_error seq List.length bind]. rewrite !Ha, !Hb. vm_compute. reflexivity.
Qed.
Lemma coarse_case (N : num) (tol a b : N) (w : N) : nltb a tol = true -> nltb b tol = false ->
  merge_split [b; b; b; b; b; a; b] [w; w; w; w; w; w; w] tol =
  let s := nadd (nadd (nadd (nadd (nadd n0 w) w) w) w) w in
  let h := ndiv s (nofnat 3) in let k := ndiv (nadd n0 w) (nofnat 3) in Ok [h; h; h; nadd n0 w; k; k; k].
Proof.
  intros Ha Hb. unfold merge_split. cbn [mapM at_ nth_error seq List.length bind]. rewrite !Ha, !Hb. vm_compute. reflexivity.
Qed.
(** the first segment is above tolerance and becomes wider *)
Lemma coarsens : exists tol res sw ws, merge_split (N := Rnum) res sw tol = Ok ws /\ List.length res = List.length sw /\
  partition 7 sw /\ tol <= nth 0 res 0 /\ nth 0 sw 0 < nth 0 ws 0.
Proof.
  exists 1, [2; 2; 2; 2; 2; 0; 2], [1/7; 1/7; 1/7; 1/7; 1/7; 1/7; 1/7].
  eexists. split.
  - apply (coarse_case Rnum 1 0 2 (1/7)); nred; [apply Rltb_true; lra|apply Rltb_false; lra].
  - split; [reflexivity|]. split.
    + split; [reflexivity|]. split; [|cbn; lra]. intros w Hw. repeat (destruct Hw as [<-|Hw]; [lra|]). destruct Hw.
    + split; [cbn; lra|]. cbv zeta. cbn [nth]. rewrite nofnat_R. nred. replace (INR 3) with 3 by (cbn; lra). lra.
Qed.

(** ** At most one run above tolerance: nothing above tolerance gets coarser *)
Lemma sum_lengths_ge {A} (ls : list (list A)) i l : (forall x, In x ls -> x <> []) -> nth_error ls i = Some l ->
  (List.length l + (List.length ls - 1) <= List.length (concat ls))%nat.
Proof.
  revert i; induction ls as [|x ls IH]; intros i H Hi; [destruct i; discriminate|]. cbn [concat]. rewrite app_length. cbn [List.length].
  assert (Hx : (1 <= List.length x)%nat) by (pose proof (H x (or_introl eq_refl)); destruct x; [congruence|cbn; lia]).
  assert (Hl : (List.length ls <= List.length (concat ls))%nat).
  { assert (H' : forall y, In y ls -> y <> []) by (intros; apply H; right; auto). clear - H'.
    induction ls as [|y ls IH]; [cbn; lia|]. cbn. rewrite app_length. specialize (IH (fun z Hz => H' z (or_intror Hz))).
    pose proof (H' y (or_introl eq_refl)). destruct y; [congruence|cbn; lia]. }
  destruct i as [|i]; cbn in Hi; [inversion Hi; subst; lia|].
  specialize (IH i (fun z Hz => H z (or_intror Hz)) Hi). lia.
Qed.
Lemma sum_lengths_one {A} (ls : list (list A)) i l : (forall j x, j <> i -> nth_error ls j = Some x -> List.length x = 1%nat) -> nth_error ls i = Some l ->
  (List.length l + (List.length ls - 1) = List.length (concat ls))%nat.
Proof.
  revert i; induction ls as [|x ls IH]; intros i H Hi; [destruct i; discriminate|]. cbn [concat]. rewrite app_length. cbn [List.length].
  destruct i as [|i].
  - cbn in Hi. inversion Hi; subst.
    assert (Hl : List.length (concat ls) = List.length ls).
    { assert (H' : forall y, In y ls -> List.length y = 1%nat) by (intros y Hy; apply In_nth_error in Hy; destruct Hy as (j & Hj); apply (H (S j)); [discriminate|exact Hj]).
      clear - H'. induction ls as [|y ls IH]; [reflexivity|]. cbn. rewrite app_length, IH, (H' y (or_introl eq_refl)); [lia|]. intros z Hz. apply H'. right. exact Hz. }
    lia.
  - cbn in Hi. rewrite (H 0%nat x) by (discriminate || reflexivity).
    specialize (IH i (fun j y Hj Hy => H (S j) y ltac:(lia) Hy) Hi).
    assert (1 <= List.length ls)%nat by (destruct ls; [destruct i; discriminate|cbn; lia]). lia.
Qed.
Lemma avg_le l k : l <> [] -> (List.length l <= k)%nat -> (forall x, In x l -> 0 < x) -> exists x, In x l /\ total l / INR k <= x.
Proof.
  intros Hne Hk Hp.
  assert (M : exists x, In x l /\ forall y, In y l -> y <= x).
  { clear Hk Hp. destruct l as [|a l]; [congruence|]. destruct (fold_max l a) as [H1 H2]. exists (fold_left Rmax l a). auto. }
  destruct M as (x & Hx & Hm). exists x. split; [exact Hx|].
  assert (T : total l <= INR (List.length l) * x).
  { clear Hx Hne Hk Hp. induction l as [|a l IH]; [cbn; lra|]. change (total (a :: l)) with (a + total l). cbn [List.length]. rewrite S_INR.
    specialize (IH (fun y Hy => Hm y (or_intror Hy))). pose proof (Hm a (or_introl eq_refl)). lra. }
  assert (0 < x) by auto. assert (K : INR (List.length l) <= INR k) by (apply le_INR; exact Hk).
  assert (0 < INR k) by (apply lt_0_INR; destruct l; [congruence|cbn in Hk; lia]).
  apply Rmult_le_reg_r with (INR k); [auto|]. unfold Rdiv. rewrite Rmult_assoc, Rinv_l by lra. nra.
Qed.
Theorem single_run tol res sw : (List.length sw <= List.length res)%nat -> (forall w, In w sw -> 0 < w) ->
  exists ws gs, merge_split (N := Rnum) res sw tol = Ok ws /\ maximal_runs tol res sw gs /\
  ((forall i j g h, nth_error gs i = Some g -> nth_error gs j = Some h -> fst g = false -> fst h = false -> i = j) ->
   ws = sw \/ exists news, ws = concat news /\ List.length news = List.length gs /\
    forall i g new w, nth_error gs i = Some g -> fst g = false -> nth_error news i = Some new -> In w new ->
    exists w0, In w0 (snd g) /\ w <= w0).
Proof.
  intros Hl Hp. destruct (merge_split_ok tol res sw Hl) as (ws & E & Hwl & _ & _ & _ & gs & Hm & Hsame & Hdiff).
  exists ws, gs. split; [exact E|]. split; [exact Hm|]. intros Hone.
  destruct (Nat.eq_dec (List.length gs) (List.length sw)) as [D|D]; [left; apply Hsame; left; exact D|].
  destruct (existsb (fun g => negb (fst g)) gs) eqn:Ex.
  2:{ left. apply Hsame. right. intros g Hg. destruct (fst g) eqn:F; [reflexivity|exfalso].
      assert (C : existsb (fun g => negb (fst g)) gs = true) by (apply existsb_exists; exists g; rewrite F; auto). congruence. }
  apply existsb_exists in Ex. destruct Ex as (g0 & Hg0 & F0). apply negb_true_iff in F0.
  destruct (Hdiff D (ex_intro _ g0 (conj Hg0 F0))) as (news & k & Hnl & -> & Hnth). right. exists news. split; [reflexivity|]. split; [exact Hnl|].
  intros i g new w Hg F Hn Hw. destruct (Hnth i g new Hg Hn) as (ki & R & _). unfold run_result in R. rewrite F in R. destruct R as [K ->].
  apply repeat_spec in Hw. subst w.
  assert (Hne : snd g <> []) by (apply (mr_non_empty _ _ _ _ Hm); eapply nth_error_In; eauto).
  apply avg_le; [exact Hne| |].
  - assert (A : (List.length (snd g) + (List.length (map snd gs) - 1) <= List.length (concat (map snd gs)))%nat).
    { apply (sum_lengths_ge (map snd gs) i).
      - intros x Hx. apply in_map_iff in Hx. destruct Hx as (h & <- & Hh). apply (mr_non_empty _ _ _ _ Hm h Hh).
      - rewrite nth_error_map, Hg. reflexivity. }
    assert (B : (List.length (repeat (total (snd g) / INR ki)%R ki) + (List.length news - 1) = List.length (concat news))%nat).
    { apply (sum_lengths_one news i); [|exact Hn]. intros j x Hj Hx.
      destruct (nth_error gs j) as [h|] eqn:Hh.
      - destruct (Hnth j h x Hh Hx) as (kj & Rj & _). unfold run_result in Rj. destruct (fst h) eqn:Fh; [subst x; reflexivity|].
        exfalso. apply Hj. symmetry. exact (Hone i j g h Hg Hh F Fh).
      - exfalso. apply nth_error_None in Hh. assert (nth_error news j <> None) by congruence. apply nth_error_Some in H. lia. }
    rewrite repeat_length in B. rewrite map_length, (mr_all _ _ _ _ Hm) in A. nred. lia.
  - intros x Hx. apply Hp. rewrite <- (mr_all _ _ _ _ Hm). apply in_concat. exists (snd g). split; [|exact Hx]. apply in_map. eapply nth_error_In; eauto.
Qed.

(** ** Equal areas: trailing zeros *)
Lemma area_short : exists r n ws, (2 <= List.length r)%nat /\ (forall x, In x r -> 0 <= x) /\ 0 < area r (List.length r - 1) /\
  equal_area (N := Rnum) r n = Ok ws /\ total ws <> 1.
Proof.
  exists [1; 1; 0; 0], 2%nat.
  assert (H0 : forall x, In x [1; 1; 0; 0] -> 0 <= x) by (intros x Hx; repeat (destruct Hx as [<-|Hx]; [lra|]); destruct Hx).
  assert (H1 : 0 < area [1; 1; 0; 0] (List.length [1; 1; 0; 0] - 1)) by (cbn; lra).
  destruct (equal_area_ok [1; 1; 0; 0] 2) as (ws & E & _ & _ & _ & _ & Hiff); [cbn; lia|lia|exact H0|exact H1|].
  exists ws. split; [cbn; lia|]. split; [exact H0|]. split; [exact H1|]. split; [exact E|]. rewrite Hiff. cbn. lra.
Qed.
Lemma norm_one : sqrt (total (map (fun x => x * x) [1])) = 1.
Proof. cbn. replace (1 * 1 + 0) with 1 by ring. apply sqrt_1. Qed.
Definition ex_res : list (list (option (list (list R)))) := [[Some [[1]]; None; None]].
Definition ex_third : list R := [1/3; 1/3; 1/3].
Lemma ex_third_ok : widths_ok 3 1 ex_third.
Proof.
  split; [reflexivity|]. intros ph Hph. assert (ph = 0)%nat by lia. subst ph. split; [reflexivity|]. split; [|cbn; lra].
  intros w Hw. repeat (destruct Hw as [<-|Hw]; [lra|]). destruct Hw.
Qed.
Lemma ex_res_ok : residuals_ok 3 1 ex_res /\ points_ok ex_res.
Proof.
  split.
  - split; [reflexivity|]. intros rs [<-|[]]. split; [reflexivity|]. intros m [E|[E|[E|[]]]]; inversion E; subst. intros row [<-|[]]. discriminate.
  - intros rs [<-|[]] m [E|[E|[E|[]]]]; inversion E; subst. discriminate.
Qed.
Lemma area_phase_short : exists n nph sw tol residuals ws e, widths_ok n nph sw /\ residuals_ok n nph residuals /\ points_ok residuals /\
  (forall ph, (ph < nph)%nat -> 0 < nth ph tol 0) /\
  widths_by_residual (N := Rnum) "equal_area" n nph sw tol residuals = Ok (ws, e) /\ ~ widths_ok n nph ws.
Proof.
  exists 3%nat, 1%nat, ex_third, [1/2], ex_res.
  assert (Ht : forall ph, (ph < 1)%nat -> 0 < nth ph [1/2] 0) by (intros ph Hph; assert (ph = 0)%nat by lia; subst; cbn; lra).
  destruct ex_res_ok as [R1 R2].
  destruct (by_area_ok "equal_area" 3 1 ex_third [1/2] ex_res ltac:(lia) ex_third_ok R1 R2 ltac:(cbn; lia) eq_refl ltac:(lia) Ht)
    as (ws & e & E & _ & H & _).
  exists ws, e. split; [exact ex_third_ok|]. split; [exact R1|]. split; [exact R2|]. split; [exact Ht|]. split; [exact E|].
  intros [_ C]. destruct (H 0%nat ltac:(lia)) as (_ & _ & _ & Hiff0). destruct (C 0%nat ltac:(lia)) as (_ & _ & T).
  apply Hiff0 in T.
  - cbn in T. lra.
  - intros [B _]. specialize (B 1 ltac:(left; reflexivity)). cbn in B. rewrite Rabs_R1 in B. lra.
Qed.

(** ** Control slope *)
Definition ex_t : list R := [0; 1; 2; 3].
Definition ex_du : list (list R) := [[0]; [1]; [3]; [0]].
Lemma slope_at_1 : slope ex_du 1 = 1.
Proof. unfold slope. cbn. replace (1 * 1 + 0) with 1 by ring. apply sqrt_1. Qed.
Lemma slope_at_2 : slope ex_du 2 = 3.
Proof. unfold slope. cbn. replace (3 * 3 + 0) with (Rsqr 3) by (unfold Rsqr; ring). apply sqrt_Rsqr. lra. Qed.
Lemma ex_times : time_at_max (N := Rnum) ex_t ex_du (1/10)%R = [1; 2].
Proof.
  nred. rewrite time_at_max_eq by reflexivity. unfold cand. nred. cbn [List.length ex_t Nat.sub seq filter]. rewrite slope_at_1, slope_at_2.
  nred. replace (Rleb (1/10) 1) with true by (symmetry; apply Rleb_true; lra). replace (Rleb (1/10) 3) with true by (symmetry; apply Rleb_true; lra).
  cbn [sort_by fold_right insert_by]. rewrite slope_at_1, slope_at_2. nred. replace (Rleb 1 3) with true by (symmetry; apply Rleb_true; lra). reflexivity.
Qed.
Lemma ex_steep_widths : widths_at_times (N := Rnum) [1; 2] 2 0 3 = Ok [(1/3)%R; (2/3)%R].
Proof.
  unfold widths_at_times. cbn [List.length Nat.ltb Nat.leb Nat.sub andb firstn sort_by fold_right insert_by].
  nred. replace (Rleb 1 2) with true by (symmetry; apply Rleb_true; lra). cbn. f_equal. f_equal; [field|]. f_equal. field.
Qed.
(** the only boundary is put at the flatter of the two candidates *)
Lemma flattest_chosen : exists t du thr is ws, List.length du = List.length t /\ NoDup t /\
  time_at_max (N := Rnum) t du thr = map (fun i => nth i t 0) is /\
  widths_by_slope (N := Rnum) [(1/2)%R; (1/2)%R] t du thr 0 3 (1/100000)%R 1 2 = Ok ws /\
  is = [1; 2]%nat /\ slope du 1 < slope du 2 /\ boundary 0 3 ws 1 = nth 1 t 0 /\ boundary 0 3 ws 1 <> nth 2 t 0.
Proof.
  exists ex_t, ex_du, (1/10), [1; 2]%nat, [1/3; 2/3]. split; [reflexivity|]. split.
  { unfold ex_t. repeat constructor; cbn; intros H; repeat (destruct H as [H|H]; [lra|]); exact H. }
  rewrite ex_times. split; [reflexivity|]. split.
  { unfold widths_by_slope. rewrite ex_times. cbv iota. pose proof ex_steep_widths as Q. nred. rewrite Q. cbn [bind]. f_equal.
    apply (clamp_keeps _ _ 2).
    - split; [reflexivity|]. split; [|cbn; lra]. intros w [<-|[<-|[]]]; lra.
    - intros w [<-|[<-|[]]]; lra. }
  split; [reflexivity|]. rewrite slope_at_1, slope_at_2. unfold boundary. cbn. repeat split; lra.
Qed.
(** after normalisation a width is outside the limits *)
Lemma clamp_outside : exists lo hi ws, 0 < lo /\ lo <= hi /\ partition 2 ws /\ exists w, In w (clamp_widths (N := Rnum) lo hi ws) /\ w < lo.
Proof.
  exists (1/100000), 1, [1/1000000; 999999/1000000]. split; [lra|]. split; [lra|]. split.
  - split; [reflexivity|]. split; [|cbn; lra]. intros w [<-|[<-|[]]]; lra.
  - rewrite clamp_widths_R. cbn [map]. unfold clamp. nred.
    replace (Rltb (1/1000000) (1/100000)) with true by (symmetry; apply Rltb_true; lra).
    replace (Rltb 1 (1/1000000)) with false by (symmetry; apply Rltb_false; lra).
    replace (Rltb (999999/1000000) (1/100000)) with false by (symmetry; apply Rltb_false; lra).
    replace (Rltb 1 (999999/1000000)) with false by (symmetry; apply Rltb_false; lra).
    eexists. split; [left; reflexivity|]. cbn. lra.
Qed.
