(** Merging and splitting of segments (proofs). *)
From Coq Require Import Reals List Lia Lra Bool Arith.
From Verif Require Import Num PyList Mat Hadapt Spec SpecHadapt NumR ListR.
Import ListNotations.
Open Scope R_scope.

Lemma total_app l m : total (l ++ m) = total l + total m.
Proof. exact (rsum_app l m). Qed.
Lemma total_repeat a n : total (repeat a n) = INR n * a.
Proof.
  induction n as [|n IH]; [cbn; lra|]. change (repeat a (S n)) with (a :: repeat a n).
  change (total (a :: repeat a n)) with (a + total (repeat a n)). rewrite IH, S_INR. lra.
Qed.
Lemma total_concat ls : total (concat ls) = total (map total ls).
Proof. induction ls as [|l ls IH]; [reflexivity|]. cbn [concat map]. rewrite total_app, IH. reflexivity. Qed.
Lemma total_pos l : l <> [] -> (forall x, In x l -> 0 < x) -> 0 < total l.
Proof.
  induction l as [|a l IH]; intros Hn H; [congruence|]. cbn.
  assert (0 < a) by (apply H; left; auto).
  destruct l as [|b l]; [cbn; lra|].
  assert (0 < total (b :: l)) by (apply IH; [discriminate|intros; apply H; right; auto]). unfold total in *. lra.
Qed.

(** ** groupby *)
Lemma group_concat l : concat (group_by l) = l.
Proof.
  induction l as [|[k i] l IH]; [reflexivity|]. cbn.
  destruct (group_by l) as [|[|[k' i'] g] gs]; cbn in *.
  - subst. reflexivity.
  - rewrite IH. reflexivity.
  - destruct (Bool.eqb k k'); cbn; rewrite IH; reflexivity.
Qed.
Lemma group_ne l g : In g (group_by l) -> g <> [].
Proof.
  revert g; induction l as [|[k i] l IH]; intros g H; cbn in H; [destruct H|].
  destruct (group_by l) as [|[|[k' i'] g'] gs].
  - destruct H as [<-|[]]; discriminate.
  - exfalso. apply (IH []); [left|]; reflexivity.
  - destruct (Bool.eqb k k').
    + destruct H as [<-|H]; [discriminate|apply IH; right; auto].
    + destruct H as [<-|H]; [discriminate|apply IH; auto].
Qed.
Lemma group_same l g e : In g (group_by l) -> In e g -> fst e = group_key g.
Proof.
  revert g e; induction l as [|[k i] l IH]; intros g e H He; cbn in H; [destruct H|].
  destruct (group_by l) as [|[|[k' i'] g'] gs] eqn:E.
  - destruct H as [<-|[]]. destruct He as [<-|[]]. reflexivity.
  - destruct H as [<-|H]; [destruct He as [<-|[]]; reflexivity|apply IH; auto].
  - destruct (Bool.eqb k k') eqn:K.
    + apply eqb_prop in K. subst k'.
      destruct H as [<-|H]; [|apply IH; [right|]; auto].
      destruct He as [<-|He]; [reflexivity|].
      rewrite (IH ((k, i') :: g') e); auto. left; auto.
    + destruct H as [<-|H]; [destruct He as [<-|[]]; reflexivity|apply IH; auto].
Qed.
Lemma group_alt l i g g' : nth_error (group_by l) i = Some g -> nth_error (group_by l) (S i) = Some g' -> group_key g <> group_key g'.
Proof.
  revert i g g'; induction l as [|[k x] l IH]; intros i g g' H H'; cbn in H, H'; [destruct i; discriminate|].
  destruct (group_by l) as [|[|[k' i'] h] gs] eqn:E.
  - destruct i as [|[|i]]; discriminate.
  - exfalso. apply (@group_ne l []); [rewrite E; left|]; reflexivity.
  - destruct (Bool.eqb k k') eqn:K.
    + apply eqb_prop in K. subst k'.
      destruct i as [|i]; cbn in H, H'.
      * inversion H; subst. cbn. specialize (IH 0%nat ((k, i') :: h) g' eq_refl H'). exact IH.
      * apply (IH (S i)); auto.
    + destruct i as [|i]; cbn in H, H'.
      * inversion H; inversion H'; subst. cbn. apply eqb_false_iff. exact K.
      * apply (IH i); auto.
Qed.
Lemma group_len l : (length (group_by l) <= length l)%nat.
Proof.
  rewrite <- (group_concat l) at 2.
  assert (H : forall g, In g (group_by l) -> g <> []) by apply group_ne.
  induction (group_by l) as [|g gs IH]; [cbn; lia|]. cbn. rewrite app_length.
  assert (length g <> 0%nat) by (pose proof (H g (or_introl eq_refl)); destruct g; [congruence|cbn; lia]).
  specialize (IH (fun g Hg => H g (or_intror Hg))). lia.
Qed.
(** as many groups as elements: every group is a singleton *)

(** ** spread *)
Definition n_above (gs : list (bool * R)) : nat := length (filter (fun g => negb (fst g)) gs).
Fixpoint spread_l (gs : list (bool * R)) (per : list nat) : list (list R) :=
  match gs with
  | [] => []
  | (true, h) :: gs' => [h] :: spread_l gs' per
  | (false, h) :: gs' =>
      match per with
      | [] => []
      | n :: per' => repeat (h / INR n) n :: spread_l gs' per'
      end
  end.
Lemma spread_concat gs per : spread (N := Rnum) gs per = concat (spread_l gs per).
Proof.
  revert per; induction gs as [|[[|] h] gs IH]; intros per; [reflexivity| |].
  - cbn. rewrite IH. reflexivity.
  - destruct per as [|n per]; [reflexivity|]. cbn [spread spread_l concat]. rewrite IH.
    rewrite nofnat_R. reflexivity.
Qed.
Definition parts (q r n : nat) : list nat :=
  match n with 0 => [] | S m => repeat q m ++ [q + r]%nat end.
Lemma spread_l_len gs per : length per = n_above gs -> length (spread_l gs per) = length gs.
Proof.
  revert per; induction gs as [|[[|] h] gs IH]; intros per H; [reflexivity| |].
  - cbn. f_equal. apply IH. exact H.
  - unfold n_above in H. cbn in H. destruct per as [|n per]; [discriminate|]. cbn. f_equal. apply IH. cbn in H. unfold n_above. lia.
Qed.
Lemma spread_l_nth q r : (1 <= q)%nat -> forall gs i g new, nth_error gs i = Some g ->
  nth_error (spread_l gs (parts q r (n_above gs))) i = Some new ->
  if fst g then new = [snd g] else
    exists k, (q <= k)%nat /\ (1 <= k)%nat /\ new = repeat (snd g / INR k) k /\
      ((exists j g', (i < j)%nat /\ nth_error gs j = Some g' /\ fst g' = false) -> k = q).
Proof.
  intros Hq. induction gs as [|[[|] h] gs IH]; intros i g new Hg Hn.
  - destruct i; discriminate.
  - change (n_above ((true, h) :: gs)) with (n_above gs) in Hn. cbn in Hn.
    destruct i as [|i]; cbn in Hg, Hn.
    + inversion Hg; inversion Hn; subst. cbn. reflexivity.
    + specialize (IH _ _ _ Hg Hn). destruct (fst g); [exact IH|].
      destruct IH as (k & A & B & C & D). exists k. repeat split; auto.
      intros (j & g' & Hj & Hg' & F). apply D. destruct j as [|j]; [lia|]. exists j, g'. cbn in Hg'. split; [lia|auto].
  - change (n_above ((false, h) :: gs)) with (S (n_above gs)) in Hn.
    destruct (n_above gs) as [|m] eqn:Em; cbn in Hn.
    + destruct i as [|i]; cbn in Hg, Hn.
      * inversion Hg; inversion Hn; subst. cbn. exists (q + r)%nat. split; [lia|]. split; [lia|]. split; [reflexivity|].
        intros (j & g' & Hj & Hg' & F). exfalso. destruct j as [|j]; [lia|]. cbn in Hg'.
        apply nth_error_In in Hg'. unfold n_above in Em. apply length_zero_iff_nil in Em.
        assert (In g' (filter (fun g => negb (fst g)) gs)) by (apply filter_In; rewrite F; auto).
        rewrite Em in H. destruct H.
      * assert (E : spread_l gs [] = spread_l gs (parts q r (n_above gs))) by (rewrite Em; reflexivity).
        rewrite E, <- Em in *. specialize (IH _ _ _ Hg Hn). destruct (fst g); [exact IH|].
        destruct IH as (k & A & B & C & D). exists k. repeat split; auto.
        intros (j & g' & Hj & Hg' & F). apply D. destruct j as [|j]; [lia|]. exists j, g'. cbn in Hg'. split; [lia|auto].
    + destruct i as [|i]; cbn in Hg, Hn.
      * inversion Hg; inversion Hn; subst. cbn. exists q. split; [lia|]. split; [lia|]. split; [reflexivity|]. auto.
      * specialize (IH _ _ _ Hg Hn). destruct (fst g); [exact IH|].
        destruct IH as (k & A & B & C & D). exists k. repeat split; auto.
        intros (j & g' & Hj & Hg' & F). apply D. destruct j as [|j]; [lia|]. exists j, g'. cbn in Hg'. split; [lia|auto].
Qed.
Lemma parts_len q r n : length (parts q r n) = n.
Proof. destruct n; cbn; [reflexivity|]. rewrite app_length, repeat_length. cbn. lia. Qed.
Lemma spread_len gs per : length per = n_above gs ->
  length (concat (spread_l gs per)) = (length gs - n_above gs + nsum per)%nat.
Proof.
  revert per; induction gs as [|[[|] h] gs IH]; intros per H.
  - unfold n_above in H. cbn in H. apply length_zero_iff_nil in H. subst. reflexivity.
  - change (n_above ((true, h) :: gs)) with (n_above gs) in *. cbn [spread_l concat app length]. rewrite IH by auto.
    assert (n_above gs <= length gs)%nat by (unfold n_above; clear; induction gs as [|a gs IH]; cbn; [lia|destruct (negb (fst a)); cbn; lia]).
    lia.
  - change (n_above ((false, h) :: gs)) with (S (n_above gs)) in *. destruct per as [|n per]; [discriminate|].
    cbn [spread_l concat length]. rewrite app_length, repeat_length, IH by (cbn in H; lia).
    rewrite nsum_cons. lia.
Qed.
Lemma nsum_parts q r n : (1 <= n)%nat -> nsum (parts q r n) = (n * q + r)%nat.
Proof.
  destruct n as [|m]; [lia|]. intros _. cbn [parts]. rewrite nsum_app.
  assert (E : nsum (repeat q m) = (m * q)%nat) by (induction m; [reflexivity|cbn [repeat]; rewrite nsum_cons, IHm; lia]).
  rewrite E, nsum_cons. unfold nsum at 1. cbn. lia.
Qed.

(** ** Boundaries *)
Definition flags (gs : list (bool * list R)) : list bool := concat (map (fun g => repeat (fst g) (length (snd g))) gs).
Lemma nth_error_repeat' {A} (a : A) n i : (i < n)%nat -> nth_error (repeat a n) i = Some a.
Proof. revert i; induction n; intros i H; [lia|]. destruct i; cbn; [reflexivity|apply IHn; lia]. Qed.
Lemma cut_kept gs : forall news i, Forall2 (fun g new => total new = total (snd g)) gs news ->
  (0 < i)%nat -> (i < length (flags gs))%nat -> nth_error (flags gs) (i - 1) <> nth_error (flags gs) i ->
  exists j, (j <= length (concat news))%nat /\ total (firstn j (concat news)) = total (firstn i (concat (map snd gs))).
Proof.
  unfold flags. induction gs as [|g gs IH]; intros news i F H0 Hi D; [cbn in Hi; lia|].
  inversion F as [|g1 new gs1 news1 Hg F']; subst. cbn [map concat] in *.
  rewrite app_length, repeat_length in Hi.
  destruct (lt_eq_lt_dec i (length (snd g))) as [[L|E]|G].
  - exfalso. apply D. rewrite !nth_error_app1 by (rewrite repeat_length; lia). rewrite !nth_error_repeat' by lia. reflexivity.
  - exists (length new). rewrite app_length. split; [lia|]. rewrite firstn_app, firstn_all, Nat.sub_diag.
    rewrite firstn_app, <- E. replace (i - i)%nat with 0%nat by lia. rewrite E, firstn_all. cbn [firstn]. rewrite !app_nil_r. exact Hg.
  - destruct (IH news1 (i - length (snd g))%nat F') as (j & Hj & Ej); [lia|lia| |].
    + intros C. apply D. rewrite !nth_error_app2 by (rewrite repeat_length; lia). rewrite repeat_length.
      replace (i - 1 - length (snd g))%nat with (i - length (snd g) - 1)%nat by lia. exact C.
    + exists (length new + j)%nat. rewrite app_length. split; [lia|].
      rewrite firstn_app_2, total_app, Ej, Hg.
      rewrite firstn_app. rewrite (firstn_all2 (snd g)) by lia. rewrite total_app. reflexivity.
Qed.

(** ** The function *)
Section Main.
Variables (tol : R) (res sw : list R).
Hypothesis Hlen : (length sw <= length res)%nat.
Let ns := length sw.
Let data : list (bool * nat) := map (fun i => (Rltb (nth i res 0) tol, i)) (seq 0 ns).
Let groups := group_by data.
Let runs : list (bool * list R) := map (fun g => (group_key g, map (fun e => nth (snd e) sw 0) g)) groups.
Let hs : list (bool * R) := map (fun g => (fst g, total (snd g))) runs.

Lemma data_len : length data = ns.
Proof. unfold data. rewrite map_length, seq_length. reflexivity. Qed.
Lemma group_idx g e : In g groups -> In e g -> (snd e < ns)%nat.
Proof.
  intros Hg He. assert (In e data) by (rewrite <- (group_concat data); apply in_concat; eauto).
  unfold data in H. apply in_map_iff in H. destruct H as (i & <- & Hi). apply in_seq in Hi. cbn. lia.
Qed.
Lemma map_nth_seq {A} (d : A) l : map (fun i => nth i l d) (seq 0 (length l)) = l.
Proof.
  induction l as [|a l IH]; [reflexivity|]. cbn [length seq map nth]. f_equal.
  rewrite <- seq_shift, map_map. exact IH.
Qed.
Lemma runs_sw : concat (map snd runs) = sw.
Proof.
  unfold runs. rewrite map_map. cbn [snd].
  rewrite <- (map_map (fun g : list (bool * nat) => g) (fun g => map (fun e => nth (snd e) sw 0) g)), map_id.
  rewrite <- concat_map. unfold groups. rewrite group_concat. unfold data. rewrite map_map. cbn [snd]. apply map_nth_seq.
Qed.
Lemma map_const_repeat {A B} (f : A -> B) c l : (forall x, In x l -> f x = c) -> map f l = repeat c (length l).
Proof. induction l as [|a l IH]; intros H; [reflexivity|]. cbn. rewrite H by (left; auto). rewrite IH by (intros; apply H; right; auto). reflexivity. Qed.
Lemma runs_flags : flags runs = map fst data.
Proof.
  unfold flags, runs. rewrite map_map. cbn [fst snd].
  rewrite <- (group_concat data), concat_map. f_equal. fold groups. apply map_ext_in. intros g Hg.
  rewrite map_length. symmetry. apply map_const_repeat. intros e He. exact (group_same data g e Hg He).
Qed.
Lemma runs_maximal : maximal_runs tol res sw runs.
Proof.
  constructor.
  - exact runs_sw.
  - intros i r b Hr Hb. fold (flags runs) in Hb. rewrite runs_flags in Hb. unfold data in Hb. rewrite map_map in Hb. cbn [fst] in Hb.
    assert (i < ns)%nat by (apply nth_error_Some_lt in Hb || (assert (nth_error (map (fun x => Rltb (nth x res 0) tol) (seq 0 ns)) i <> None) by congruence; apply nth_error_Some in H; rewrite map_length, seq_length in H; auto)).
    rewrite (map_nth_error _ i (seq 0 ns) (d := i)) in Hb.
    + inversion Hb; subst. rewrite (nth_error_nth _ _ 0 Hr). apply Rltb_true.
    + rewrite nth_error_nth' with (d := 0%nat) by (rewrite seq_length; auto). rewrite seq_nth by auto. reflexivity.
  - intros g Hg. unfold runs in Hg. apply in_map_iff in Hg. destruct Hg as (h & <- & Hh). cbn.
    pose proof (group_ne data h Hh). destruct h; [congruence|discriminate].
  - intros i g g' Hg Hg'. unfold runs in *. rewrite nth_error_map in Hg, Hg'.
    destruct (nth_error groups i) as [a|] eqn:Ea; [|discriminate]. destruct (nth_error groups (S i)) as [b|] eqn:Eb; [|discriminate].
    inversion Hg; inversion Hg'; subst. cbn. exact (group_alt data i a b Ea Eb).
Qed.
Lemma n_above_hs : n_above hs = length (filter (fun g => negb (group_key g)) groups).
Proof.
  unfold n_above, hs, runs. rewrite map_map. cbn.
  induction groups as [|g gs IH]; [reflexivity|]. cbn. destruct (group_key g); cbn; auto.
Qed.

Lemma merge_split_eq : merge_split (N := Rnum) res sw tol =
  if Nat.eqb (length groups) ns then Ok sw else if Nat.eqb (n_above hs) 0 then Ok sw
  else Ok (concat (spread_l hs (parts (1 + (ns - length groups) / n_above hs) ((ns - length groups) mod n_above hs) (n_above hs)))).
Proof.
  unfold merge_split.
  rewrite (mapM_ok _ (fun i => (Rltb (nth i res 0) tol, i))).
  2:{ intros i Hi. apply in_seq in Hi. assert (K : (i < length res)%nat) by (clear - Hi Hlen; nred; lia). pose proof (at_ok res i 0 K) as E. nred. rewrite E. reflexivity. }
  cbn [bind]. cbv zeta. nred. fold ns. fold data. fold groups. rewrite <- n_above_hs.
  destruct (Nat.eqb (length groups) ns); [reflexivity|]. destruct (Nat.eqb (n_above hs) 0) eqn:E0; [reflexivity|].
  apply Nat.eqb_neq in E0.
  rewrite (mapM_ok _ (fun g => (group_key g, total (map (fun e => nth (snd e) sw 0) g)))).
  2:{ intros g Hg. rewrite (mapM_ok _ (fun e => nth (snd e) sw 0)).
      - cbn [bind]. rewrite sum_R. reflexivity.
      - intros e He. apply at_ok. apply (group_idx g e Hg He). }
  cbn [bind]. f_equal. rewrite spread_concat.
  replace (map (fun g => (group_key g, total (map (fun e : bool * nat => nth (snd e) sw 0) g))) groups) with hs
    by (unfold hs, runs; rewrite map_map; reflexivity).
  f_equal. f_equal. destruct (n_above hs) as [|m]; [lia|]. cbn [parts]. rewrite Nat.sub_succ, Nat.sub_0_r. reflexivity.
Qed.

Definition split_spec (ws : list R) : Prop :=
  exists gs, maximal_runs tol res sw gs /\
    ((length gs = ns \/ (forall g, In g gs -> fst g = true)) -> ws = sw) /\
    (length gs <> ns -> (exists g, In g gs /\ fst g = false) ->
     exists news k, length news = length gs /\ ws = concat news /\
       forall i g new, nth_error gs i = Some g -> nth_error news i = Some new ->
         exists ki, run_result g ki new /\
           (fst g = false -> (k <= ki)%nat /\ ((exists j g', (i < j)%nat /\ nth_error gs j = Some g' /\ fst g' = false) -> ki = k))).

Lemma n_above_0 : n_above hs = 0%nat <-> forall g, In g runs -> fst g = true.
Proof.
  unfold n_above, hs. split.
  - intros E g Hg. apply length_zero_iff_nil in E. destruct (fst g) eqn:F; [reflexivity|exfalso].
    assert (In (fst g, total (snd g)) (filter (fun g => negb (fst g)) (map (fun g => (fst g, total (snd g))) runs))).
    { apply filter_In. split; [apply in_map_iff; exists g; auto|cbn; rewrite F; reflexivity]. }
    rewrite E in H. destruct H.
  - intros H. apply length_zero_iff_nil. destruct (filter _ _) as [|a l] eqn:E; [reflexivity|exfalso].
    assert (In a (a :: l)) by (left; auto). rewrite <- E in H0. apply filter_In in H0. destruct H0 as [Ha Hb].
    apply in_map_iff in Ha. destruct Ha as (g & <- & Hg). cbn in Hb. rewrite (H g Hg) in Hb. discriminate.
Qed.

Theorem merge_split_ok : exists ws, merge_split (N := Rnum) res sw tol = Ok ws /\
  length ws = length sw /\ total ws = total sw /\
  ((forall w, In w sw -> 0 < w) -> forall w, In w ws -> 0 < w) /\
  (forall i, (i < length sw)%nat -> side_change tol res i -> exists j, (j <= length ws)%nat /\ total (firstn j ws) = total (firstn i sw)) /\
  split_spec ws.
Proof.
  assert (Hgl : length runs = length groups) by (unfold runs; rewrite map_length; reflexivity).
  assert (Hhl : length hs = length groups) by (unfold hs; rewrite map_length; auto).
  rewrite merge_split_eq.
  destruct (Nat.eqb (length groups) ns) eqn:E1; [|destruct (Nat.eqb (n_above hs) 0) eqn:E2].
  - apply Nat.eqb_eq in E1. exists sw. split; [reflexivity|]. split; [reflexivity|]. split; [reflexivity|]. split; [auto|].
    split; [intros i Hi _; exists i; split; [apply Nat.lt_le_incl; exact Hi|reflexivity]|].
    exists runs. split; [exact runs_maximal|]. split; [auto|]. intros C. exfalso. apply C. rewrite Hgl. exact E1.
  - apply Nat.eqb_eq in E2. exists sw. split; [reflexivity|]. split; [reflexivity|]. split; [reflexivity|]. split; [auto|].
    split; [intros i Hi _; exists i; split; [apply Nat.lt_le_incl; exact Hi|reflexivity]|].
    exists runs. split; [exact runs_maximal|]. split; [auto|]. intros _ (g & Hg & F).
    rewrite (proj1 n_above_0 E2 g Hg) in F. discriminate.
  - apply Nat.eqb_neq in E1, E2.
    set (q := (1 + (ns - length groups) / n_above hs)%nat). set (r := ((ns - length groups) mod n_above hs)%nat).
    set (news := spread_l hs (parts q r (n_above hs))).
    assert (Hnl : length news = length runs) by (unfold news; rewrite spread_l_len; [lia|apply parts_len]).
    assert (Hnth : forall i g new, nth_error runs i = Some g -> nth_error news i = Some new ->
         exists ki, run_result g ki new /\
           (fst g = false -> (q <= ki)%nat /\ ((exists j g', (i < j)%nat /\ nth_error runs j = Some g' /\ fst g' = false) -> ki = q))).
    { intros i g new Hg Hn.
      assert (Hh : nth_error hs i = Some (fst g, total (snd g))) by (unfold hs; rewrite nth_error_map, Hg; reflexivity).
      assert (Hq : (1 <= q)%nat) by (unfold q; lia).
      pose proof (spread_l_nth q r Hq hs i _ _ Hh Hn) as P. cbn [fst snd] in P. unfold run_result.
      destruct (fst g).
      - exists 0%nat. split; [exact P|discriminate].
      - destruct P as (k & A & B & C & D). exists k. split; [auto|]. intros _. split; [exact A|].
        intros (j & g' & Hj & Hg' & F). apply D. exists j, (fst g', total (snd g')). split; [exact Hj|]. split; [|exact F].
        unfold hs. rewrite nth_error_map, Hg'. reflexivity. }
    assert (Htot : Forall2 (fun g new => total new = total (snd g)) runs news).
    { clear - Hnth Hnl. revert Hnth Hnl. generalize news as nn. generalize runs as rr. intros rr.
      intros nn Hnth Hnl.
      assert (H : forall i g new, nth_error rr i = Some g -> nth_error nn i = Some new -> total new = total (snd g)).
      { intros i g new Hg Hn. destruct (Hnth i g new Hg Hn) as (k & P & _). unfold run_result in P.
        destruct (fst g).
        - subst new. cbn. lra.
        - destruct P as [K ->]. rewrite total_repeat. field. apply not_0_INR. lia. }
      clear Hnth. revert nn Hnl H. induction rr as [|g rr IH]; intros [|n nn] Hl H; try discriminate; constructor.
      - apply (H 0%nat); reflexivity.
      - apply IH; [cbn in Hl; lia|]. intros i. exact (H (S i)). }
    exists (concat news). split; [reflexivity|].
    assert (Hcl : length (concat news) = length sw).
    { unfold news. rewrite spread_len by apply parts_len. rewrite nsum_parts by lia. rewrite Hhl.
      assert (length groups <= ns)%nat by (rewrite <- data_len; apply group_len).
      assert (n_above hs <= length groups)%nat.
      { rewrite <- Hhl. unfold n_above. clear. generalize hs. intros l. induction l as [|a l IH]; cbn; [lia|destruct (negb (fst a)); cbn; lia]. }
      unfold q, r. pose proof (Nat.div_mod (ns - length groups) (n_above hs) E2) as D. fold ns. nia. }
    split; [exact Hcl|].
    split.
    { rewrite total_concat. rewrite <- runs_sw. rewrite total_concat. f_equal. rewrite !map_map.
      clear - Htot. induction Htot; [reflexivity|]. cbn. f_equal; auto. }
    split.
    { intros Hpos w Hw. apply in_concat in Hw. destruct Hw as (new & Hnew & Hw).
      apply In_nth_error in Hnew. destruct Hnew as (i & Hi).
      destruct (nth_error runs i) as [g|] eqn:Hg.
      2:{ apply nth_error_None in Hg. assert (nth_error news i <> None) by congruence. apply nth_error_Some in H. lia. }
      destruct (Hnth i g new Hg Hi) as (k & P & _).
      assert (Hgp : 0 < total (snd g)).
      { apply total_pos.
        - apply (mr_non_empty _ _ _ _ runs_maximal). eapply nth_error_In; eauto.
        - intros x Hx. apply Hpos. rewrite <- runs_sw. apply in_concat. exists (snd g). split; [|exact Hx].
          apply in_map. eapply nth_error_In; eauto. }
      unfold run_result in P. destruct (fst g).
      - subst new. destruct Hw as [<-|[]]. exact Hgp.
      - destruct P as [K ->]. apply repeat_spec in Hw. subst w. apply Rdiv_lt_0_compat; [exact Hgp|]. apply lt_0_INR. lia. }
    split.
    { intros i Hi (H0 & a & b & Ha & Hb & D). rewrite <- runs_sw. apply cut_kept; auto.
      - rewrite runs_flags, map_length, data_len. exact Hi.
      - rewrite runs_flags. unfold data. rewrite map_map. cbn [fst].
        rewrite (map_nth_error _ i (seq 0 ns) (d := i)).
        2:{ rewrite nth_error_nth' with (d := 0%nat) by (rewrite seq_length; auto). rewrite seq_nth by auto. reflexivity. }
        rewrite (map_nth_error _ (i - 1) (seq 0 ns) (d := (i - 1)%nat)).
        2:{ rewrite nth_error_nth' with (d := 0%nat) by (rewrite seq_length; subst ns; lia). rewrite seq_nth by (subst ns; lia). reflexivity. }
        rewrite (nth_error_nth _ _ 0 Ha), (nth_error_nth _ _ 0 Hb). intros C. apply D.
        assert (C' : Rltb a tol = Rltb b tol) by congruence. rewrite <- !Rltb_true. rewrite C'. tauto. }
    exists runs. split; [exact runs_maximal|]. split.
    { intros [C|C]; [exfalso; lia|]. exfalso. apply E2. apply n_above_0. exact C. }
    intros _ _. exists news, q. auto.
Qed.
End Main.
