(** When the refinement loop of mpopt_h_adaptive stops. *)
From Coq Require Import Reals Lra Lia Bool String List Arith ZArith.
From Verif Require Import Num PyList Mat Poly Roots Colloc Ocp Transcribe Solve SpecSolve NumR ListR NlpMain SolveR HsolveR RefineR SpecLoop.
Import ListNotations.
Open Scope string_scope.
Open Scope list_scope.

Open Scope R_scope.
Section L.
Variables (E : env (N := Rnum)) (mp : mpo Rnum) (mute : bool) (H : hcfg (N := Rnum)).

Lemma even_R : equal_widths mp = even mp.
Proof. unfold equal_widths, even. nred. rewrite nofnat_R. reflexivity. Qed.

Lemma widths_rule sol options s s' w r : st_sw s = Some w ->
  h_widths mp H (Some sol) options s = (s', r) -> r = rule mp H options w sol.
Proof.
  unfold h_widths, rule. destruct (Nat.eqb (mp_nseg mp) 1); [intros _ [= <- <-]; rewrite even_R; reflexivity|].
  intros Hw. unfold mbind, get. rewrite Hw. cbn [ret].
  destruct (dget String.eqb options "method") as [[]|]; try (intros [= <- <-]; rewrite even_R; reflexivity).
  cbn. unfold ret.
  destruct (String.eqb_spec s0 "control_slope") as [->|N1]; [intros [= <- <-]; reflexivity|].
  destruct (String.eqb_spec s0 "residual") as [->|N2]; [intros [= <- <-]; reflexivity|].
  intros [= <- <-]. rewrite even_R. reflexivity.
Qed.

Lemma fold_nmin (l : list R) : forall a x, nltb (n := Rnum) x (fold_left nmin l a) = true <-> x < a /\ forall t, In t l -> x < t.
Proof.
  induction l as [|b l IH]; intros a x; cbn [fold_left].
  - rewrite Rltb_true. cbn. intuition.
  - rewrite IH. assert (K : x < nmin (N:=Rnum) a b <-> x < a /\ x < b).
    { unfold nmin. destruct (nltb (n:=Rnum) b a) eqn:Eb; [apply Rltb_true in Eb|apply Rltb_false in Eb]; split; intros; nred; lra. }
    nred. rewrite K. cbn. split; [intros [[? ?] ?]; split; [auto|intros t [<-|?]; auto]|intros [? HH]; split; [split; auto|auto]].
Qed.
Lemma below_tol_R e b : below_tol H e = Ok b -> (b = true <-> converged (h_tol H) e).
Proof.
  unfold below_tol, converged. destruct e as [x|]; [|intros [= <-]; split; [discriminate|intros (x & Hx & _); discriminate]].
  unfold min_. destruct (h_tol H) as [|t l]; cbn; [discriminate|]. intros [= <-]. 
  pose proof (fold_nmin l t x) as K. split.
  - intros Hb. apply K in Hb. exists x. split; [auto|]. intros t' [<-|?]; tauto || apply Hb; auto.
  - intros (y & [= <-] & Hy). apply K. auto.
Qed.

Definition numbered (k : nat) (l : list round) : list (nat * option R) := combine (seq k (List.length l)) (map rd_err l).
Lemma numbered_app k l x : numbered k (l ++ [x]) = numbered k l ++ [((k + List.length l)%nat, rd_err x)].
Proof.
  unfold numbered. rewrite app_length, map_app, seq_app. cbn [List.length map seq]. revert k.
  induction l as [|y l IH]; intros k; cbn; [now rewrite Nat.add_0_r|]. f_equal. rewrite Nat.add_succ_r. exact (IH (S k)).
Qed.
Lemma numbered_snd k l : map snd (numbered k l) = map rd_err l.
Proof. unfold numbered. revert k. induction l as [|y l IH]; intros k; cbn; [reflexivity|]. f_equal. apply IH. Qed.
Lemma dset_numbered l x : dset Nat.eqb (numbered 1 l) (S (List.length l)) (rd_err x) = numbered 1 (l ++ [x]).
Proof.
  rewrite numbered_app. cbn [plus]. 
  assert (K : forall j k (d : list round) v, (k + List.length d <= j)%nat -> dset Nat.eqb (numbered k d) j v = numbered k d ++ [(j, v)]).
  { intros j k d v. revert k. induction d as [|y d IH]; intros k Hk; [reflexivity|]. cbn in *.
    destruct (Nat.eqb_spec j k); [lia|]. f_equal. apply IH. lia. }
  apply K. lia.
Qed.

Lemma stalls_R l x b : (4 < List.length (l ++ [x]))%nat ->
  error_stalls (N := Rnum) (numbered 1 (l ++ [x])) (rd_err x) = Ok b -> (b = true <-> settled (map rd_err (l ++ [x]))).
Proof.
  intros Hl. unfold error_stalls, mean_last4. rewrite numbered_snd.
  set (es := map rd_err (l ++ [x])).
  assert (Le : (4 < List.length es)%nat) by (unfold es; rewrite map_length; exact Hl).
  assert (Sp : exists pre e1 e2 e3, es = pre ++ [e1; e2; e3; rd_err x] /\ pre <> []).
  { assert (F : es = map rd_err l ++ [rd_err x]) by (unfold es; rewrite map_app; reflexivity).
    rewrite F in Le. rewrite app_length in Le. cbn in Le. 
    destruct (map rd_err l) as [|a l0 _] eqn:E0 using rev_ind; cbn in Le; [lia|].
    destruct l0 as [|b0 l1 _] using rev_ind; rewrite ?app_length in Le; cbn in Le; [lia|].
    destruct l1 as [|c0 l2 _] using rev_ind; rewrite ?app_length in Le; cbn in Le; [lia|].
    exists l2, c0, b0, a. rewrite F. split; [rewrite <- !app_assoc; reflexivity|]. intros ->. cbn in Le. lia. }
  destruct Sp as (pre & e1 & e2 & e3 & Ee & Hp). rewrite Ee.
  assert (Sk : forall n, n = (List.length (pre ++ [e1; e2; e3; rd_err x]) - 4)%nat ->
    skipn n (pre ++ [e1; e2; e3; rd_err x]) = [e1; e2; e3; rd_err x]).
  { intros n ->. replace (List.length (pre ++ [e1; e2; e3; rd_err x]) - 4)%nat with (List.length pre) by (rewrite app_length; cbn; lia).
    rewrite skipn_app, skipn_all, Nat.sub_diag. reflexivity. }
  match goal with |- context [all_some ?t] => assert (Sk' : t = [e1; e2; e3; rd_err x]) by (apply Sk; reflexivity) end.
  nred. rewrite Sk'. clear Sk Sk'.
  intros Hb. split.
  - intros ->. destruct e1 as [a|], e2 as [b|], e3 as [c|], (rd_err x) as [d|]; cbn [all_some bind List.length] in Hb; try discriminate.
    exists pre, a, b, c, d. split; [reflexivity|]. split; [exact Hp|]. apply (f_equal (fun r => match r with Ok b => b | Raise _ => false end)) in Hb. cbv beta iota in Hb.
    apply Rltb_true in Hb. rewrite tol5_val, !nabs_R, nofnat_R in Hb. unfold sum_ in Hb. cbn [fold_left] in Hb. nred. cbn [INR] in Hb.
    replace ((a + b + c + d) / 4) with ((0 + a + b + c + d) / (1 + 1 + 1 + 1)) by field. exact Hb.
  - intros (pre' & a & b' & c & d & E1 & _ & E2).
    change (pre ++ [e1; e2; e3; rd_err x]) with (pre ++ ([e1; e2; e3; rd_err x] : list (option R))) in E1.
    assert (E3 : [e1; e2; e3; rd_err x] = [Some a; Some b'; Some c; Some d]).
    { assert (L : List.length pre = List.length pre') by (apply (f_equal (@List.length _)) in E1; rewrite !app_length in E1; cbn in E1; lia).
      apply (f_equal (skipn (List.length pre))) in E1. rewrite skipn_app, skipn_all, Nat.sub_diag, L, skipn_app, skipn_all, Nat.sub_diag in E1. exact E1. }
    injection E3 as -> -> -> E4. rewrite E4 in Hb. cbn [all_some bind List.length] in Hb.
    apply (f_equal (fun r => match r with Ok b => b | Raise _ => false end)) in Hb. cbv beta iota in Hb. rewrite <- Hb.
    apply Rltb_true. rewrite tol5_val, !nabs_R, nofnat_R. unfold sum_. cbn [fold_left]. nred. cbn [INR].
    replace ((0 + a + b' + c + d) / (1 + 1 + 1 + 1)) with ((a + b' + c + d) / 4) by field. exact E2.
Qed.
Lemma widths_R v w b : widths_stall (N := Rnum) v w = Ok b -> (b = true <-> same_widths v w).
Proof.
  unfold widths_stall, same_widths. intros Hb.
  destruct (mapM _ _) as [bs|] eqn:Em; [|discriminate]. injection Hb as <-.
  apply mapM_inv in Em. destruct Em as (Lb & Em). rewrite seq_length in Lb.
  assert (K : forall i, (i < List.length v)%nat -> exists b, nth_error bs i = Some b /\ (b = true <-> Rabs (nth i v 0 - nth i w 0) / nth i v 0 <= 5 / 100)).
  { intros i Hi. destruct (Em i i) as (b & Hb & Eb).
    { rewrite (nth_error_nth' _ 0%nat) by (rewrite seq_length; exact Hi). rewrite seq_nth by exact Hi. reflexivity. }
    exists b. split; [exact Hb|]. unfold at_ in Eb. destruct (nth_error v i) as [x|] eqn:Ex; [|discriminate].
    cbn [bind] in Eb. destruct (nth_error w i) as [y|] eqn:Ey; [|discriminate]. cbn [bind] in Eb.
    apply (f_equal (fun r => match r with Ok b => b | Raise _ => false end)) in Eb. cbv beta iota in Eb. rewrite <- Eb.
    etransitivity; [apply Rleb_true|]. rewrite tol5_val, nabs_R. rewrite (nth_error_nth v i 0 Ex), (nth_error_nth w i 0 Ey). reflexivity. }
  split.
  - intros Hf i Hi. destruct (K i Hi) as (b & Hb & Kb). apply Kb. rewrite forallb_forall in Hf. apply Hf. eapply nth_error_In; exact Hb.
  - intros Hs. apply forallb_forall. intros b Hb. apply In_nth_error in Hb. destruct Hb as (i & Hi).
    assert (Li : (i < List.length v)%nat) by (nred; rewrite <- Lb; apply nth_error_Some; congruence).
    destruct (K i Li) as (b' & Hb' & Kb). rewrite Hi in Hb'. injection Hb' as <-. apply Kb, Hs, Li.
Qed.

(** ** the loop, after the rounds [hist] *)
Definition call_of (x : round) (c : call (N := Rnum)) : Prop := used_widths c = Some (rd_widths x) /\ ca_out c = Ok (rd_sol x).
Fixpoint chain (r : list R -> sdict (N := Rnum) -> res (list R * option R)) (w : list R) (l : list round) : Prop :=
  match l with
  | [] => True
  | x :: l' => rd_widths x = w /\ r w (rd_sol x) = Ok (rd_next x, rd_err x) /\ chain r (rd_next x) l'
  end.
Definition at_round (hist : list round) (neww : list R) (err : option R) (old : list R) (sol : option (sdict (N := Rnum))) : Prop :=
  match rev hist with
  | [] => sol = None
  | x :: _ => neww = rd_next x /\ err = rd_err x /\ old = rd_widths x /\ sol = Some (rd_sol x) /\ ~ converged (h_tol H) err
  end.
Lemma over_last hist x : over (h_tol H) (hist ++ [x]) <->
  converged (h_tol H) (rd_err x) \/ settled (map rd_err (hist ++ [x])) \/ same_widths (rd_next x) (rd_widths x).
Proof.
  unfold over. split.
  - intros (pre & y & E0 & K). apply app_inj_tail in E0. destruct E0 as (-> & ->). exact K.
  - intros K. exists hist, x. auto.
Qed.
Lemma settled_five l : settled (map rd_err l) -> (4 < List.length l)%nat.
Proof.
  intros (pre & a & b & c & d & E0 & Hp & _). apply (f_equal (@List.length _)) in E0. rewrite map_length, app_length in E0. cbn in E0.
  destruct pre; [congruence|]. cbn in E0. lia.
Qed.

Lemma loop_run options n : forall hist init neww err old sol s s' out,
  st_iter s = List.length hist -> at_round hist neww err old sol ->
  st_info s = numbered 1 (if Nat.eqb n 0 then hist else removelast hist) ->
  (hist <> [] -> n = 0%nat -> st_sw s = Some old) ->
  hloop E mp H options n (List.length hist) init neww err old sol s = (s', Ok (Some out)) ->
  exists more new, st_calls s' = st_calls s ++ new /\ Forall2 call_of more new /\ (List.length more <= n)%nat /\
    chain (rule mp H options) neww more /\
    (forall pre post, hist ++ more = pre ++ post -> (List.length hist <= List.length pre)%nat -> post <> [] -> ~ over (h_tol H) pre) /\
    (List.length more = n \/ over (h_tol H) (hist ++ more)) /\
    st_info s' = numbered 1 (hist ++ more) /\ st_iter s' = List.length (hist ++ more) /\
    exists pre x, hist ++ more = pre ++ [x] /\ rd_sol x = out /\ st_sw s' = Some (rd_widths x).
Proof.
  induction n as [|n IH]; intros hist init neww err old sol s s' out Hit Hat Hinfo Hsw Hr.
  - injection Hr as <- ->. exists [], []. rewrite !app_nil_r. cbn. split; [auto|]. split; [constructor|]. split; [lia|]. split; [auto|].
    split. { intros pre post Ep Hl Hp. exfalso. apply (f_equal (@List.length _)) in Ep. rewrite app_length in Ep. destruct post; [congruence|cbn in Ep; lia]. }
    split; [auto|]. split; [exact Hinfo|]. split; [exact Hit|].
    destruct hist as [|x hist _] using rev_ind; [discriminate Hat|]. unfold at_round in Hat. rewrite rev_unit in Hat. destruct Hat as (_ & _ & -> & Es & _).
    exists hist, x. split; [auto|]. split; [congruence|]. apply Hsw; [destruct hist; discriminate|reflexivity].
  - clear Hsw. cbn [Nat.eqb] in Hinfo.
    assert (Hh : hist = [] \/ exists pre x, hist = pre ++ [x]) by (destruct hist as [|x hist _] using rev_ind; [auto|right; eauto]).
    assert (Stay : forall pre post, hist ++ [] = pre ++ post -> (List.length hist <= List.length pre)%nat -> post <> [] -> ~ over (h_tol H) pre).
    { intros pre post Ep Hl Hp. exfalso. apply (f_equal (@List.length _)) in Ep. rewrite !app_length in Ep. destruct post; [congruence|cbn in Ep; lia]. }
    cbn [hloop] in Hr. unfold mbind at 1, set_sw at 1 in Hr. unfold mbind at 1, get at 1 in Hr. cbn [st_iter st_info] in Hr.
    set (s0 := Ost (st_solver s) (Some neww) (st_iter s) (st_info s) (st_calls s) (st_dicts s)) in *.
    apply mbind_inv in Hr.
    assert (T1 : forall s1 b, (if Nat.ltb 0 (st_iter s) then
                   mbind (set_info (dset Nat.eqb (st_info s) (st_iter s) err)) (fun _ =>
                   (if Nat.ltb 4 (st_iter s) then lift (error_stalls (dset Nat.eqb (st_info s) (st_iter s) err) err) else ret false))
                 else ret false) s0 = (s1, Ok b) ->
      s1 = Ost (st_solver s) (Some neww) (List.length hist) (numbered 1 hist) (st_calls s) (st_dicts s) /\
      (b = true <-> settled (map rd_err hist))).
    { intros s1 b. destruct Hh as [->|(pre & x & ->)].
      - rewrite Hit. cbn. intros [= <- <-]. unfold s0. rewrite Hit, Hinfo. split; [reflexivity|].
        split; [discriminate|]. intros K. apply (settled_five []) in K. cbn in K. lia.
      - unfold at_round in Hat. rewrite rev_unit in Hat. destruct Hat as (_ & -> & _). rewrite removelast_last in Hinfo.
        assert (Ei : st_iter s = S (List.length pre)) by (rewrite Hit, app_length; cbn; lia).
        rewrite Hinfo, Ei, dset_numbered. replace (Nat.ltb 0 (S (List.length pre))) with true by reflexivity.
        unfold mbind, set_info. unfold s0. cbn [st_solver st_sw st_iter st_info st_calls st_dicts]. rewrite Ei.
        replace (List.length (pre ++ [x])) with (S (List.length pre)) by (rewrite app_length; cbn; lia).
        destruct (Nat.ltb_spec 4 (S (List.length pre))) as [L|L].
        + unfold lift. intros K. injection K as <- K. split; [reflexivity|]. apply stalls_R; [rewrite app_length; cbn; lia|exact K].
        + intros [= <- <-]. split; [reflexivity|]. split; [discriminate|]. intros K. apply settled_five in K. rewrite app_length in K. cbn in K. lia. }
    assert (Stop : forall s1, st_calls s1 = st_calls s -> st_info s1 = numbered 1 hist -> st_iter s1 = List.length hist ->
       hist <> [] -> over (h_tol H) hist ->
       mbind (set_sw old) (fun _ => ret sol) s1 = (s', Ok (Some out)) -> 
       exists more new, st_calls s' = st_calls s ++ new /\ Forall2 call_of more new /\ (List.length more <= S n)%nat /\
    chain (rule mp H options) neww more /\
    (forall pre post, hist ++ more = pre ++ post -> (List.length hist <= List.length pre)%nat -> post <> [] -> ~ over (h_tol H) pre) /\
    (List.length more = S n \/ over (h_tol H) (hist ++ more)) /\
    st_info s' = numbered 1 (hist ++ more) /\ st_iter s' = List.length (hist ++ more) /\
    exists pre x, hist ++ more = pre ++ [x] /\ rd_sol x = out /\ st_sw s' = Some (rd_widths x)).
    { intros s1 K1 K2 K3 K4 K5 K. injection K as <- Es. exists [], []. split; [cbn; rewrite app_nil_r; exact K1|]. split; [constructor|]. split; [cbn; lia|].
      split; [exact I|]. split; [exact Stay|]. rewrite app_nil_r. split; [auto|]. split; [exact K2|]. split; [exact K3|].
      destruct Hh as [->|(pre & x & ->)]; [congruence|]. exists pre, x. unfold at_round in Hat. rewrite rev_unit in Hat. destruct Hat as (_ & _ & -> & Es' & _).
      split; [auto|]. split; [congruence|reflexivity]. }
    destruct Hr as [(b1 & s1 & H1 & Hr)|(e & _ & K)]; [|discriminate K].
    destruct (T1 _ _ H1) as (-> & B1). clear T1 H1.
    destruct b1.
    { eapply Stop; [| | | | |exact Hr]; [reflexivity|reflexivity|reflexivity| |].
      - intros ->. assert (K : settled (map rd_err [])) by (apply B1; reflexivity). apply (settled_five []) in K. cbn in K. lia.
      - destruct Hh as [->|(pre & x & ->)].
        + assert (K : settled (map rd_err [])) by (apply B1; reflexivity). apply (settled_five []) in K. cbn in K. lia.
        + apply over_last. right. left. apply B1. reflexivity. }
    apply mbind_inv in Hr. destruct Hr as [(b2 & s2 & H2 & Hr)|(e & _ & K)]; [|discriminate K].
    assert (B2 : b2 = true <-> exists pre x, hist = pre ++ [x] /\ same_widths (rd_next x) (rd_widths x)).
    { destruct Hh as [->|(pre & x & ->)].
      - cbn in H2. injection H2 as <- <-. split; [discriminate|]. intros (pre & x & K & _). destruct pre; discriminate.
      - replace (Nat.ltb 0 (List.length (pre ++ [x]))) with true in H2 by (symmetry; apply Nat.ltb_lt; rewrite app_length; cbn; lia).
        injection H2 as _ H2. unfold at_round in Hat. rewrite rev_unit in Hat. destruct Hat as (-> & _ & -> & _).
        apply widths_R in H2. rewrite H2. split; [eauto|]. intros (pre' & x' & K & K'). apply app_inj_tail in K. destruct K as (_ & ->). exact K'. }
    assert (E2 : s2 = Ost (st_solver s) (Some neww) (List.length hist) (numbered 1 hist) (st_calls s) (st_dicts s)).
    { destruct (Nat.ltb 0 _); injection H2 as <- _; reflexivity. } subst s2. clear H2.
    destruct b2.
    { destruct B2 as (B2 & _). destruct (B2 eq_refl) as (pre & x & E0 & K). 
      eapply Stop; [| | | | |exact Hr]; [reflexivity|reflexivity|reflexivity|rewrite E0; destruct pre; discriminate|rewrite E0; apply over_last; auto]. }
    clear Stop.
    assert (Go : ~ over (h_tol H) hist).
    { destruct Hh as [->|(pre & x & ->)]; [intros (pre & x & K & _); destruct pre; discriminate|].
      rewrite over_last. intros [K|[K|K]].
      - unfold at_round in Hat. rewrite rev_unit in Hat. destruct Hat as (_ & -> & _ & _ & Hc). exact (Hc K).
      - apply B1 in K. discriminate.
      - assert (X : false = true) by (apply B2; eauto). discriminate. }
    unfold mbind at 1, lift at 1 in Hr.
    destruct (warm_start mp init) as [i|e] eqn:Ei; [|discriminate].
    unfold mbind at 1, current_solver, mbind at 1, get at 1 in Hr. cbn [st_solver] in Hr.
    destruct (st_solver s) as [v|] eqn:Ev; [|discriminate].
    unfold ret at 1 in Hr. unfold mbind at 1, call_solver in Hr. cbn [st_solver st_sw st_iter st_info st_calls st_dicts] in Hr.
    set (inp := dset String.eqb i "p" neww) in *. destruct (e_run E (st_calls s) v inp) as [o|] eqn:Eo; [|discriminate].
    apply mbind_inv in Hr. destruct Hr as [((w & er) & s4 & H4 & Hr)|(e & _ & K)]; [|discriminate K].
    destruct (widths_inv _ _ _ _ _ _ _ H4) as ((Q1 & Q2 & Q3 & Q4 & Q5) & Q6). cbn in Q1, Q2, Q3, Q4, Q5.
    specialize (Q6 _ eq_refl). apply (widths_rule _ _ _ _ neww) in H4; [|reflexivity]. symmetry in H4.
    unfold mbind at 1, get at 1 in Hr. unfold mbind at 1, set_iter in Hr. rewrite Q1, Q2, Q3, Q4, Q5, Q6 in Hr.
    unfold mbind at 1, lift at 1 in Hr. cbn [fst snd] in Hr.
    destruct (below_tol H er) as [b|e] eqn:Eb; [|discriminate]. pose proof (below_tol_R _ _ Eb) as B3. clear Eb.
    unfold mbind at 1, get at 1 in Hr. cbn [st_solver st_sw st_iter st_info st_calls st_dicts] in Hr.
    set (c := Call v inp (Ok o)) in *. set (x := Round neww o w er).
    assert (Cx : call_of x c).
    { split; [|reflexivity]. unfold used_widths. cbn. unfold inp. rewrite dget_dset, String.eqb_refl. reflexivity. }
    assert (Dn : dset Nat.eqb (numbered 1 hist) (List.length hist + 1)%nat er = numbered 1 (hist ++ [x])).
    { rewrite Nat.add_1_r. exact (dset_numbered hist x). }
    destruct b.
    + injection Hr as <- <-. exists [x], [c]. cbn [st_calls st_info st_iter st_sw]. split; [reflexivity|]. split; [constructor; [exact Cx|constructor]|]. split; [cbn; lia|].
      split; [cbn; auto|]. split.
      { intros pre post Ep Hl Hp. destruct post as [|y post _] using rev_ind; [congruence|]. rewrite app_assoc in Ep. apply app_inj_tail in Ep. destruct Ep as (-> & _).
        rewrite app_length in Hl. destruct post as [|z post]; [rewrite app_nil_r in Go; exact Go|]. cbn in Hl. lia. }
      split; [right; apply over_last; left; apply B3; reflexivity|]. split; [exact Dn|]. split; [rewrite app_length; reflexivity|].
      exists hist, x. auto.
    + apply mbind_inv in Hr. destruct Hr as [([] & s6 & H6 & Hr)|(e & _ & K)]; [|discriminate K].
      assert (E6 : s6 = Ost (Some v) (Some neww) (List.length hist + 1)%nat (if Nat.eqb n 0 then numbered 1 (hist ++ [x]) else numbered 1 hist) (st_calls s ++ [c]) (st_dicts s)).
      { destruct (Nat.eqb n 0); injection H6 as <-; [rewrite Dn|]; reflexivity. }
      subst s6. clear H6. replace (List.length hist + 1)%nat with (List.length (hist ++ [x])) in Hr by (rewrite app_length; reflexivity).
      apply IH in Hr; [|reflexivity| | |intros _ ->; reflexivity].
      2:{ unfold at_round. rewrite rev_unit. cbn. split; [auto|]. split; [auto|]. split; [auto|]. split; [auto|]. intros K. apply B3 in K. discriminate. }
      2:{ cbn. rewrite removelast_last. destruct (Nat.eqb n 0); reflexivity. }
      destruct Hr as (more & new & N1 & N2 & N3 & N4 & N5 & N6 & N7 & N8 & N9). exists (x :: more), (c :: new).
      cbn [st_calls] in N1. rewrite <- app_assoc in N5, N6, N7, N8, N9, N1. cbn [app] in *.
      split; [exact N1|]. split; [constructor; assumption|]. split; [cbn; lia|]. split; [cbn; auto|].
      split. { intros pre post Ep Hl Hp. destruct (Nat.eq_dec (List.length hist) (List.length pre)) as [El|El].
        - assert (K : pre = hist). { apply (f_equal (firstn (List.length hist))) in Ep. rewrite !firstn_app, El, Nat.sub_diag, !firstn_O, !app_nil_r, firstn_all, <- El, firstn_all in Ep. auto. }
          subst pre. exact Go.
        - apply (N5 pre post Ep); [rewrite app_length; cbn; lia|exact Hp]. }
      split; [destruct N6; [left; cbn; lia|auto]|]. auto.
Qed.

(** ** before the loop *)
Lemma h_start a n s s' sol : a_nopts a <> a_mopts a -> (a_mopts a < List.length (st_dicts s))%nat ->
  h_solve E mp mute H a n s = (s', Ok sol) ->
  exists s3, st_iter s3 = 0%nat /\ st_info s3 = [] /\ st_calls s3 = st_calls s /\ st_sw s3 = st_sw s /\
    let options := call_options H a s in
    mbind (h_widths mp H (a_init a) options) (fun r =>
    mbind (lift (below_tol H (snd r))) (fun b =>
    if b : bool then mbind (set_info (dset Nat.eqb [] 0%nat (snd r))) (fun _ => ret (a_init a))
    else hloop E mp H options n 0 (a_init a) (fst r) (snd r) [] None)) s3 = (s', Ok (Some sol)).
Proof.
  intros Hne Hlen Hr. unfold h_solve in Hr. unfold mbind at 1, get at 1 in Hr.
  assert (R : forall (A : Type) (l : list A) i x, List.length (replace_nth l i x) = List.length l).
  { intros A l; induction l as [|y l IHl]; intros [|i] x; cbn; auto. }
  assert (R2 : forall (A : Type) (l : list A) i j x d, i <> j -> nth j (replace_nth l i x) d = nth j l d).
  { intros A l; induction l as [|y l IHl]; intros [|i] [|j] x d Hij; cbn; auto; lia. }
  apply mbind_inv in Hr. destruct Hr as [([] & s1 & H1 & Hr)|(e & _ & K)]; [|discriminate K].
  assert (T : st_calls s1 = st_calls s /\ st_sw s1 = st_sw s /\ dict_at s1 (a_mopts a) = dict_at s (a_mopts a) /\ List.length (st_dicts s1) = List.length (st_dicts s)).
  { assert (T' : forall s1 x, mbind (if dmem String.eqb (dict_at s (a_nopts a)) "ipopt.print_level" then ret tt
                    else dict_write (a_nopts a) "ipopt.print_level" (VInt 0)) (fun _ =>
             mbind (get (N := Rnum)) (fun s => create_solver E (a_solver a) (dict_at s (a_nopts a)))) s = (s1, x) ->
       st_calls s1 = st_calls s /\ st_sw s1 = st_sw s /\ dict_at s1 (a_mopts a) = dict_at s (a_mopts a) /\ List.length (st_dicts s1) = List.length (st_dicts s)).
    { clear s1 H1 Hr. intros s1 x Hx. apply mbind_inv in Hx. destruct Hx as [([] & s2 & X1 & X2)|(e & X1 & ->)].
      - unfold mbind, get in X2. unfold create_solver, mbind, lift in X2.
        assert (X3 : st_calls s2 = st_calls s /\ st_sw s2 = st_sw s /\ dict_at s2 (a_mopts a) = dict_at s (a_mopts a) /\ List.length (st_dicts s2) = List.length (st_dicts s)).
        { destruct (dmem _ _ _); injection X1 as <-; cbn; auto. split; [auto|]. split; [auto|]. split; [apply R2; exact Hne|apply R]. }
        assert (X4 : st_calls s1 = st_calls s2 /\ st_sw s1 = st_sw s2 /\ st_dicts s1 = st_dicts s2).
        { destruct (e_build E); [|injection X2 as <- <-; auto]. destruct (e_nlpsol E _ _); injection X2 as <- <-; auto. }
        unfold dict_at in *. destruct X4 as (-> & -> & ->). exact X3.
      - destruct (dmem _ _ _); discriminate. }
    revert H1. destruct (st_solver s) as [v|]; [destruct (a_reinit a)|]; intros Hx; [eapply T'; exact Hx| |eapply T'; exact Hx].
    injection Hx as <-. auto. }
  destruct T as (K1 & K2 & K3 & K4). clear H1.
  unfold mbind at 1, get at 1 in Hr. apply mbind_inv in Hr. destruct Hr as [([] & s2 & H1 & Hr)|(e & _ & K)]; [|discriminate K].
  assert (T : st_calls s2 = st_calls s1 /\ st_sw s2 = st_sw s1 /\ dict_at s2 (a_mopts a) = call_options H a s).
  { revert H1. unfold call_options. rewrite <- K3. destruct (dict_at s1 (a_mopts a)) as [|y d] eqn:Ed; [|intros [= <-]; auto].
    intros [= <-]. cbn. split; [auto|]. split; [auto|]. unfold dict_at in *. cbn [st_dicts].
    assert (L1 : Nat.ltb (a_mopts a) (List.length (st_dicts s1)) = true) by (apply Nat.ltb_lt; lia).
    rewrite !replace_nth_nth, R, L1. rewrite Ed. reflexivity. }
  destruct T as (K5 & K6 & K7). clear H1.
  unfold mbind at 1, set_iter in Hr. unfold mbind at 1, set_info at 1 in Hr. unfold mbind at 1, get at 1 in Hr.
  cbv zeta in Hr. cbn [st_solver st_sw st_iter st_info st_calls st_dicts] in Hr.
  set (s3 := Ost (st_solver s2) (st_sw s2) 0 [] (st_calls s2) (st_dicts s2)) in Hr.
  exists s3. split; [reflexivity|]. split; [reflexivity|]. split; [cbn; congruence|]. split; [cbn; congruence|]. cbv zeta.
  change (dict_at s3 (a_mopts a)) with (dict_at s2 (a_mopts a)) in Hr. rewrite K7 in Hr.
  unfold mbind at 1 in Hr. unfold mbind at 1. destruct (h_widths mp H (a_init a) (call_options H a s) s3) as (s4 & [r|e]); [|discriminate].
  unfold mbind at 1 in Hr. unfold mbind at 1. unfold lift at 1 in Hr. unfold lift at 1. destruct (below_tol H (snd r)) as [b|e]; [|discriminate].
  apply mbind_inv in Hr. destruct Hr as [(so & s5 & H5 & Hr)|(e & _ & K)]; [|discriminate K]. rewrite H5.
  destruct so as [so|]; [|discriminate]. unfold mbind, lift, ret in Hr. destruct (print_cost mute so); [|discriminate]. congruence.
Qed.

Lemma start_R a s s3 s4 r : st_sw s3 = st_sw s -> h_widths mp H (a_init a) (call_options H a s) s3 = (s4, r) ->
  start mp H (call_options H a s) (st_sw s) (a_init a) = r /\ st_iter s4 = st_iter s3 /\ st_info s4 = st_info s3 /\ st_calls s4 = st_calls s3 /\
  (forall x w e, a_init a = Some x -> r = Ok (w, Some e) -> st_sw s4 = Some (match st_sw s with Some v => v | None => even mp end)).
Proof.
  intros Hw Hr. destruct (widths_inv _ _ _ _ _ _ _ Hr) as ((_ & I1 & I2 & I3 & _) & I4). split; [|split; [auto|split; [auto|split; [auto|]]]].
  2:{ intros x w e Ea Er. rewrite Ea in Hr. rewrite Hw in I4. destruct (st_sw s) as [v|] eqn:Ew; [apply I4; reflexivity|].
      revert Hr. unfold h_widths. destruct (Nat.eqb (mp_nseg mp) 1); [intros [= <- <-]; discriminate Er|].
      unfold mbind at 1, get. rewrite Hw. unfold mbind at 1, set_sw. rewrite even_R.
      destruct (dget String.eqb (call_options H a s) "method") as [[]|]; try (intros [= <- <-]; reflexivity).
      destruct (String.eqb s0 "control_slope"); [intros [= <- <-]; reflexivity|]. destruct (String.eqb s0 "residual"); intros [= <- <-]; reflexivity. }
  unfold start. destruct (a_init a) as [x|].
  - destruct (st_sw s) as [w|] eqn:Ew; [symmetry; eapply widths_rule; [|exact Hr]; congruence|].
    unfold rule. revert Hr. unfold h_widths. destruct (Nat.eqb (mp_nseg mp) 1) eqn:E1; [intros [= <- <-]; rewrite even_R; reflexivity|].
    unfold mbind at 1, get. rewrite Hw. unfold mbind at 1, set_sw. intros Hr.
    pose (s5 := Ost (st_solver s3) (Some (even mp)) (st_iter s3) (st_info s3) (st_calls s3) (st_dicts s3)).
    assert (Hr' : h_widths mp H (Some x) (call_options H a s) s5 = (s4, r)).
    { unfold h_widths. rewrite E1. unfold mbind at 1, get. unfold s5. cbn [st_sw]. unfold mbind, ret. rewrite even_R in Hr. rewrite !even_R. exact Hr. }
    symmetry. etransitivity; [eapply (widths_rule x _ s5); [reflexivity|exact Hr']|]. unfold rule. rewrite E1. reflexivity.
  - unfold h_widths in Hr. destruct (Nat.eqb (mp_nseg mp) 1); injection Hr as <- <-; rewrite even_R; reflexivity.
Qed.

Lemma chain_rounds options w l : chain (rule mp H options) w l ->
  (forall x l', l = x :: l' -> rd_widths x = w) /\
  (forall pre x y post, l = pre ++ x :: y :: post -> rd_widths y = rd_next x) /\
  (forall x, In x l -> rule mp H options (rd_widths x) (rd_sol x) = Ok (rd_next x, rd_err x)).
Proof.
  revert w. induction l as [|z l IH]; intros w; cbn.
  - intros _. split; [discriminate|]. split; [intros [] ? ? ?; discriminate|intros ? []].
  - intros (E1 & E2 & E3). destruct (IH _ E3) as (A1 & A2 & A3). split; [intros x l' [= <- <-]; exact E1|]. split.
    + intros [|p pre] x y post [= -> ->]; [apply (A1 y post); reflexivity|apply (A2 pre x y post); reflexivity].
    + intros x [<-|Hx]; [rewrite E1; exact E2|auto].
Qed.

(** the theorem *)
Lemma solve_stops a n s s' sol : a_nopts a <> a_mopts a -> (a_mopts a < List.length (st_dicts s))%nat ->
  h_solve E mp mute H a n s = (s', Ok sol) ->
  exists w e, start mp H (call_options H a s) (st_sw s) (a_init a) = Ok (w, e) /\
  ((converged (h_tol H) e /\ a_init a = Some sol /\ st_calls s' = st_calls s /\ st_info s' = [(0%nat, e)] /\
      st_iter s' = 0%nat /\ st_sw s' = Some (match st_sw s with Some v => v | None => even mp end)) \/
   (~ converged (h_tol H) e /\ exists l new, refinement (rule mp H (call_options H a s)) (h_tol H) n w l /\
      st_calls s' = st_calls s ++ new /\ Forall2 (fun x c => used_widths c = Some (rd_widths x) /\ ca_out c = Ok (rd_sol x)) l new /\
      st_info s' = combine (seq 1 (List.length l)) (map rd_err l) /\
      st_iter s' = List.length l /\ exists pre x, l = pre ++ [x] /\ sol = rd_sol x /\ st_sw s' = Some (rd_widths x))).
Proof.
  intros Hne Hlen Hr. destruct (h_start _ _ _ _ _ Hne Hlen Hr) as (s3 & I1 & I2 & I3 & I4 & K). clear Hr. cbv zeta in K.
  apply mbind_inv in K. destruct K as [((w & e) & s4 & H4 & K)|(e & _ & K)]; [|discriminate K].
  destruct (start_R _ _ _ _ _ I4 H4) as (St & J1 & J2 & J3 & J4). clear H4. exists w, e. split; [exact St|]. cbn [fst snd] in K.
  unfold mbind at 1, lift at 1 in K. destruct (below_tol H e) as [b|] eqn:Eb; [|discriminate]. pose proof (below_tol_R _ _ Eb) as B. clear Eb.
  destruct b.
  - left. split; [apply B; reflexivity|]. injection K as <- K. split; [exact K|]. cbn. split; [congruence|]. split; [reflexivity|].
    split; [congruence|]. destruct e as [e|]; [|exfalso; destruct B as [B _]; destruct (B eq_refl) as (y & Hy & _); discriminate Hy]. apply (J4 sol w e K eq_refl).
  - right. split; [intros X; apply B in X; discriminate|].
    apply (loop_run (call_options H a s) n []) in K; [|cbn; congruence|reflexivity|rewrite J2, I2; destruct (Nat.eqb n 0); reflexivity|congruence].
    cbn [app] in K. destruct K as (l & new & N1 & N2 & N3 & N4 & N5 & N6 & N7 & N8 & (pre & x & N9 & N10 & N11)).
    exists l, new. destruct (chain_rounds _ _ _ N4) as (A1 & A2 & A3). split.
    { constructor; auto.
      - split; [rewrite N9, app_length; cbn; lia|exact N3].
      - intros p q Ep Hq. apply (N5 p q Ep); [cbn; lia|exact Hq]. }
    split; [congruence|]. split; [exact N2|]. split; [exact N7|]. split; [exact N8|]. exists pre, x. auto.
Qed.
End L.
