(** Lemmas on the refinement loop of mpopt_h_adaptive. *)
From Coq Require Import Reals Lra Lia Bool String List Arith ZArith.
From Verif Require Import Num PyList Mat Poly Roots Colloc Ocp Transcribe Solve SpecSolve NumR ListR NlpMain SolveR.
Import ListNotations.
Open Scope string_scope.
Open Scope list_scope.

Section H.
Context {N : num}.
Variables (E : env (N := N)) (mp : mpo N) (mute : bool) (H : hcfg (N := N)).

(** the part of the state that computing widths does not touch *)
Definition same_run (s s' : ost (N := N)) : Prop :=
  st_solver s' = st_solver s /\ st_iter s' = st_iter s /\ st_info s' = st_info s /\ st_calls s' = st_calls s /\ st_dicts s' = st_dicts s.
Lemma widths_inv sol options s s' r : h_widths mp H sol options s = (s', r) ->
  same_run s s' /\ (forall w, st_sw s = Some w -> st_sw s' = Some w).
Proof.
  unfold h_widths. destruct (Nat.eqb (mp_nseg mp) 1); [intros [= <- <-]; unfold same_run; auto 10|].
  destruct sol as [sol|]; [|intros [= <- <-]; unfold same_run; auto 10].
  unfold mbind at 1, get. intros Hr. apply mbind_inv in Hr. destruct Hr as [([] & s1 & H1 & H2)|(e & H1 & H2)].
  - assert (K : same_run s s1 /\ forall w, st_sw s = Some w -> st_sw s1 = Some w).
    { unfold same_run. destruct (st_sw s) eqn:Ew; injection H1 as <-; cbn; rewrite ?Ew; auto 10. split; [auto 10|discriminate]. }
    assert (Es : s' = s1); [|subst; exact K].
    destruct (dget String.eqb options "method") as [[]|]; try (injection H2 as <- <-; reflexivity).
    destruct (String.eqb s0 "control_slope"); [injection H2 as <- <-; reflexivity|].
    destruct (String.eqb s0 "residual"); injection H2 as <- <-; reflexivity.
  - destruct (st_sw s); discriminate.
Qed.

(** what the loop does, from any point of it *)
Definition loop_ok (n it : nat) (init : option sdict) (old : list N) (sol : option sdict) (s s' : ost (N := N)) (r : res (option sdict)) : Prop :=
  exists new, st_calls s' = st_calls s ++ new /\ (List.length new <= n)%nat /\
    st_solver s' = st_solver s /\ st_dicts s' = st_dicts s /\
    (forall c, In c new -> st_solver s = Some (ca_solver c)) /\ chained mp init new /\
    (forall r0, r = Ok r0 ->
       st_iter s' = (st_iter s + List.length new)%nat /\
       (new = [] -> r0 = sol /\ (n = 0%nat -> st_sw s' = st_sw s) /\ ((0 < n)%nat -> st_sw s' = Some old) /\ (n = 0%nat \/ (0 < it)%nat \/ (0 < st_iter s)%nat)) /\
       (new <> [] -> exists pre c out, new = pre ++ [c] /\ ca_out c = Ok out /\ r0 = Some out /\ st_sw s' = used_widths c /\ used_widths c <> None)).

Lemma loop_inv options n : forall it init neww err old sol s s' r,
  hloop E mp H options n it init neww err old sol s = (s', r) -> loop_ok n it init old sol s s' r.
Proof.
  induction n as [|n IH]; intros it init neww err old sol s s' r Hr.
  - injection Hr as <- <-. exists []. rewrite app_nil_r. cbn. split; [auto|]. split; [lia|]. do 2 (split; [auto|]). split; [tauto|]. split; [auto|].
    intros r0 [= <-]. split; [lia|]. split; [|congruence]. intros _. split; [auto|]. split; [auto|]. split; [lia|]. auto.
  - cbn [hloop] in Hr. unfold mbind at 1, set_sw at 1 in Hr. unfold mbind at 1, get at 1 in Hr. cbn [st_iter st_info] in Hr.
    set (s0 := Ost (st_solver s) (Some neww) (st_iter s) (st_info s) (st_calls s) (st_dicts s)) in *.
    apply mbind_inv in Hr.
    (* the first test *)
    assert (T1 : forall s1 b, (if Nat.ltb 0 (st_iter s) then
                   mbind (set_info (dset Nat.eqb (st_info s) (st_iter s) err)) (fun _ =>
                   (if Nat.ltb 4 (st_iter s) then lift (error_stalls (dset Nat.eqb (st_info s) (st_iter s) err) err) else ret false))
                 else ret false) s0 = (s1, b) ->
      st_solver s1 = st_solver s /\ st_sw s1 = Some neww /\ st_iter s1 = st_iter s /\ st_calls s1 = st_calls s /\ st_dicts s1 = st_dicts s /\
      (b = Ok true -> (0 < st_iter s)%nat)).
    { intros s1 b. destruct (Nat.ltb_spec 0 (st_iter s)).
      - unfold mbind, set_info. destruct (Nat.ltb 4 _); intros [= <- <-]; cbn; auto 10.
      - intros [= <- <-]. cbn. do 5 (split; [auto|]). discriminate. }
    assert (Nil : forall s1 e, st_solver s1 = st_solver s -> st_calls s1 = st_calls s -> st_dicts s1 = st_dicts s -> loop_ok (S n) it init old sol s s1 (Raise e)).
    { intros s1 e K1 K2 K3. exists []. rewrite app_nil_r. cbn. split; [auto|]. split; [lia|]. split; [auto|]. split; [auto|]. split; [tauto|]. split; [auto|].
      intros r0 H0. discriminate. }
    assert (Stop : forall s1, st_solver s1 = st_solver s -> st_calls s1 = st_calls s -> st_dicts s1 = st_dicts s -> st_iter s1 = st_iter s ->
       (0 < it)%nat \/ (0 < st_iter s)%nat ->
       mbind (set_sw old) (fun _ => ret sol) s1 = (s', r) -> loop_ok (S n) it init old sol s s' r).
    { intros s1 K1 K2 K3 K4 K5 [= <- <-]. exists []. rewrite app_nil_r. cbn. split; [auto|]. split; [lia|]. split; [auto|]. split; [auto|]. split; [tauto|]. split; [auto|].
      intros r0 [= <-]. split; [lia|]. split; [|congruence]. intros _. split; [auto|]. split; [lia|]. split; [auto|]. tauto. }
    destruct Hr as [(b1 & s1 & H1 & Hr)|(e & H1 & ->)].
    2:{ destruct (T1 _ _ H1) as (K1 & _ & _ & K2 & K3 & _). apply Nil; auto. }
    destruct (T1 _ _ H1) as (K1 & K2 & K3 & K4 & K5 & K6). clear T1 H1.
    destruct b1; [apply (Stop s1); auto|].
    (* the second test *)
    apply mbind_inv in Hr.
    assert (T2 : forall s2 b, (if Nat.ltb 0 it then lift (widths_stall neww old) else ret false) s1 = (s2, b) -> s2 = s1 /\ (b = Ok true -> (0 < it)%nat)).
    { intros s2 b. destruct (Nat.ltb_spec 0 it); intros [= <- <-]; split; auto; discriminate. }
    destruct Hr as [(b2 & s2 & H2 & Hr)|(e & H2 & ->)].
    2:{ destruct (T2 _ _ H2) as (-> & _). apply Nil; auto. }
    destruct (T2 _ _ H2) as (-> & K7). clear T2 H2.
    destruct b2; [apply (Stop s1); auto|].
    clear Stop. unfold mbind at 1, lift at 1 in Hr.
    destruct (warm_start mp init) as [i|e] eqn:Ei; [|injection Hr as <- <-; apply Nil; auto].
    unfold mbind at 1, current_solver, mbind at 1, get at 1 in Hr.
    destruct (st_solver s1) as [v|] eqn:Ev; cbn [ret lift] in Hr; [|injection Hr as <- <-; apply Nil; auto; congruence].
    unfold ret at 1 in Hr. unfold mbind at 1, call_solver in Hr.
    set (inp := dset String.eqb i "p" neww) in *. set (out := e_run E (st_calls s1) v inp) in *. set (c := Call v inp out) in *.
    set (s3 := Ost _ _ _ _ (st_calls s1 ++ [c]) _) in Hr.
    assert (C1 : forall l, chained mp init (c :: l) <-> match out with Ok o => chained mp (Some o) l | Raise _ => l = [] end).
    { intros l. cbn. split; [tauto|]. intros Hl. split; [|exact Hl]. exists i, neww. auto. }
    assert (Hv : st_solver s = Some v) by congruence.
    assert (One : forall s' e, st_solver s' = st_solver s -> st_calls s' = st_calls s ++ [c] -> st_dicts s' = st_dicts s -> loop_ok (S n) it init old sol s s' (Raise e)).
    { intros s4 e Q1 Q2 Q3. exists [c]. split; [auto|]. split; [cbn; lia|]. split; [auto|]. split; [auto|].
      split; [intros c' [<-|[]]; exact Hv|]. split; [apply C1; destruct out; [exact I|reflexivity]|]. intros r0 H0; discriminate. }
    destruct out as [o|e] eqn:Eo; [|injection Hr as <- <-; apply One; cbn; congruence].
    apply mbind_inv in Hr. destruct Hr as [((w & er) & s4 & H4 & Hr)|(e & H4 & ->)].
    2:{ destruct (widths_inv _ _ _ _ _ H4) as ((Q1 & Q2 & Q3 & Q4 & Q5) & _). cbn in Q1, Q4, Q5. apply One; congruence. }
    destruct (widths_inv _ _ _ _ _ H4) as ((Q1 & Q2 & Q3 & Q4 & Q5) & Q6). cbn in Q1, Q2, Q3, Q4, Q5.
    specialize (Q6 _ K2). clear H4. rewrite Ev in Q1.
    unfold mbind at 1, get at 1 in Hr. unfold mbind at 1, set_iter in Hr.
    set (s5 := Ost _ _ (st_iter s4 + 1) _ _ _) in Hr. unfold mbind at 1, lift at 1 in Hr. cbn [fst snd] in Hr.
    destruct (below_tol H er) as [b|e]; [|injection Hr as <- <-; apply One; cbn; congruence].
    unfold mbind at 1, get at 1 in Hr.
    assert (U : used_widths c = Some neww) by (unfold used_widths; cbn; unfold inp; rewrite dget_dset, String.eqb_refl; reflexivity).
    assert (Last : forall s6, st_solver s6 = st_solver s -> st_calls s6 = st_calls s ++ [c] -> st_dicts s6 = st_dicts s -> st_iter s6 = (st_iter s + 1)%nat ->
       st_sw s6 = Some neww -> loop_ok (S n) it init old sol s s6 (Ok (Some o))).
    { intros s6 R1 R2 R3 R4 R5. exists [c]. split; [auto|]. split; [cbn; lia|]. split; [auto|]. split; [auto|].
      split; [intros c' [<-|[]]; exact Hv|]. split; [apply C1; exact I|]. intros r0 [= <-]. cbn [List.length]. split; [lia|]. split; [discriminate|].
      intros _. exists [], c, o. split; [auto|]. split; [auto|]. split; [auto|]. split; congruence. }
    destruct b.
    + injection Hr as <- <-. apply Last; cbn; congruence.
    + apply mbind_inv in Hr. destruct Hr as [([] & s6 & H6 & Hr)|(e & H6 & ->)].
      2:{ destruct (Nat.eqb n 0); discriminate. }
      assert (R : st_solver s6 = st_solver s /\ st_calls s6 = st_calls s ++ [c] /\ st_dicts s6 = st_dicts s /\ st_iter s6 = (st_iter s + 1)%nat /\ st_sw s6 = Some neww).
      { destruct (Nat.eqb n 0); injection H6 as <-; cbn; repeat split; congruence. }
      destruct R as (R1 & R2 & R3 & R4 & R5). apply IH in Hr. destruct Hr as (new & N1 & N2 & N3 & N4 & N5 & N6 & N7).
      exists (c :: new). rewrite N1, R2, <- app_assoc. split; [reflexivity|]. split; [cbn; lia|]. split; [congruence|]. split; [congruence|].
      split; [intros c' [<-|Hc]; [exact Hv|rewrite <- R1; auto]|]. split; [apply C1; exact N6|].
      intros r0 ->. destruct (N7 r0 eq_refl) as (M1 & M2 & M3). cbn [List.length]. split; [lia|]. split; [discriminate|]. intros _.
      destruct new as [|c' new].
      * destruct (M2 eq_refl) as (-> & M4 & M5 & _). exists [], c, o. split; [auto|]. split; [auto|]. split; [auto|].
        split; [|congruence]. rewrite U. destruct n; [rewrite M4; auto|apply M5; lia].
      * destruct M3 as (pre & c2 & o2 & M3 & M4); [discriminate|]. exists (c :: pre), c2, o2. split; [cbn; now rewrite M3|]. exact M4.
Qed.

(** before the loop *)
Lemma write_inv i k v s s' r : dict_write (N := N) i k v s = (s', r) ->
  r = Ok tt /\ st_solver s' = st_solver s /\ st_calls s' = st_calls s /\ st_sw s' = st_sw s /\
  st_dicts s' = replace_nth (st_dicts s) i (dset String.eqb (dict_at s i) k v).
Proof. intros [= <- <-]. auto 10. Qed.
Definition h_opts (a : sargs (N := N)) (s : ost (N := N)) : odict (N := N) :=
  let d := dict_at s (a_nopts a) in if dmem String.eqb d "ipopt.print_level" then d else dset String.eqb d "ipopt.print_level" (VInt 0).
Lemma replace_nth_nth {A} (l : list A) i x d : nth i (replace_nth l i x) d = if Nat.ltb i (List.length l) then x else d.
Proof.
  revert i; induction l as [|y l IH]; intros [|i]; cbn; auto. rewrite IH. reflexivity.
Qed.

Lemma h_solve_inv a n s s' r : h_solve E mp mute H a n s = (s', r) ->
  exists new, st_calls s' = st_calls s ++ new /\ (List.length new <= n)%nat /\ chained mp (a_init a) new /\
    (forall c, In c new -> st_solver s' = Some (ca_solver c)) /\
    (a_reinit a = false -> st_solver s <> None -> st_solver s' = st_solver s) /\
    (n = 0%nat -> a_init a = None -> exists e, r = Raise e) /\
    (forall sol, r = Ok sol -> st_iter s' = List.length new /\
       (new = [] -> a_init a = Some sol) /\
       (new <> [] -> exists pre c, new = pre ++ [c] /\ ca_out c = Ok sol /\ st_sw s' = used_widths c /\ used_widths c <> None)).
Proof.
  intros Hr. unfold h_solve in Hr. unfold mbind at 1, get at 1 in Hr.
  assert (Nil : forall s1 e, st_calls s1 = st_calls s -> (a_reinit a = false -> st_solver s <> None -> st_solver s1 = st_solver s) ->
    exists new, st_calls s1 = st_calls s ++ new /\ (List.length new <= n)%nat /\ chained mp (a_init a) new /\
    (forall c, In c new -> st_solver s1 = Some (ca_solver c)) /\
    (a_reinit a = false -> st_solver s <> None -> st_solver s1 = st_solver s) /\
    (n = 0%nat -> a_init a = None -> exists e', Raise e = Raise (A := sdict (N := N)) e') /\
    (forall sol, Raise e = Ok sol -> st_iter s1 = List.length new /\
       (new = [] -> a_init a = Some sol) /\
       (new <> [] -> exists pre c, new = pre ++ [c] /\ ca_out c = Ok sol /\ st_sw s1 = used_widths c /\ used_widths c <> None))).
  { intros s1 e K1 K2. exists []. rewrite app_nil_r. split; [auto|]. split; [cbn; lia|]. split; [exact I|]. split; [intros c []|].
    split; [auto|]. split; [eauto|]. discriminate. }
  apply mbind_inv in Hr.
  (* creation *)
  assert (T : forall s1 x, (match st_solver s, a_reinit a with
         | Some _, false => ret tt
         | _, _ =>
             mbind (if dmem String.eqb (dict_at s (a_nopts a)) "ipopt.print_level" then ret tt
                    else dict_write (a_nopts a) "ipopt.print_level" (VInt 0)) (fun _ =>
             mbind (get (N := N)) (fun s => create_solver E (a_solver a) (dict_at s (a_nopts a)))) end) s = (s1, x) ->
     st_calls s1 = st_calls s /\ (a_reinit a = false -> st_solver s <> None -> st_solver s1 = st_solver s)).
  { assert (T' : forall s1 x, mbind (if dmem String.eqb (dict_at s (a_nopts a)) "ipopt.print_level" then ret tt
                    else dict_write (a_nopts a) "ipopt.print_level" (VInt 0)) (fun _ =>
             mbind (get (N := N)) (fun s => create_solver E (a_solver a) (dict_at s (a_nopts a)))) s = (s1, x) -> st_calls s1 = st_calls s).
    { intros s1 x Hx. apply mbind_inv in Hx. destruct Hx as [([] & s2 & X1 & X2)|(e & X1 & ->)].
      - unfold mbind, get in X2. apply create_inv in X2. destruct X2 as (_ & -> & _).
        destruct (dmem _ _ _); [injection X1 as <-; reflexivity|]. apply write_inv in X1. tauto.
      - destruct (dmem _ _ _); [discriminate|]. apply write_inv in X1. destruct X1 as (X1 & _). discriminate. }
    intros s1 x. destruct (st_solver s) as [v|] eqn:Ev; [destruct (a_reinit a) eqn:Ea|]; intros Hx.
    - split; [eapply T'; exact Hx|discriminate].
    - injection Hx as <- <-. auto.
    - split; [eapply T'; exact Hx|congruence]. }
  destruct Hr as [([] & s1 & H1 & Hr)|(e & H1 & ->)].
  2:{ destruct (T _ _ H1) as (K1 & K2). apply Nil; auto. }
  destruct (T _ _ H1) as (K1 & K2). clear T H1.
  unfold mbind at 1, get at 1 in Hr. apply mbind_inv in Hr.
  assert (T : forall s2 x, (match dict_at s1 (a_mopts a) with
         | [] => mbind (dict_write (a_mopts a) "method" (VStr (h_method H))) (fun _ =>
                 dict_write (a_mopts a) "sub_method" (VStr (h_sub H)))
         | _ => ret tt end) s1 = (s2, x) -> x = Ok tt /\ st_calls s2 = st_calls s1 /\ st_solver s2 = st_solver s1).
  { intros s2 x. destruct (dict_at s1 (a_mopts a)); [|intros [= <- <-]; auto]. intros [= <- <-]. auto. }
  destruct Hr as [([] & s2 & H1 & Hr)|(e & H1 & ->)].
  2:{ destruct (T _ _ H1) as (K & _). discriminate. }
  destruct (T _ _ H1) as (_ & K3 & K4). clear T H1.
  unfold mbind at 1, set_iter in Hr. unfold mbind at 1, set_info at 1 in Hr. unfold mbind at 1, get at 1 in Hr.
  cbv zeta in Hr. cbn [st_solver st_sw st_iter st_info st_calls st_dicts] in Hr. set (s3 := Ost (st_solver s2) (st_sw s2) 0 [] (st_calls s2) (st_dicts s2)) in Hr. set (options := dict_at s3 (a_mopts a)) in Hr.
  assert (Ks3 : st_calls s3 = st_calls s /\ (a_reinit a = false -> st_solver s <> None -> st_solver s3 = st_solver s) /\ st_iter s3 = 0%nat).
  { cbn. split; [congruence|]. split; [|reflexivity]. intros Q1 Q2. rewrite K4. auto. }
  clearbody s3 options. clear K1 K2 K3 K4 s1 s2. destruct Ks3 as (K1 & K2 & K3).
  apply mbind_inv in Hr. destruct Hr as [((w & er) & s4 & H4 & Hr)|(e & H4 & ->)].
  2:{ apply widths_inv in H4. destruct H4 as ((Q1 & Q2 & Q3 & Q4 & Q5) & _). apply Nil; [congruence|]. intros. rewrite Q1; auto. }
  apply widths_inv in H4. destruct H4 as ((Q1 & Q2 & Q3 & Q4 & Q5) & _).
  unfold mbind at 1, lift at 1 in Hr. cbn [fst snd] in Hr.
  destruct (below_tol H er) as [b|e]; [|injection Hr as <- <-; apply Nil; [congruence|intros; rewrite Q1; auto]].
  apply mbind_inv in Hr. destruct b.
  - destruct Hr as [(so & s5 & H5 & Hr)|(e & H5 & ->)]; [|discriminate]. injection H5 as <- <-.
    destruct (a_init a) as [sol|] eqn:Ea.
    + unfold mbind, lift in Hr. destruct (print_cost mute sol) as [[]|e]; [|injection Hr as <- <-; apply Nil; cbn; [congruence|intros; rewrite Q1; auto]].
      injection Hr as <- <-. exists []. rewrite app_nil_r. cbn. split; [congruence|]. split; [lia|]. split; [exact I|]. split; [tauto|].
      split; [intros; rewrite Q1; auto|]. split; [discriminate|]. intros sol' [= <-]. split; [congruence|]. split; [auto|congruence].
    + injection Hr as <- <-. apply Nil; cbn; [congruence|intros; rewrite Q1; auto].
  - assert (L : exists x, hloop E mp H options n 0 (a_init a) w er [] None s4 = (s', x) /\
       (exists e, r = Raise e) \/ exists so sol, hloop E mp H options n 0 (a_init a) w er [] None s4 = (s', Ok so) /\ so = Some sol /\ r = Ok sol).
    { destruct Hr as [(so & s5 & H5 & Hr)|(e & H5 & ->)].
      - destruct so as [sol|].
        + unfold mbind, lift in Hr. destruct (print_cost mute sol) as [[]|e]; injection Hr as <- <-; [exists (Ok (Some sol)); right; eauto|exists (Ok (Some sol)); left; eauto].
        + injection Hr as <- <-. exists (Ok None). left. eauto.
      - exists (Raise e). left. eauto. }
    destruct L as (x & [(L & e & ->)|(so & sol & L & -> & ->)]); apply loop_inv in L; destruct L as (new & L1 & L2 & L3 & L4 & L5 & L6 & L7); exists new.
    + split; [congruence|]. split; [auto|]. split; [auto|]. split; [intros c Hc; rewrite L3; auto|]. split; [intros; rewrite L3, Q1; auto|]. split; [eauto|discriminate].
    + destruct (L7 _ eq_refl) as (M1 & M2 & M3). split; [congruence|]. split; [auto|]. split; [auto|]. split; [intros c Hc; rewrite L3; auto|].
      split; [intros; rewrite L3, Q1; auto|]. split.
      * intros -> _. destruct new; [|cbn in L2; lia]. destruct (M2 eq_refl) as (M4 & _). discriminate.
      * intros sol' [= <-]. split; [lia|]. split.
        -- intros ->. destruct (M2 eq_refl) as (M4 & _). discriminate.
        -- intros Hn. destruct (M3 Hn) as (pre & c & o & -> & M5 & M6 & M7). exists pre, c. split; [auto|]. injection M6 as <-. auto.
Qed.
End H.

(** ** one segment *)
Section One.
Open Scope R_scope.
Variables (E : env (N := Rnum)) (mp : mpo Rnum) (mute : bool) (H : hcfg (N := Rnum)).
Lemma tol5_val : tol5 (N := Rnum) = 5 / 100.
Proof. unfold tol5. nred. unfold nlit. nred. cbn. lra. Qed.
Lemma stall_same (w : list R) : widths_stall (N := Rnum) w w = Ok true.
Proof.
  unfold widths_stall. rewrite (mapM_ok _ (fun _ => true)).
  - cbn. f_equal. apply forallb_forall. intros b Hb. apply in_map_iff in Hb. destruct Hb as (x & <- & _). reflexivity.
  - intros i Hi. apply in_seq in Hi. nred. assert (Hl : (i < List.length w)%nat) by lia. apply nth_error_Some in Hl. unfold at_. destruct (nth_error w i) as [a|]; [|congruence].
    cbn [bind]. f_equal. assert (E0 : @ndiv Rnum (nabs (nsub a a)) a = 0).
    { unfold nabs. nred. replace (a - a) with 0 by lra. unfold Rltb. destruct (Rlt_dec 0 0); unfold Rdiv; lra. }
    pose proof tol5_val as T5. unfold nabs in *. nred. rewrite E0, T5. unfold Rleb. destruct (Rle_dec 0 (5 / 100)); [reflexivity|lra].
Qed.
Lemma loop_stops options n it init err sol s s' r : (0 < it)%nat -> (st_iter s <= 4)%nat ->
  forall w, hloop E mp H options n it init w err w sol s = (s', r) -> st_calls s' = st_calls s.
Proof.
  intros Hit Hi w. destruct n as [|n]; [intros [= <- <-]; reflexivity|]. cbn [hloop]. unfold mbind at 1, set_sw at 1. unfold mbind at 1, get at 1. cbn [st_iter st_info].
  intros Hr. apply mbind_inv in Hr. 
  assert (T1 : forall s1 b, (if Nat.ltb 0 (st_iter s) then
                   mbind (set_info (dset Nat.eqb (st_info s) (st_iter s) err)) (fun _ =>
                   (if Nat.ltb 4 (st_iter s) then lift (error_stalls (dset Nat.eqb (st_info s) (st_iter s) err) err) else ret false))
                 else ret false) (Ost (st_solver s) (Some w) (st_iter s) (st_info s) (st_calls s) (st_dicts s)) = (s1, b) -> b = Ok false /\ st_calls s1 = st_calls s).
  { intros s1 b. destruct (Nat.ltb 0 (st_iter s)); [|intros [= <- <-]; auto]. destruct (Nat.ltb_spec 4 (st_iter s)); [lia|]. intros [= <- <-]. auto. }
  destruct Hr as [(b & s1 & H1 & Hr)|(e & H1 & ->)]; destruct (T1 _ _ H1) as (Eb & Ec); [|discriminate]. injection Eb as ->.
  unfold mbind at 1 in Hr. destruct (Nat.ltb_spec 0 it); [|lia]. unfold lift at 1 in Hr.
  pose proof (stall_same w) as Es. nred. rewrite Es in Hr. injection Hr as <- <-. exact Ec.
Qed.
Lemma widths_one sol options s : mp_nseg mp = 1%nat -> h_widths mp H sol options s = (s, Ok (equal_widths mp, None)).
Proof. intros E1. unfold h_widths. rewrite E1. reflexivity. Qed.
Lemma loop_one options n init s s' r : mp_nseg mp = 1%nat -> st_iter s = 0%nat ->
  hloop E mp H options n 0 init (equal_widths mp) None [] None s = (s', r) ->
  exists new, st_calls s' = st_calls s ++ new /\ (List.length new <= 1)%nat.
Proof.
  intros E1 Hi. assert (Nil : exists new : list (call (N := Rnum)), st_calls s = st_calls s ++ new /\ (List.length new <= 1)%nat) by (exists []; rewrite app_nil_r; cbn; auto).
  destruct n as [|n]; [intros [= <- <-]; exact Nil|].
  cbn [hloop]. unfold mbind at 1, set_sw at 1. unfold mbind at 1, get at 1. cbn [st_iter st_info]. rewrite Hi. cbn [Nat.ltb Nat.leb].
  unfold mbind at 1, ret at 1. unfold mbind at 1, ret at 1. unfold mbind at 1, lift at 1.
  destruct (warm_start mp init) as [i|e]; [|intros [= <- <-]; exact Nil].
  unfold mbind at 1, current_solver, mbind at 1, get at 1. cbn [st_solver].
  destruct (st_solver s) as [v|]; [|intros [= <- <-]; exact Nil]. unfold ret at 1, mbind at 1, call_solver. cbn [st_solver st_sw st_iter st_info st_calls st_dicts].
  assert (OneC : forall c : call (N := Rnum), exists new, st_calls s ++ [c] = st_calls s ++ new /\ (List.length new <= 1)%nat) by (intros c; exists [c]; cbn; auto).
  set (c := Call v _ _). destruct (e_run E (st_calls s) v _) as [o|e]; [|intros [= <- <-]; apply OneC].
  unfold mbind at 1. rewrite widths_one by exact E1. unfold mbind at 1, get at 1. unfold mbind at 1, set_iter. cbn [fst snd st_solver st_sw st_iter st_info st_calls st_dicts below_tol].
  unfold mbind at 1, lift at 1. unfold mbind at 1, get at 1. intros Hr. apply mbind_inv in Hr. destruct Hr as [([] & s6 & H6 & Hr)|(e & H6 & ->)].
  - apply loop_stops in Hr; [|lia|destruct (Nat.eqb n 0); injection H6 as <-; cbn; lia].
    rewrite Hr. destruct (Nat.eqb n 0); injection H6 as <-; apply OneC.
  - destruct (Nat.eqb n 0); discriminate.
Qed.
Lemma h_one a n s s' sol : mp_nseg mp = 1%nat -> h_solve E mp mute H a n s = (s', Ok sol) ->
  exists c, st_calls s' = st_calls s ++ [c] /\ ca_out c = Ok sol /\ st_iter s' = 1%nat.
Proof.
  intros E1 Hr. pose proof (h_solve_inv _ _ _ _ _ _ _ _ _ Hr) as (new & I1 & _ & _ & _ & _ & _ & I7).
  destruct (I7 _ eq_refl) as (J1 & J2 & J3). clear I7.
  assert (L : (List.length new <= 1)%nat /\ new <> []).
  { unfold h_solve in Hr. unfold mbind at 1, get at 1 in Hr. apply mbind_inv in Hr. destruct Hr as [([] & s1 & H1 & Hr)|(e & H1 & H2)]; [|discriminate].
    assert (T : st_calls s1 = st_calls s).
    { assert (T' : forall s1 x, mbind (if dmem String.eqb (dict_at s (a_nopts a)) "ipopt.print_level" then ret tt
                    else dict_write (a_nopts a) "ipopt.print_level" (VInt 0)) (fun _ =>
             mbind (get (N := Rnum)) (fun s => create_solver E (a_solver a) (dict_at s (a_nopts a)))) s = (s1, x) -> st_calls s1 = st_calls s).
      { intros s2 x Hx. apply mbind_inv in Hx. destruct Hx as [([] & s3 & X1 & X2)|(e & X1 & ->)].
        - unfold mbind, get in X2. apply create_inv in X2. destruct X2 as (_ & -> & _).
          destruct (dmem _ _ _); [injection X1 as <-; reflexivity|]. apply write_inv in X1. tauto.
        - destruct (dmem _ _ _); [discriminate|]. apply write_inv in X1. destruct X1 as (X1 & _). discriminate. }
      destruct (st_solver s) as [v|]; [destruct (a_reinit a)|]; [eapply T'; exact H1|injection H1 as <-; reflexivity|eapply T'; exact H1]. }
    unfold mbind at 1, get at 1 in Hr. apply mbind_inv in Hr. destruct Hr as [([] & s2 & H2 & Hr)|(e & H2 & ?)]; [|discriminate].
    assert (T2 : st_calls s2 = st_calls s1) by (destruct (dict_at s1 (a_mopts a)); [|injection H2 as <-; reflexivity]; injection H2 as <-; reflexivity).
    unfold mbind at 1, set_iter in Hr. unfold mbind at 1, set_info at 1 in Hr. unfold mbind at 1, get at 1 in Hr.
    cbv zeta in Hr. cbn [st_solver st_sw st_iter st_info st_calls st_dicts] in Hr.
    unfold mbind at 1 in Hr. rewrite widths_one in Hr by exact E1. cbn [fst snd below_tol] in Hr. unfold mbind at 1, lift at 1 in Hr.
    apply mbind_inv in Hr. destruct Hr as [(so & s5 & H5 & Hr)|(e & _ & ?)]; [|discriminate].
    assert (s5 = s' /\ so = Some sol) as [-> ->].
    { destruct so as [so|]; [|discriminate]. unfold mbind, lift in Hr. destruct (print_cost mute so); [|discriminate]. injection Hr as <- <-. auto. }
    pose proof (loop_inv _ _ _ _ _ _ _ _ _ _ _ _ _ _ H5) as (new' & P1 & _ & _ & _ & _ & _ & P7).
    apply loop_one in H5; [|exact E1|reflexivity]. destruct H5 as (new'' & P2 & P3). cbn [st_calls] in P1, P2.
    assert (new' = new) by (apply (app_inv_head (st_calls s)); congruence). assert (new'' = new) by (apply (app_inv_head (st_calls s)); congruence). subst.
    split; [exact P3|]. intros ->. destruct (P7 _ eq_refl) as (_ & P8 & _). destruct (P8 eq_refl) as (P9 & _). discriminate. }
  destruct L as (L1 & L2). destruct (J3 L2) as (pre & c & -> & J4 & _). rewrite app_length in L1. cbn in L1. destruct pre; [|cbn in L1; lia].
  exists c. split; [exact I1|]. split; [exact J4|]. exact J1.
Qed.
End One.
