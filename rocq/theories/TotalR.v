(** The refinement loop returns a solution whenever the solver does (proofs). *)
From Coq Require Import String.
From Coq Require Import Reals List Lia Lra Bool Arith.
From Coquelicot Require Import Coquelicot.
From Verif Require Import Num PyList Mat Poly Roots Colloc Ocp Transcribe Solve Hadapt Resid Refine.
From Verif Require Import Spec SpecOcp SpecSolve SpecHadapt SpecResid NumR ListR BlockR NlpThm NlpMain SolveR HsolveR.
From Verif Require Import HadaptR RefineR RefineThm.
Import ListNotations.
Open Scope list_scope.

Lemma dset_In {V} (d : list (nat * V)) k v x : In x (dset Nat.eqb d k v) -> In x d \/ snd x = v.
Proof.
  induction d as [|[k' v'] d IH]; cbn; [intros [<-|[]]; auto|]. destruct (Nat.eqb k k').
  - intros [<-|H]; auto.
  - intros [<-|H]; [auto|]. destruct (IH H); auto.
Qed.
Lemma all_some_ok {A} (l : list (option A)) : (forall x, In x l -> x <> None) -> exists m, all_some l = Some m.
Proof.
  induction l as [|[a|] l IH]; intros H; [exists []; reflexivity| |exfalso; apply (H None); cbn; auto].
  destruct IH as [m E]; [intros; apply H; cbn; auto|]. exists (a :: m). cbn. now rewrite E.
Qed.
Lemma skipn_In {A} (l : list A) k x : In x (skipn k l) -> In x l.
Proof. revert k; induction l as [|a l IH]; intros [|k]; cbn; auto. intros H. right. eapply IH; eauto. Qed.

Lemma entry_found {V} (d : list (string * V)) k v ks : dget String.eqb d k = Some v -> In k ks -> last_entry d ks <> None.
Proof.
  intros E Hk. assert (Hin : In (k, v) d).
  { induction d as [|[k' v'] d IH]; cbn in E; [discriminate|]. destruct (String.eqb_spec k k') as [->|]; [injection E as ->; left; auto|right; auto]. }
  clear E. induction d as [|e d IH] using rev_ind; [destruct Hin|]. rewrite last_entry_snoc. destruct (existsb (String.eqb (fst e)) ks) eqn:Ee; [discriminate|].
  apply IH. apply in_app_or in Hin. destruct Hin as [Hin|[->|[]]]; [exact Hin|]. exfalso. cbn [fst] in Ee. rewrite (proj2 (existsb_exists _ _)) in Ee; [discriminate|].
  exists k. split; [exact Hk|apply String.eqb_refl].
Qed.

Section Total.
Variables (E : env (N := Rnum)) (mp : mpo Rnum) (mute : bool) (H : hcfg (N := Rnum)).
Variable P : list R -> Prop.
Variable Q : sdict (N := Rnum) -> Prop.
Variable S : string -> Prop.
Variable L : nat.
Hypothesis Prun : forall calls v i, exists out, e_run E calls v i = Ok out /\ Q out.
Hypothesis Pequal : P (equal_widths mp).
Hypothesis Plen : forall w, P w -> length w = L.
Hypothesis Pslope : forall sw sol, mp_nseg mp <> 1%nat -> P sw -> Q sol -> exists w e, h_slope H sw sol = Ok (w, Some e) /\ P w.
Hypothesis Presid : forall sub sw sol, mp_nseg mp <> 1%nat -> P sw -> Q sol -> S sub -> exists w e, h_resid H sub sw sol = Ok (w, Some e) /\ P w.
Hypothesis Pwarm : forall sol, Q sol -> exists i, warm_start mp (Some sol) = Ok i.
Hypothesis Ptol : h_tol H <> [].
Hypothesis Hseg : (1 <= mp_nseg mp)%nat.

(** does refinement change the widths with these options? *)
Definition refines (options : odict (N := Rnum)) : Prop := mp_nseg mp <> 1%nat /\
  exists m, dget String.eqb options "method" = Some (VStr m) /\ (m = "control_slope"%string \/ m = "residual"%string).
Lemma widths_total sol options s : sub_ok S options -> Q sol -> (forall v, st_sw s = Some v -> P v) ->
  exists s' w e, h_widths mp H (Some sol) options s = (s', Ok (w, e)) /\ P w /\
    st_calls s' = st_calls s /\ st_solver s' = st_solver s /\ st_iter s' = st_iter s /\ st_info s' = st_info s /\
    ((refines options /\ e <> None) \/ (~ refines options /\ w = equal_widths mp /\ e = None)).
Proof.
  intros Hs Hq Hsw. unfold h_widths, refines. destruct (Nat.eqb_spec (mp_nseg mp) 1) as [H1|H1].
  - eexists _, _, _. split; [reflexivity|]. split; [exact Pequal|]. do 4 (split; [reflexivity|]). right. split; [intros [C _]; auto|auto].
  - unfold mbind at 1, get at 1.
    assert (Es : (match st_sw s with Some _ => ret tt | None => set_sw (equal_widths mp) end) s =
      (match st_sw s with Some _ => s | None => Ost (st_solver s) (Some (equal_widths mp)) (st_iter s) (st_info s) (st_calls s) (st_dicts s) end, Ok tt)).
    { destruct (st_sw s); reflexivity. }
    unfold mbind at 1. rewrite Es. clear Es. set (s1 := match st_sw s with Some _ => s | None => Ost (st_solver s) (Some (equal_widths mp)) (st_iter s) (st_info s) (st_calls s) (st_dicts s) end).
    assert (K : st_calls s1 = st_calls s /\ st_solver s1 = st_solver s /\ st_iter s1 = st_iter s /\ st_info s1 = st_info s) by (unfold s1; destruct (st_sw s); auto).
    clearbody s1. destruct K as (K1 & K2 & K3 & K4).
    assert (Pv : P (match st_sw s with Some v => v | None => equal_widths mp end)) by (destruct (st_sw s); [apply Hsw; reflexivity|exact Pequal]).
    unfold sub_ok in Hs.
    assert (No : forall o, dget String.eqb options "method" = o -> (forall m, o = Some (VStr m) -> m <> "control_slope"%string /\ m <> "residual"%string) ->
       exists s' w (e : option Rnum), ret (equal_widths mp, None) s1 = (s', Ok (w, e)) /\ P w /\
    st_calls s' = st_calls s /\ st_solver s' = st_solver s /\ st_iter s' = st_iter s /\ st_info s' = st_info s /\
    ((mp_nseg mp <> 1%nat /\ (exists m, o = Some (VStr m) /\ (m = "control_slope"%string \/ m = "residual"%string)) /\ e <> None) \/
     (~ (mp_nseg mp <> 1%nat /\ exists m, o = Some (VStr m) /\ (m = "control_slope"%string \/ m = "residual"%string)) /\ w = equal_widths mp /\ e = None))).
    { intros o _ Ho. eexists _, _, _. split; [reflexivity|]. split; [exact Pequal|]. do 4 (split; [assumption|]). right. split; [|auto].
      intros (_ & m & Em & [->| ->]); destruct (Ho _ Em); congruence. }
    destruct (dget String.eqb options "method") as [v|] eqn:Em.
    2:{ destruct (No None eq_refl) as (s' & w & e & K); [discriminate|]. exists s', w, e. tauto. }
    specialize (No (Some v) eq_refl). destruct v as [| |m| |] eqn:Ev; try (destruct No as (s' & w & e & K); [discriminate|]; exists s', w, e; tauto).
    destruct (String.eqb_spec m "control_slope") as [->|C1].
    { destruct (Pslope _ sol H1 Pv Hq) as (w & e & Ew & Pw). unfold lift. eexists _, _, _. split; [f_equal; exact Ew|]. split; [exact Pw|].
      do 4 (split; [assumption|]). left. split; [|discriminate]. split; [exact H1|]. exists "control_slope"%string. auto. }
    destruct (String.eqb_spec m "residual") as [->|C2].
    { destruct (Presid _ _ sol H1 Pv Hq (Hs eq_refl)) as (w & e & Ew & Pw). unfold lift. eexists _, _, _. split; [f_equal; exact Ew|]. split; [exact Pw|].
      do 4 (split; [assumption|]). left. split; [|discriminate]. split; [exact H1|]. exists "residual"%string. auto. }
    destruct No as (s' & w & e & K); [intros m' [= <-]; auto|]. exists s', w, e. tauto.
Qed.
Lemma below_total err : exists b, below_tol H err = Ok b.
Proof.
  destruct err as [e|]; [|exists false; reflexivity]. cbn. destruct (h_tol H) as [|t l] eqn:Et; [congruence|]. cbn. eauto.
Qed.
Lemma stalls_total info e : (forall x, In x info -> snd x <> None) -> exists b, error_stalls (N := Rnum) info (Some e) = Ok b.
Proof.
  intros Hi. unfold error_stalls, mean_last4. destruct (all_some_ok (skipn (List.length (map snd info) - 4) (map snd info))) as [l El].
  - intros x Hx. apply skipn_In, in_map_iff in Hx. destruct Hx as (y & <- & Hy). auto.
  - nred. rewrite El. cbn [bind]. eauto.
Qed.
Lemma stall_total w old : length w = length old -> exists b, widths_stall (N := Rnum) w old = Ok b /\ (w = old -> (forall x, In x w -> (0 < x)%R) -> b = true).
Proof.
  intros Hl. unfold widths_stall.
  assert (G : forall k a, (a + k <= length w)%nat -> exists bs, mapM (fun i => x <- at_ w i ;; y <- at_ old i ;; Ok (nleb (ndiv (nabs (nsub x y)) x) (tol5 (N := Rnum)))) (seq a k) = Ok bs /\
     (w = old -> (forall x, In x w -> (0 < x)%R) -> forallb (fun b : bool => b) bs = true)).
  { induction k as [|k IH]; intros a Ha; [exists []; split; reflexivity|]. cbn [seq mapM].
    destruct (IH (a + 1)%nat ltac:(lia)) as (bs & Eb & Hb). replace (a + 1)%nat with (Datatypes.S a) in Eb by lia.
    pose proof (at_ok w a 0%R ltac:(lia)) as A1. pose proof (at_ok old a 0%R ltac:(lia)) as A2. nred. rewrite A1. cbn [bind]. rewrite A2. cbn [bind]. rewrite Eb. cbn [bind].
    eexists. split; [reflexivity|]. intros Ew Hp. cbn [forallb]. rewrite (Hb Ew Hp), andb_true_r. rewrite <- Ew.
    unfold tol5. rewrite nlit_R, nabs_R. apply Rleb_true. nred. unfold Rminus. rewrite Rplus_opp_r, Rabs_R0. unfold Rdiv. rewrite Rmult_0_l. lra. }
  destruct (G (length w) 0%nat ltac:(lia)) as (bs & Eb & Hb). nred. rewrite Eb. cbn [bind]. eauto.
Qed.
Lemma equal_pos x : In x (equal_widths mp) -> (0 < x)%R.
Proof. unfold equal_widths. intros Hx. apply repeat_spec in Hx. subst x. rewrite nofnat_R. nred. apply Rmult_lt_0_compat; [lra|]. apply Rinv_0_lt_compat, lt_0_INR. lia. Qed.

Lemma loop_total options n : sub_ok S options -> forall it init neww err old sol s,
  (forall x, init = Some x -> Q x) -> (exists i, warm_start mp init = Ok i) ->
  P neww -> st_solver s <> None -> st_iter s = it -> (forall x, In x (st_info s) -> snd x <> None) ->
  (~ refines options -> neww = equal_widths mp /\ err = None) ->
  (it = 0%nat \/ (P old /\ (err <> None \/ (it = 1%nat /\ neww = equal_widths mp /\ old = equal_widths mp)))) ->
  (n = 0%nat \/ it <> 0%nat -> exists x, sol = Some x /\ Q x) ->
  exists s' x, hloop E mp H options n it init neww err old sol s = (s', Ok (Some x)) /\ Q x.
Proof.
  intros Hsub. induction n as [|n IH]; intros it init neww err old sol s Hq Hw Pn Hv Hit Hinfo Hnr Hinv Hsol.
  - destruct (Hsol (or_introl eq_refl)) as (x & -> & Qx). exists s, x. split; [reflexivity|exact Qx].
  - cbn [hloop]. unfold mbind at 1, set_sw at 1. unfold mbind at 1, get at 1. cbn [st_iter st_info].
    match goal with |- context [mbind _ _ (Ost ?a ?b ?c ?d ?e ?f)] => set (s0 := Ost a b c d e f) end.
    assert (K0 : st_solver s0 <> None /\ st_sw s0 = Some neww /\ st_iter s0 = it /\ st_info s0 = st_info s /\ st_calls s0 = st_calls s) by (cbn; auto). clearbody s0.
    destruct K0 as (V0 & W0 & I0 & F0 & C0). rewrite Hit.
    assert (T1 : exists s1 b, (if Nat.ltb 0 it then
                   mbind (set_info (dset Nat.eqb (st_info s) it err)) (fun _ =>
                   (if Nat.ltb 4 it then lift (error_stalls (dset Nat.eqb (st_info s) it err) err) else ret false))
                 else ret false) s0 = (s1, Ok b) /\ st_solver s1 = st_solver s0 /\ st_sw s1 = st_sw s0 /\ st_iter s1 = it /\ st_calls s1 = st_calls s0 /\
                 (it = 0%nat -> b = false) /\ ((forall x, In x (st_info s1) -> snd x <> None) \/ (it = 1%nat /\ neww = equal_widths mp /\ old = equal_widths mp))).
    { destruct (Nat.ltb_spec 0 it) as [Hlt|Hlt].
      - unfold mbind, set_info. destruct Hinv as [C|(Po & [He|He])]; [lia| |].
        + assert (Hi : forall x, In x (dset Nat.eqb (st_info s) it err) -> snd x <> None) by (intros x Hx; destruct (dset_In _ _ _ _ Hx) as [Hx'| ->]; auto).
          destruct (Nat.ltb 4 it).
          * destruct err as [e|]; [|congruence]. destruct (stalls_total _ e Hi) as [b Eb]. unfold lift. nred. rewrite Eb. eexists _, _. split; [reflexivity|].
            cbn. do 4 (split; [auto|]). split; [lia|auto].
          * eexists _, _. split; [reflexivity|]. cbn. do 4 (split; [auto|]). split; [lia|auto].
        + destruct He as (-> & He). cbn [Nat.ltb Nat.leb]. eexists _, _. split; [reflexivity|]. cbn. do 4 (split; [auto|]). split; [lia|auto].
      - eexists _, _. split; [reflexivity|]. do 4 (split; [auto|]). split; [auto|]. left. intros x Hx. apply Hinfo. rewrite <- F0. exact Hx. }
    cbv zeta. destruct T1 as (s1 & b1 & E1 & V1 & W1 & I1 & C1 & B1 & F1). unfold mbind at 1. nred. rewrite E1. clear E1.
    assert (Stop : forall st, it <> 0%nat -> exists s' x, mbind (set_sw old) (fun _ => ret sol) st = (s', Ok (Some x)) /\ Q x).
    { intros st Hne. destruct (Hsol (or_intror Hne)) as (x & -> & Qx). eexists _, x. split; [reflexivity|exact Qx]. }
    destruct b1. { apply Stop. intros C. specialize (B1 C). discriminate. }
    assert (T2 : exists b, (if Nat.ltb 0 it then lift (widths_stall neww old) else ret false) s1 = (s1, Ok b) /\ (it = 0%nat -> b = false) /\
       (it = 1%nat -> neww = equal_widths mp -> old = equal_widths mp -> b = true)).
    { destruct (Nat.ltb_spec 0 it) as [Hlt|Hlt]; [|exists false; split; [reflexivity|split; [auto|lia]]].
      destruct Hinv as [C|(Po & _)]; [lia|]. destruct (stall_total neww old) as (b & Eb & Hb); [etransitivity; [exact (Plen _ Pn)|symmetry; exact (Plen _ Po)]|].
      exists b. unfold lift. nred. rewrite Eb. split; [reflexivity|]. split; [lia|]. intros _ -> ->. apply Hb; [reflexivity|]. apply equal_pos. }
    destruct T2 as (b2 & E2 & B2 & B2'). unfold mbind at 1. rewrite E2. clear E2.
    destruct b2. { apply Stop. intros C. specialize (B2 C). discriminate. } clear Stop.
    assert (F1' : forall x, In x (st_info s1) -> snd x <> None) by (destruct F1 as [F1|(F1 & F2 & F3)]; [exact F1|specialize (B2' F1 F2 F3); discriminate]).
    destruct Hw as (i & Ei). unfold mbind at 1, lift at 1. rewrite Ei.
    unfold mbind at 1, current_solver, mbind at 1, get at 1. destruct (st_solver s1) as [v|] eqn:Ev; [|congruence]. unfold ret at 1.
    unfold mbind at 1, call_solver. match goal with |- context [e_run E ?c ?v ?i] => set (inp := i); destruct (Prun c v inp) as (out & Eo & Qo); rewrite Eo end.
    match goal with |- context [mbind _ _ (Ost ?a ?b ?c ?d ?e ?f)] => set (s3 := Ost a b c d e f) end.
    assert (K3 : st_solver s3 <> None /\ st_sw s3 = Some neww /\ st_iter s3 = it /\ st_info s3 = st_info s1).
    { cbn. split; [congruence|]. split; [congruence|]. split; [exact I1|reflexivity]. }
    clearbody s3. destruct K3 as (V3 & W3 & I3 & F3).
    destruct (widths_total out options s3 Hsub Qo) as (s4 & w & er & E4 & Pw & C4 & V4 & I4 & F4 & R4); [intros x Hx; congruence|].
    unfold mbind at 1. rewrite E4. unfold mbind at 1, get at 1. unfold mbind at 1, set_iter. unfold mbind at 1, lift at 1. cbn [fst snd].
    destruct (below_total er) as [b Eb]. rewrite Eb. unfold mbind at 1, get at 1. destruct b.
    { eexists _, out. split; [reflexivity|exact Qo]. }
    set (s5 := Ost (st_solver s4) (st_sw s4) (st_iter s4 + 1) _ (st_calls s4) _).
    assert (N0 : ~ refines options -> it = 0%nat).
    { intros Hn. destruct Hinv as [C|(_ & [C|C])]; [exact C| |]; exfalso; [apply C, Hnr, Hn|]. destruct C as (A1 & A2 & A3). specialize (B2' A1 A2 A3). discriminate. }
    assert (Fin : forall s6, st_calls s6 = st_calls s4 -> st_solver s6 = st_solver s4 -> st_iter s6 = (it + 1)%nat ->
       (n <> 0%nat -> st_info s6 = st_info s4) ->
       exists s' x, hloop E mp H options n (it + 1) (Some out) w er neww (Some out) s6 = (s', Ok (Some x)) /\ Q x).
    { intros s6 A1 A2 A3 A4. destruct (Nat.eq_dec n 0) as [->|Hn0].
      { exists s6, out. split; [reflexivity|exact Qo]. }
      destruct (IH (it + 1)%nat (Some out) w er neww (Some out) s6) as (s' & x & Er & Qx).
      - intros x [= <-]. exact Qo.
      - apply Pwarm. exact Qo.
      - exact Pw.
      - congruence.
      - exact A3.
      - rewrite (A4 Hn0), F4, F3. exact F1'.
      - intros Hr. destruct R4 as [[R4 _]|(_ & R4)]; [contradiction|exact R4].
      - right. split; [exact Pn|]. destruct R4 as [[_ R4]|(R4 & Ew & _)]; [auto|]. right. specialize (N0 R4). split; [lia|]. split; [exact Ew|]. apply Hnr, R4.
      - intros _. exists out. auto.
      - exists s', x. split; [exact Er|exact Qx]. }
    destruct (Nat.eqb_spec n 0) as [Hn0|Hn0].
    + unfold mbind at 1, set_info at 1. apply Fin; [reflexivity|reflexivity|cbn; nred; lia|congruence].
    + unfold mbind at 1, ret at 1. apply Fin; [reflexivity|reflexivity|cbn; nred; lia|reflexivity].
Qed.

Hypothesis Pnone : exists i, warm_start mp None = Ok i.
Hypothesis Pcost : forall sol, Q sol -> print_cost mute sol = Ok tt.
Hypothesis Pbuild : e_build E = Ok tt.
Hypothesis Pnlpsol : forall name opts, e_nlpsol E name opts = Ok tt.

Lemma solve_total a n s : a_nopts a <> a_mopts a -> (a_mopts a < List.length (st_dicts s))%nat -> sub_ok S (call_options H a s) ->
  (forall x, a_init a = Some x -> Q x) -> (forall v, st_sw s = Some v -> P v) -> n <> 0%nat ->
  exists s' sol, h_solve E mp mute H a n s = (s', Ok sol) /\ Q sol.
Proof.
  intros Hne Hlen Hsub Hq Hsw Hn. unfold h_solve. unfold mbind at 1, get at 1.
  assert (R : forall (A : Type) (l : list A) i x, List.length (replace_nth l i x) = List.length l).
  { intros A l; induction l as [|y l IHl]; intros [|i] x; cbn; auto. }
  assert (R2 : forall (A : Type) (l : list A) i j x d, i <> j -> nth j (replace_nth l i x) d = nth j l d).
  { intros A l; induction l as [|y l IHl]; intros [|i] [|j] x d Hij; cbn; auto; lia. }
  assert (T' : exists s1, mbind (if dmem String.eqb (dict_at s (a_nopts a)) "ipopt.print_level" then ret tt
                    else dict_write (a_nopts a) "ipopt.print_level" (VInt 0)) (fun _ =>
             mbind get (fun s => create_solver E (a_solver a) (dict_at s (a_nopts a)))) s = (s1, Ok tt) /\
     st_solver s1 <> None /\ st_sw s1 = st_sw s /\ dict_at s1 (a_mopts a) = dict_at s (a_mopts a) /\ List.length (st_dicts s1) = List.length (st_dicts s)).
  { unfold create_solver, mbind, get, lift, set_solver. rewrite Pbuild.
    destruct (dmem _ _ _); unfold ret, dict_write; cbn [st_solver st_sw st_dicts dict_at]; rewrite Pnlpsol; eexists; (split; [reflexivity|]);
      cbn; (split; [discriminate|]); (split; [reflexivity|]); [auto|]. split; [unfold dict_at; cbn; apply R2; exact Hne|apply R]. }
  assert (T : exists s1, (match st_solver s, a_reinit a with
         | Some _, false => ret tt
         | _, _ =>
             mbind (if dmem String.eqb (dict_at s (a_nopts a)) "ipopt.print_level" then ret tt
                    else dict_write (a_nopts a) "ipopt.print_level" (VInt 0)) (fun _ =>
             mbind get (fun s => create_solver E (a_solver a) (dict_at s (a_nopts a)))) end) s = (s1, Ok tt) /\
     st_solver s1 <> None /\ st_sw s1 = st_sw s /\ dict_at s1 (a_mopts a) = dict_at s (a_mopts a) /\ List.length (st_dicts s1) = List.length (st_dicts s)).
  { destruct (st_solver s) as [v|] eqn:Ev; [destruct (a_reinit a)|]; [exact T'| |exact T'].
    exists s. split; [reflexivity|]. split; [congruence|auto]. }
  clear T'. destruct T as (s1 & E1 & V1 & W1 & D1 & L1). unfold mbind at 1. rewrite E1. clear E1. unfold mbind at 1, get at 1.
  assert (T : exists s2, (match dict_at s1 (a_mopts a) with
         | [] => mbind (dict_write (a_mopts a) "method" (VStr (h_method H))) (fun _ =>
                 dict_write (a_mopts a) "sub_method" (VStr (h_sub H)))
         | _ => ret tt end) s1 = (s2, Ok tt) /\ st_solver s2 <> None /\ st_sw s2 = st_sw s1 /\ dict_at s2 (a_mopts a) = call_options H a s).
  { unfold call_options. rewrite <- D1. destruct (dict_at s1 (a_mopts a)) as [|y d] eqn:Ed; [|exists s1; split; [reflexivity|auto]].
    eexists. split; [reflexivity|]. cbn. split; [auto|]. split; [auto|]. unfold dict_at in *. cbn [st_dicts].
    assert (L2 : Nat.ltb (a_mopts a) (List.length (st_dicts s1)) = true) by (apply Nat.ltb_lt; lia).
    rewrite !replace_nth_nth, R, L2. rewrite Ed. reflexivity. }
  destruct T as (s2 & E2 & V2 & W2 & D2). unfold mbind at 1. rewrite E2. clear E2.
  unfold mbind at 1, set_iter. unfold mbind at 1, set_info at 1. unfold mbind at 1, get at 1. cbv zeta.
  cbn [st_solver st_sw st_iter st_info st_calls st_dicts].
  set (s3 := Ost (st_solver s2) (st_sw s2) 0 [] (st_calls s2) (st_dicts s2)).
  assert (Eo : dict_at s3 (a_mopts a) = call_options H a s) by exact D2. rewrite Eo.
  assert (K3 : st_solver s3 <> None /\ st_sw s3 = st_sw s /\ st_iter s3 = 0%nat /\ st_info s3 = []) by (cbn; split; [exact V2|split; [congruence|auto]]).
  clearbody s3. destruct K3 as (V3 & W3 & I3 & F3). set (opts := call_options H a s) in *.
  assert (T : exists s4 w er, h_widths mp H (a_init a) opts s3 = (s4, Ok (w, er)) /\ P w /\ st_solver s4 <> None /\ st_iter s4 = 0%nat /\ st_info s4 = [] /\
     (~ refines opts -> w = equal_widths mp /\ er = None) /\ (a_init a = None -> er = None)).
  { destruct (a_init a) as [x|] eqn:Ea.
    - destruct (widths_total x opts s3 Hsub (Hq x eq_refl)) as (s4 & w & er & K1 & K2 & K4 & K5 & K6 & K7 & K8); [rewrite W3; exact Hsw|].
      exists s4, w, er. split; [exact K1|]. split; [exact K2|]. split; [congruence|]. split; [congruence|]. split; [congruence|]. split; [|discriminate].
      intros Hr. destruct K8 as [[K8 _]|(_ & K8)]; [contradiction|exact K8].
    - exists s3, (equal_widths mp), None. split; [unfold h_widths; destruct (Nat.eqb _ 1); reflexivity|]. split; [exact Pequal|]. auto 8. }
  destruct T as (s4 & w & er & E4 & Pw & V4 & I4 & F4 & R4 & N4). unfold mbind at 1. rewrite E4. clear E4. unfold mbind at 1, lift at 1. cbn [fst snd].
  destruct (below_total er) as [b Eb]. rewrite Eb.
  assert (Tail : forall so (s5 : ost (N := Rnum)), Q so -> exists s' sol, mbind (lift (print_cost mute so)) (fun _ => ret so) s5 = (s', Ok sol) /\ Q sol).
  { intros so s5 Qs. unfold mbind, lift. rewrite (Pcost so Qs). exists s5, so. split; [reflexivity|exact Qs]. }
  destruct b.
  - destruct (a_init a) as [x|] eqn:Ea; [|rewrite (N4 eq_refl) in Eb; discriminate]. unfold mbind at 1 2, set_info at 1, ret at 1. apply Tail. apply Hq. reflexivity.
  - destruct (loop_total opts n Hsub 0%nat (a_init a) w er [] None s4) as (s5 & x & E5 & Qx); auto.
    + destruct (a_init a) as [x|]; [apply Pwarm, Hq; reflexivity|exact Pnone].
    + rewrite F4. intros x [].
    + intros [C|C]; contradiction.
    + unfold mbind at 1. match goal with |- context [hloop ?a1 ?a2 ?a3 ?a4 ?a5 ?a6 ?a7 ?a8 ?a9 ?b1 ?b2 ?b3] => replace (hloop a1 a2 a3 a4 a5 a6 a7 a8 a9 b1 b2 b3) with (s5, Ok (Some x)) by (symmetry; exact E5) end. apply Tail. exact Qx.
Qed.
End Total.

(** with the refinement of the code *)
Lemma solve_satisfies (Q : sdict (N := Rnum) -> Prop) rc (mp : mpo Rnum) npath nterm tol lbh ubh threshold method sub E mute a n s :
  let nph := o_nph (mp_ocp mp) in let H := refine_cfg rc mp tol lbh ubh threshold method sub in
  mpo_ok mp -> ocp_ok (mp_ocp mp) npath nterm -> scales_pos (mp_ocp mp) -> (1 <= o_nx (mp_ocp mp))%nat -> (1 <= nph)%nat ->
  (forall ph, (ph < nph)%nat -> exists g, nth_error (r_grid rc) ph = Some g /\ grid_known g) ->
  (nph <= length tol)%nat -> (nph <= length lbh)%nat -> (nph <= length ubh)%nat ->
  (forall x, In x (lbh ++ ubh) -> (0 < x)%R) ->
  e_build E = Ok tt -> (forall name opts, e_nlpsol E name opts = Ok tt) ->
  (forall calls v i, exists out, e_run E calls v i = Ok out /\ full_solution mp out /\ Q out) ->
  (forall x, a_init a = Some x -> full_solution mp x /\ Q x) ->
  (forall v, st_sw s = Some v -> widths_ok (mp_nseg mp) nph v) ->
  a_nopts a <> a_mopts a -> (a_mopts a < length (st_dicts s))%nat -> no_equal_area (call_options H a s) -> n <> 0%nat ->
  exists s' sol, h_solve E mp mute H a n s = (s', Ok sol) /\ full_solution mp sol /\ Q sol.
Proof.
  intros nph H Hmp Hok Hsc Hnx Hnph Hg Ht Hlb Hub Hpos Hb Hnl HE Hinit Hsw Hne Hd Hsub Hn. subst nph. set (nph := o_nph (mp_ocp mp)) in *.
  destruct (Hg 0%nat ltac:(lia)) as (g & Eg & Hk).
  assert (Hin : forall sw z, widths_ok (mp_nseg mp) nph sw -> length z = (nph * nvars mp)%nat -> input_ok mp npath nterm z sw).
  { intros sw z [L _] Lz. constructor; auto. fold nph. nred. nia. }
  pose proof (mo_nseg _ Hmp) as Hns.
  apply (solve_total E mp mute H (widths_ok (mp_nseg mp) nph) (fun x => full_solution mp x /\ Q x) (fun t => t <> "equal_area"%string) (mp_nseg mp * nph)); auto.
  - apply equal_widths_ok, Hns.
  - intros w Hw. apply (proj1 Hw).
  - intros sw sol Hn1 Hw [[Hq [(x & Ex) _]] _]. unfold H, refine_cfg. cbn [h_slope]. unfold dat. nred. rewrite Ex. cbn [bind]. destruct (Hq x Ex) as [Lx Hx].
    destruct (refine_slope_ok rc mp npath nterm x sw (Hin sw x Hw Lx) Hw Hnx g Eg Hk tol lbh ubh threshold Ht Hg Hlb Hub) as (ws & e' & t' & r' & Er & Hws & _).
    + intros y Hy. apply Hpos, in_or_app. auto.
    + intros y Hy. apply Hpos, in_or_app. auto.
    + nred. lia.
    + exact Hx.
    + nred. rewrite Er. cbn [bind]. eauto.
  - intros sub' sw sol Hn1 Hw [[Hq [(x & Ex) _]] _] Hs'. unfold H, refine_cfg. cbn [h_resid]. unfold dat. nred. rewrite Ex. cbn [bind]. destruct (Hq x Ex) as [Lx Hx].
    destruct (refine_residual_ok rc mp npath nterm x sw (Hin sw x Hw Lx) Hw Hnx g Eg Hk tol sub' Ht Hs') as (ws & e' & Er & Hws & _).
    nred. rewrite Er. cbn [bind]. eauto.
  - intros sol [[_ [(x & Ex) _]] _]. apply warm_ok_x. apply (entry_found sol "x"%string x); [exact Ex|cbn; auto].
  - cbn [H refine_cfg h_tol]. intros C. nred. rewrite C in Ht. cbn in Ht. lia.
  - destruct (nlp_lengths mp npath nterm (repeat 0%R (nph * nvars mp)) (repeat 0%R (nph * mp_nseg mp))) as (n0' & z0 & _ & E0 & _).
    + constructor; auto; apply repeat_length.
    + unfold warm_start. nred. rewrite E0. cbn. eauto.
  - intros sol [[_ [_ (f & Ef)]] _]. unfold print_cost. destruct mute; [reflexivity|]. unfold dat. nred. rewrite Ef. reflexivity.
  - intros Hm. destruct (Hsub Hm) as (v & Ev & Hv). nred. rewrite Ev. destruct v; try discriminate. intros C. apply Hv. now rewrite C.
Qed.
Theorem solve_succeeds rc (mp : mpo Rnum) npath nterm tol lbh ubh threshold method sub E mute a n s :
  let nph := o_nph (mp_ocp mp) in let H := refine_cfg rc mp tol lbh ubh threshold method sub in
  mpo_ok mp -> ocp_ok (mp_ocp mp) npath nterm -> scales_pos (mp_ocp mp) -> (1 <= o_nx (mp_ocp mp))%nat -> (1 <= nph)%nat ->
  (forall ph, (ph < nph)%nat -> exists g, nth_error (r_grid rc) ph = Some g /\ grid_known g) ->
  (nph <= length tol)%nat -> (nph <= length lbh)%nat -> (nph <= length ubh)%nat ->
  (forall x, In x (lbh ++ ubh) -> (0 < x)%R) ->
  e_build E = Ok tt -> (forall name opts, e_nlpsol E name opts = Ok tt) ->
  (forall calls v i, exists out, e_run E calls v i = Ok out /\ full_solution mp out) ->
  (forall x, a_init a = Some x -> full_solution mp x) ->
  (forall v, st_sw s = Some v -> widths_ok (mp_nseg mp) nph v) ->
  a_nopts a <> a_mopts a -> (a_mopts a < length (st_dicts s))%nat -> no_equal_area (call_options H a s) -> n <> 0%nat ->
  exists s' sol, h_solve E mp mute H a n s = (s', Ok sol) /\ full_solution mp sol.
Proof.
  intros nph H H1 H2 H3 H4 H5 H6 H7 H8 H9 H10 H11 H12 H13 H14 H15 H16 H17 H18 H19.
  destruct (solve_satisfies (fun _ => True) rc mp npath nterm tol lbh ubh threshold method sub E mute a n s) as (s' & sol & A & B & _); eauto.
  intros calls v i. destruct (H13 calls v i) as (out & A & B). eauto.
Qed.
