(** Segment widths used by the refinement loop (proofs). *)
From Coq Require Import String.
From Coq Require Import Reals List Lia Lra Bool Arith.
From Coquelicot Require Import Coquelicot.
From Verif Require Import Num PyList Mat Poly Roots Colloc Ocp Transcribe Solve Hadapt Resid Refine.
From Verif Require Import Spec SpecOcp SpecSolve SpecHadapt SpecResid NumR ListR CompR BlockR NlpR NlpThm NlpMain SolveR HsolveR.
From Verif Require Import AreaR SlopeR HadaptR GridR GridThm ResidR ResidThm ResidMain.
Import ListNotations.
Open Scope list_scope.

(** ** the loop keeps any property of the widths that refinement keeps *)
Section Keep.
Context {N : num}.
Variables (E : env (N := N)) (mp : mpo N) (mute : bool) (H : hcfg (N := N)).
Variable P : list N -> Prop.
Variable Q : sdict (N := N) -> Prop.
Hypothesis Prun : forall calls v i out, e_run E calls v i = Ok out -> Q out.
Hypothesis Pequal : P (equal_widths mp).
Hypothesis Pslope : forall sw sol w e, mp_nseg mp <> 1%nat -> P sw -> Q sol -> h_slope H sw sol = Ok (w, e) -> P w.
Variable S : string -> Prop.
Hypothesis Presid : forall sub sw sol w e, mp_nseg mp <> 1%nat -> P sw -> Q sol -> S sub -> h_resid H sub sw sol = Ok (w, e) -> P w.

Definition calls_ok (base : list (call (N := N))) (s : ost (N := N)) : Prop :=
  exists new, st_calls s = base ++ new /\ forall c, In c new -> exists w, used_widths c = Some w /\ P w.
Lemma calls_same base s s' : calls_ok base s -> st_calls s' = st_calls s -> calls_ok base s'.
Proof. intros (new & H1 & H2) H3. exists new. rewrite H3. auto. Qed.
Definition sub_ok (options : odict (N := N)) : Prop :=
  dget String.eqb options "method"%string = Some (VStr "residual") ->
  S (match dget String.eqb options "sub_method"%string with Some (VStr t) => t | Some _ => ""%string | None => "equal_area"%string end).
Lemma widths_P sol options s s' w e : sub_ok options -> (forall x, sol = Some x -> Q x) -> (forall v, st_sw s = Some v -> P v) ->
  h_widths mp H sol options s = (s', Ok (w, e)) -> P w.
Proof.
  intros Hs Hq Hsw. unfold h_widths. destruct (Nat.eqb_spec (mp_nseg mp) 1) as [H1n|H1n]; [intros [= <- <- <-]; exact Pequal|].
  destruct sol as [sol|]; [|intros [= <- <- <-]; exact Pequal]. specialize (Hq sol eq_refl).
  unfold mbind at 1, get. intros Hr. apply mbind_inv in Hr. destruct Hr as [([] & s1 & H1 & H2)|(e' & H1 & H2)]; [|discriminate].
  assert (Pv : P (match st_sw s with Some v => v | None => equal_widths mp end)) by (destruct (st_sw s); [apply Hsw; reflexivity|exact Pequal]).
  unfold sub_ok in Hs.
  destruct (dget String.eqb options "method") as [[]|] eqn:Em; try (injection H2 as <- <- <-; exact Pequal).
  destruct (String.eqb_spec s0 "control_slope"); [injection H2 as H2 H3; eapply Pslope; eauto|].
  destruct (String.eqb_spec s0 "residual") as [->|]; [|injection H2 as <- <- <-; exact Pequal].
  injection H2 as H2 H3. eapply Presid; eauto.
Qed.
Lemma loop_P options base n : sub_ok options -> forall it init neww err old sol s s' r, P neww -> calls_ok base s ->
  hloop E mp H options n it init neww err old sol s = (s', r) -> calls_ok base s'.
Proof.
  intros Hsub. induction n as [|n IH]; intros it init neww err old sol s s' r Pn Hc Hr; [injection Hr as <- <-; exact Hc|].
  cbn [hloop] in Hr. unfold mbind at 1, set_sw at 1 in Hr. unfold mbind at 1, get at 1 in Hr. cbn [st_iter st_info] in Hr.
  set (s0 := Ost (st_solver s) (Some neww) (st_iter s) (st_info s) (st_calls s) (st_dicts s)) in *.
  assert (C0 : calls_ok base s0) by (eapply calls_same; [exact Hc|reflexivity]). assert (W0 : st_sw s0 = Some neww) by reflexivity. clearbody s0.
  assert (T1 : forall s1 b, (if Nat.ltb 0 (st_iter s) then
                   mbind (set_info (dset Nat.eqb (st_info s) (st_iter s) err)) (fun _ =>
                   (if Nat.ltb 4 (st_iter s) then lift (error_stalls (dset Nat.eqb (st_info s) (st_iter s) err) err) else ret false))
                 else ret false) s0 = (s1, b) -> calls_ok base s1 /\ st_sw s1 = Some neww).
  { intros s1 b. destruct (Nat.ltb 0 (st_iter s)).
    - unfold mbind, set_info. destruct (Nat.ltb 4 _); intros [= <- <-]; (split; [eapply calls_same; [exact C0|reflexivity]|exact W0]).
    - intros [= <- <-]. auto. }
  assert (Stop : forall s1, calls_ok base s1 -> mbind (set_sw old) (fun _ => ret sol) s1 = (s', r) -> calls_ok base s').
  { intros s1 C1 [= <- <-]. eapply calls_same; [exact C1|reflexivity]. }
  apply mbind_inv in Hr. destruct Hr as [(b1 & s1 & H1 & Hr)|(e & H1 & ->)]; destruct (T1 _ _ H1) as [C1 W1]; [|exact C1]. clear T1 H1.
  destruct b1; [eapply Stop; eauto|].
  assert (T2 : forall s2 b, (if Nat.ltb 0 it then lift (widths_stall neww old) else ret false) s1 = (s2, b) -> s2 = s1).
  { intros s2 b. destruct (Nat.ltb 0 it); intros [= <- <-]; reflexivity. }
  apply mbind_inv in Hr. destruct Hr as [(b2 & s2 & H2 & Hr)|(e & H2 & ->)]; rewrite (T2 _ _ H2) in *; [|exact C1]. clear T2 H2.
  destruct b2; [eapply Stop; eauto|]. clear Stop.
  unfold mbind at 1, lift at 1 in Hr. destruct (warm_start mp init) as [i|e]; [|injection Hr as <- <-; exact C1].
  unfold mbind at 1, current_solver, mbind at 1, get at 1 in Hr.
  destruct (st_solver s1) as [v|]; cbn [ret lift] in Hr; [|injection Hr as <- <-; exact C1].
  unfold ret at 1 in Hr. unfold mbind at 1, call_solver in Hr.
  set (inp := dset String.eqb i "p"%string neww) in *. destruct (e_run E (st_calls s1) v inp) as [o|e] eqn:Eo.
  - set (s3 := Ost _ _ _ _ (st_calls s1 ++ _) _) in Hr.
    assert (C3 : calls_ok base s3).
    { destruct C1 as (new & N1 & N2). exists (new ++ [Call v inp (Ok o)]). cbn. rewrite N1, app_assoc. split; [reflexivity|].
      intros c Hc'. apply in_app_or in Hc'. destruct Hc' as [Hc'|[<-|[]]]; [auto|]. exists neww. split; [|exact Pn].
      unfold used_widths. cbn. unfold inp. rewrite dget_dset, String.eqb_refl. reflexivity. }
    assert (W3 : st_sw s3 = Some neww) by exact W1. clearbody s3.
    apply mbind_inv in Hr. destruct Hr as [((w & er) & s4 & H4 & Hr)|(e & H4 & ->)].
    2:{ destruct (widths_inv _ _ _ _ _ _ _ H4) as ((_ & _ & _ & K & _) & _). eapply calls_same; eauto. }
    assert (Pw : P w). { apply (widths_P (Some o) options s3 s4 w er); auto; [intros x [= <-]; eapply Prun; eauto|intros x Hx; congruence]. }
    destruct (widths_inv _ _ _ _ _ _ _ H4) as ((_ & _ & _ & K & _) & _). assert (C4 : calls_ok base s4) by (eapply calls_same; eauto). clear H4 K.
    unfold mbind at 1, get at 1 in Hr. unfold mbind at 1, set_iter in Hr.
    set (s5 := Ost _ _ (st_iter s4 + 1) _ _ _) in Hr. assert (C5 : calls_ok base s5) by (eapply calls_same; [exact C4|reflexivity]). clearbody s5.
    unfold mbind at 1, lift at 1 in Hr. cbn [fst snd] in Hr.
    destruct (below_tol H er) as [b|e]; [|injection Hr as <- <-; exact C5].
    unfold mbind at 1, get at 1 in Hr. destruct b.
    + injection Hr as <- <-. eapply calls_same; [exact C5|reflexivity].
    + apply mbind_inv in Hr. destruct Hr as [([] & s6 & H6 & Hr)|(e & H6 & ->)]; [|destruct (Nat.eqb n 0); discriminate].
      assert (C6 : calls_ok base s6) by (destruct (Nat.eqb n 0); injection H6 as <-; [eapply calls_same; [exact C5|reflexivity]|exact C5]).
      apply (IH _ _ _ _ _ _ _ _ _ Pw C6 Hr).
  - injection Hr as <- <-. destruct C1 as (new & N1 & N2). exists (new ++ [Call v inp (Raise e)]). cbn. rewrite N1, app_assoc. split; [reflexivity|].
    intros c Hc'. apply in_app_or in Hc'. destruct Hc' as [Hc'|[<-|[]]]; [auto|]. exists neww. split; [|exact Pn].
    unfold used_widths. cbn. unfold inp. rewrite dget_dset, String.eqb_refl. reflexivity.
Qed.
(** the options the call works with *)
Definition call_options (a : sargs (N := N)) (s : ost (N := N)) : odict (N := N) :=
  match dict_at s (a_mopts a) with
  | [] => [("method", VStr (h_method H)); ("sub_method", VStr (h_sub H))]%string
  | d => d
  end.
Lemma solve_P a n s s' r : a_nopts a <> a_mopts a -> (a_mopts a < List.length (st_dicts s))%nat -> sub_ok (call_options a s) ->
  (forall x, a_init a = Some x -> Q x) -> (forall v, st_sw s = Some v -> P v) ->
  h_solve E mp mute H a n s = (s', r) -> calls_ok (st_calls s) s'.
Proof.
  intros Hne Hlen Hsub Hq Hsw Hr. unfold h_solve in Hr. unfold mbind at 1, get at 1 in Hr.
  assert (C : calls_ok (st_calls s) s) by (exists []; rewrite app_nil_r; split; [reflexivity|intros ? []]).
  apply mbind_inv in Hr.
  assert (T : forall s1 x, (match st_solver s, a_reinit a with
         | Some _, false => ret tt
         | _, _ =>
             mbind (if dmem String.eqb (dict_at s (a_nopts a)) "ipopt.print_level" then ret tt
                    else dict_write (a_nopts a) "ipopt.print_level" (VInt 0)) (fun _ =>
             mbind (get (N := N)) (fun s => create_solver E (a_solver a) (dict_at s (a_nopts a)))) end) s = (s1, x) ->
     st_calls s1 = st_calls s /\ st_sw s1 = st_sw s /\ dict_at s1 (a_mopts a) = dict_at s (a_mopts a) /\ List.length (st_dicts s1) = List.length (st_dicts s)).
  { assert (R : forall (A : Type) (l : list A) i x, List.length (replace_nth l i x) = List.length l).
    { intros A l; induction l as [|y l IHl]; intros [|i] x; cbn; auto. }
    assert (R2 : forall (A : Type) (l : list A) i j x d, i <> j -> nth j (replace_nth l i x) d = nth j l d).
    { intros A l; induction l as [|y l IHl]; intros [|i] [|j] x d Hij; cbn; auto; lia. }
    assert (T' : forall s1 x, mbind (if dmem String.eqb (dict_at s (a_nopts a)) "ipopt.print_level" then ret tt
                    else dict_write (a_nopts a) "ipopt.print_level" (VInt 0)) (fun _ =>
             mbind (get (N := N)) (fun s => create_solver E (a_solver a) (dict_at s (a_nopts a)))) s = (s1, x) ->
       st_calls s1 = st_calls s /\ st_sw s1 = st_sw s /\ dict_at s1 (a_mopts a) = dict_at s (a_mopts a) /\ List.length (st_dicts s1) = List.length (st_dicts s)).
    { intros s1 x Hx. apply mbind_inv in Hx. destruct Hx as [([] & s2 & X1 & X2)|(e & X1 & ->)].
      - unfold mbind, get in X2. unfold create_solver, mbind, lift in X2.
        assert (X3 : st_calls s2 = st_calls s /\ st_sw s2 = st_sw s /\ dict_at s2 (a_mopts a) = dict_at s (a_mopts a) /\ List.length (st_dicts s2) = List.length (st_dicts s)).
        { destruct (dmem _ _ _); injection X1 as <-; cbn; auto. split; [auto|]. split; [auto|]. split; [apply R2; exact Hne|apply R]. }
        assert (X4 : st_calls s1 = st_calls s2 /\ st_sw s1 = st_sw s2 /\ st_dicts s1 = st_dicts s2).
        { destruct (e_build E); [|injection X2 as <- <-; auto]. destruct (e_nlpsol E _ _); injection X2 as <- <-; auto. }
        unfold dict_at in *. destruct X4 as (-> & -> & ->). exact X3.
      - destruct (dmem _ _ _); discriminate. }
    intros s1 x. destruct (st_solver s) as [v|]; [destruct (a_reinit a)|]; intros Hx; [eapply T'; exact Hx| |eapply T'; exact Hx].
    injection Hx as <- <-. auto. }
  destruct Hr as [([] & s1 & H1 & Hr)|(e & H1 & ->)]; destruct (T _ _ H1) as (K1 & K2 & K3 & K4); [|eapply calls_same; eauto]. clear T H1.
  unfold mbind at 1, get at 1 in Hr. apply mbind_inv in Hr.
  assert (T : forall s2 x, (match dict_at s1 (a_mopts a) with
         | [] => mbind (dict_write (a_mopts a) "method" (VStr (h_method H))) (fun _ =>
                 dict_write (a_mopts a) "sub_method" (VStr (h_sub H)))
         | _ => ret tt end) s1 = (s2, x) -> st_calls s2 = st_calls s1 /\ st_sw s2 = st_sw s1 /\ dict_at s2 (a_mopts a) = call_options a s).
  { intros s2 x. unfold call_options. rewrite <- K3. destruct (dict_at s1 (a_mopts a)) as [|y d] eqn:Ed; [|intros [= <- <-]; auto].
    intros [= <- <-]. cbn. split; [auto|]. split; [auto|]. unfold dict_at in *. cbn [st_dicts].
    assert (L1 : Nat.ltb (a_mopts a) (List.length (st_dicts s1)) = true) by (apply Nat.ltb_lt; lia).
    assert (R : forall (A : Type) (l : list A) i x, List.length (replace_nth l i x) = List.length l).
    { intros A l; induction l as [|y l IHl]; intros [|i] x; cbn; auto. }
    rewrite !replace_nth_nth, R, L1. rewrite Ed. reflexivity. }
  destruct Hr as [([] & s2 & H1 & Hr)|(e & H1 & ->)]; destruct (T _ _ H1) as (K5 & K6 & K7); [|eapply calls_same; [exact C|congruence]]. clear T H1.
  unfold mbind at 1, set_iter in Hr. unfold mbind at 1, set_info at 1 in Hr. unfold mbind at 1, get at 1 in Hr.
  cbv zeta in Hr. cbn [st_solver st_sw st_iter st_info st_calls st_dicts] in Hr.
  set (s3 := Ost (st_solver s2) (st_sw s2) 0 [] (st_calls s2) (st_dicts s2)) in Hr. 
  assert (Eo : dict_at s3 (a_mopts a) = call_options a s) by exact K7. rewrite Eo in Hr.
  assert (C3 : calls_ok (st_calls s) s3) by (eapply calls_same; [exact C|cbn; congruence]).
  assert (W3 : st_sw s3 = st_sw s) by (cbn; congruence). clearbody s3.
  apply mbind_inv in Hr. destruct Hr as [((w & er) & s4 & H4 & Hr)|(e & H4 & ->)];
    destruct (widths_inv _ _ _ _ _ _ _ H4) as ((_ & _ & _ & K & _) & _); [|eapply calls_same; eauto].
  assert (Pw : P w) by (apply (widths_P (a_init a) (call_options a s) s3 s4 w er); auto; rewrite W3; auto).
  assert (C4 : calls_ok (st_calls s) s4) by (eapply calls_same; eauto). clear H4.
  unfold mbind at 1, lift at 1 in Hr. cbn [fst snd] in Hr.
  destruct (below_tol H er) as [b|e]; [|injection Hr as <- <-; exact C4].
  assert (Tail : forall so s5, calls_ok (st_calls s) s5 -> (match so with None => lift (Raise UnboundLocalError)
       | Some sol => mbind (lift (print_cost mute sol)) (fun _ => ret sol) end) s5 = (s', r) -> calls_ok (st_calls s) s').
  { intros [sol|] s5 C5; [|intros [= <- <-]; exact C5]. unfold mbind, lift. destruct (print_cost mute sol); intros [= <- <-]; exact C5. }
  apply mbind_inv in Hr. destruct b.
  - destruct Hr as [(so & s5 & H5 & Hr)|(e & H5 & ->)]; [|discriminate]. injection H5 as <- <-.
    eapply Tail; [|exact Hr]. eapply calls_same; [exact C4|reflexivity].
  - destruct Hr as [(so & s5 & H5 & Hr)|(e & H5 & ->)].
    + eapply Tail; [|exact Hr]. eapply loop_P; [exact Hsub|exact Pw|exact C4|exact H5].
    + eapply loop_P; [exact Hsub|exact Pw|exact C4|exact H5].
Qed.
End Keep.
