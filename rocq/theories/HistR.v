(** Histories of operations (proofs for C25, C43). *)
From Coq Require Import List Arith Lia Bool String ZArith.
From Coq Require Import List.
From Verif Require Import Num PyList Mat Roots Colloc Ocp Transcribe Solve SpecSolve Objects SpecHist NumR ListR SolveR HsolveR ObjectsR.
Import ListNotations.

Section Any.
Context {N : num}.
Variables (E : env (N := N)) (mp : mpo N) (mute : bool) (H : hcfg (N := N)).

Lemma step_budget s x : exists new, st_calls (step E mp mute H s x) = st_calls s ++ new /\ length new <= budget [x].
Proof.
  destruct x as [a|a n|i d]; cbn [step budget].
  - destruct (base_solve E mp mute a s) as [s' r] eqn:Eb. apply base_inv in Eb. destruct Eb as (_ & s1 & _ & E1 & [(-> & _ & _)|(T & _)]); cbn [fst].
    + exists []. rewrite app_nil_r. split; [exact E1|cbn; lia].
    + destruct T as (_ & _ & [(E2 & _)|(c & i & w & E2 & _)]).
      * exists []. rewrite app_nil_r. split; [congruence|cbn; lia].
      * exists [c]. split; [congruence|cbn; lia].
  - destruct (h_solve E mp mute H a n s) as [s' r] eqn:Eh. apply h_solve_inv in Eh. destruct Eh as (new & E1 & E2 & _). exists new. split; [exact E1|lia].
  - exists []. rewrite app_nil_r. split; [reflexivity|cbn; lia].
Qed.
Theorem history_thm l : forall s, exists new, st_calls (steps E mp mute H s l) = st_calls s ++ new /\ length new <= budget l.
Proof.
  induction l as [|x l IH]; intros s; [exists []; rewrite app_nil_r; split; [reflexivity|cbn; lia]|].
  destruct (step_budget s x) as (n1 & E1 & L1). destruct (IH (step E mp mute H s x)) as (n2 & E2 & L2). exists (n1 ++ n2). split.
  - change (steps E mp mute H s (x :: l)) with (steps E mp mute H (step E mp mute H s x) l). rewrite E2, E1, app_assoc. reflexivity.
  - rewrite app_length. destruct x; cbn [budget] in *; lia.
Qed.

(** ** iteration counts of earlier calls *)
Definition blind {A} (m : M (N := N) A) : Prop := forall s it info, m (recount s it info) = (recount (fst (m s)) it info, snd (m s)).
Lemma blind_ret {A} (x : A) : blind (ret x).
Proof. intros s it info. reflexivity. Qed.
Lemma blind_bind {A B} (m : M (N := N) A) (f : A -> M B) : blind m -> (forall a, blind (f a)) -> blind (mbind m f).
Proof.
  intros H1 H2 s it info. unfold mbind. rewrite (H1 s it info). destruct (m s) as [s1 [x|e]]; cbn [fst snd]; [|reflexivity]. apply (H2 x s1 it info).
Qed.
Lemma blind_write i k v : blind (dict_write (N := N) i k v).
Proof. intros s it info. unfold dict_write. reflexivity. Qed.
Lemma blind_get {B} (f : ost (N := N) -> M B) : (forall s, blind (f s)) -> (forall s it info, f (recount s it info) = f s) -> blind (mbind get f).
Proof. intros H1 H2 s it info. unfold mbind, get. rewrite H2. apply H1. Qed.
Lemma blind_create n o : blind (create_solver (N := N) E n o).
Proof.
  intros s it info. unfold create_solver, mbind, lift, set_solver. destruct (e_build E) as [u|e]; [|reflexivity]. destruct (e_nlpsol E n _) as [u'|e]; reflexivity.
Qed.
Lemma recount_twice s it info it' info' : recount (recount s it info) it' info' = recount (N := N) s it' info'.
Proof. reflexivity. Qed.

Theorem recount_thm a n s it info : let (s1, r1) := h_solve E mp mute H a n s in let (s2, r2) := h_solve E mp mute H a n (recount s it info) in
  r2 = r1 /\ recount s2 0 [] = recount s1 0 [] /\ (forall sol, r1 = Ok sol -> s2 = s1).
Proof.
  set (front := mbind get (fun s => mbind (match st_solver s, a_reinit a with
         | Some _, false => ret tt
         | _, _ =>
             mbind (if dmem String.eqb (dict_at s (a_nopts a)) "ipopt.print_level" then ret tt
                    else dict_write (a_nopts a) "ipopt.print_level" (VInt 0)) (fun _ =>
             mbind get (fun s => create_solver E (a_solver a) (dict_at s (a_nopts a))))
         end) (fun _ => mbind get (fun s => match dict_at s (a_mopts a) with
         | [] => mbind (dict_write (a_mopts a) "method" (VStr (h_method H))) (fun _ =>
                 dict_write (a_mopts a) "sub_method" (VStr (h_sub H)))
         | _ => ret tt
         end)))).
  assert (Hf : blind front).
  { apply blind_get; [|reflexivity]. intros s0. apply blind_bind.
    - assert (X : blind (mbind (if dmem String.eqb (dict_at s0 (a_nopts a)) "ipopt.print_level" then ret tt
                    else dict_write (a_nopts a) "ipopt.print_level" (VInt 0)) (fun _ => mbind get (fun s => create_solver E (a_solver a) (dict_at s (a_nopts a)))))).
      { apply blind_bind; [destruct (dmem _ _ _); [apply blind_ret|apply blind_write]|]. intros _. apply blind_get; [intros; apply blind_create|reflexivity]. }
      destruct (st_solver s0); [destruct (a_reinit a); [exact X|apply blind_ret]|exact X].
    - intros _. apply blind_get; [|reflexivity]. intros s1. destruct (dict_at s1 (a_mopts a)); [|apply blind_ret]. apply blind_bind; [apply blind_write|intros; apply blind_write]. }
  set (back := mbind (set_iter (N := N) 0) (fun _ => mbind (set_info []) (fun _ => mbind get (fun s =>
    let options := dict_at s (a_mopts a) in
    mbind (h_widths mp H (a_init a) options) (fun r =>
    mbind (lift (below_tol H (snd r))) (fun b =>
    mbind (if b : bool then mbind (set_info (dset Nat.eqb [] 0 (snd r))) (fun _ => ret (a_init a))
           else hloop E mp H options n 0 (a_init a) (fst r) (snd r) [] None) (fun sol =>
    match sol with
    | None => lift (Raise UnboundLocalError)
    | Some sol => mbind (lift (print_cost mute sol)) (fun _ => ret sol)
    end))))))).
  assert (Hb : forall s it info, back (recount s it info) = back s) by reflexivity.
  assert (Hh : forall s, h_solve E mp mute H a n s = mbind front (fun _ => back) s).
  { intros s0. unfold h_solve, front, back, mbind, get. destruct (match st_solver s0, a_reinit a with _, _ => _ end s0) as [s1 [x|e]]; [|reflexivity].
    destruct (match dict_at s1 (a_mopts a) with _ => _ end s1) as [s2 [x'|e]]; reflexivity. }
  rewrite !Hh. unfold mbind. rewrite (Hf s it info). destruct (front s) as [s1 [x|e]]; cbn [fst snd].
  - rewrite Hb. destruct (back s1) as [s2 r2]. auto.
  - split; [reflexivity|]. split; [reflexivity|]. intros sol Hs. discriminate.
Qed.
End Any.

(** ** the user's objects *)
Section Objs.
Context {N : num}.
Lemma length_set {A} (l : list A) i x : length (set_nth l i x) = length l.
Proof. revert i; induction l as [|y l IH]; intros [|i]; cbn; auto. Qed.
Theorem written_thm us : forall (s : store N) a,
  (forall ob, nth_error (s_ocps s) a = Some ob -> nth_error (s_ocps (usteps s us)) a = Some (ocp_written a ob us)) /\
  (forall l, nth_error (s_lists s) a = Some l -> nth_error (s_lists (usteps s us)) a = Some (list_written a l us)).
Proof.
  induction us as [|u us IH]; intros s a; [split; auto|].
  change (usteps s (u :: us)) with (usteps (ustep_run s u) us). destruct (IH (ustep_run s u) a) as [I1 I2]. split.
  - intros ob Hob. apply (I1 (match u with USetOcp i ob' => if Nat.eqb i a then ob' else ob | _ => ob end)). destruct u as [i ob'|i l]; cbn [ustep_run s_ocps]; [|exact Hob].
    destruct (Nat.eqb_spec i a) as [->|Hn]; [apply set_nth_same; apply nth_error_Some; congruence|rewrite set_nth_other by exact Hn; exact Hob].
  - intros l0 Hl. apply (I2 (match u with USetList i l => if Nat.eqb i a then l else l0 | _ => l0 end)). destruct u as [i ob'|i l]; cbn [ustep_run s_lists]; [exact Hl|].
    destruct (Nat.eqb_spec i a) as [->|Hn]; [apply set_nth_same; apply nth_error_Some; congruence|rewrite set_nth_other by exact Hn; exact Hl].
Qed.
Theorem list_orders_thm (s : store N) prob n a cf s' m us : make_mpo s prob n (RList a) cf = Ok (s', m) ->
  (forall u, In u us -> holds (length (s_ocps s)) (length (s_lists s)) u) ->
  exists o l, nth_error (s_lists s) a = Some l /\ length l = n /\ mpo_now (usteps s' us) m = Some (Mpo o n (list_written a l us) cf).
Proof.
  intros Hm Hus. destruct (make_mpo_inv _ _ _ _ _ _ _ Hm) as (ob & l & E1 & E2 & E3 & E4 & E5 & E6 & E7 & E8 & E9).
  unfold mpo_now, ocp_now. rewrite E3, (usteps_ocp _ _ _ _ Hus), E2, nth_error_app2, Nat.sub_diag by lia. cbn [nth_error].
  rewrite E9 in E7 |- *. rewrite (proj2 (written_thm us s' a) l E7), E4, E5. do 2 eexists. split; [exact E8|]. split; [exact E6|reflexivity].
Qed.
End Objs.
