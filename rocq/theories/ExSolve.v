(** Options of mpopt_h_adaptive.solve, and worked cases for the solving properties. *)
From Coq Require Import Reals Lra Lia Bool String List Arith ZArith.
From Verif Require Import Num PyList Mat Poly Roots Colloc Ocp Transcribe Solve SpecSolve NumR ListR NlpMain SolveR HsolveR ExOcp.
Import ListNotations.
Open Scope string_scope.
Open Scope list_scope.

Section Opts.
Context {N : num}.
Variables (E : env (N := N)) (mp : mpo N) (mute : bool) (H : hcfg (N := N)).
Lemma dset_keys {V} (d : list (string * V)) k v : NoDup (map fst d) -> NoDup (map fst (dset String.eqb d k v)).
Proof.
  induction d as [|[a b] d IH]; cbn; intros Hd; [constructor; [tauto|constructor]|]. inversion Hd; subst.
  destruct (String.eqb_spec k a) as [->|Hk]; cbn; constructor; auto.
  intros Hin. apply in_map_iff in Hin. destruct Hin as ([a' b'] & Ea & Hin). cbn in Ea. subst a'.
  assert (G : forall d, In (a, b') (dset String.eqb d k v) -> In a (map fst d)).
  { clear -Hk. induction d as [|[a1 b1] d IH]; cbn; [intros [[= <- _]|[]]; congruence|].
    destruct (String.eqb k a1); cbn; intros [[= -> ->]|Hd]; auto. right. exact (in_map fst _ _ Hd). }
  apply H2. exact (G d Hin).
Qed.
(** the options a solver created by mpopt_h_adaptive.solve has *)
Lemma h_creates a n s s' sol : st_solver s = None \/ a_reinit a = true -> (a_nopts a < List.length (st_dicts s))%nat ->
  NoDup (map fst (dict_at s (a_nopts a))) -> h_solve E mp mute H a n s = (s', Ok sol) ->
  exists v, st_solver s' = Some v /\ s_name v = a_solver a /\ options_ok (a_solver a) (h_opts a s) (s_opts v).
Proof.
  intros Hc Hl Hd Hr. unfold h_solve in Hr. unfold mbind at 1, get at 1 in Hr. apply mbind_inv in Hr.
  destruct Hr as [([] & s1 & H1 & Hr)|(e & H1 & ?)]; [|discriminate].
  assert (T : st_solver s1 = Some (Nlpsol (a_solver a) (solver_options (a_solver a) (h_opts a s)))).
  { assert (T' : mbind (if dmem String.eqb (dict_at s (a_nopts a)) "ipopt.print_level" then ret tt
                    else dict_write (a_nopts a) "ipopt.print_level" (VInt 0)) (fun _ =>
             mbind (get (N := N)) (fun s => create_solver E (a_solver a) (dict_at s (a_nopts a)))) s = (s1, Ok tt)).
    { destruct (st_solver s) as [v|]; [destruct (a_reinit a); [|destruct Hc; discriminate]|]; exact H1. }
    apply mbind_inv in T'. destruct T' as [([] & s2 & X1 & X2)|(e & X1 & X2)]; [|discriminate].
    unfold mbind, get in X2. apply create_inv in X2. destruct X2 as (_ & _ & _ & ->). do 3 f_equal.
    unfold h_opts. destruct (dmem _ _ _); [injection X1 as <-; reflexivity|]. apply write_inv in X1. destruct X1 as (_ & _ & _ & _ & X1).
    unfold dict_at at 1. rewrite X1, replace_nth_nth. destruct (Nat.ltb_spec (a_nopts a) (List.length (st_dicts s))); [reflexivity|lia]. }
  assert (K : st_solver s' = st_solver s1).
  { unfold mbind at 1, get at 1 in Hr. apply mbind_inv in Hr. destruct Hr as [([] & s2 & H2 & Hr)|(e & H2 & ?)]; [|discriminate].
    assert (T2 : st_solver s2 = st_solver s1) by (destruct (dict_at s1 (a_mopts a)); [|injection H2 as <-; reflexivity]; injection H2 as <-; reflexivity).
    unfold mbind at 1, set_iter in Hr. unfold mbind at 1, set_info at 1 in Hr. unfold mbind at 1, get at 1 in Hr.
    cbv zeta in Hr. cbn [st_solver st_sw st_iter st_info st_calls st_dicts] in Hr. rewrite <- T2.
    apply mbind_inv in Hr. destruct Hr as [((w & er) & s4 & H4 & Hr)|(e & H4 & ?)]; [|discriminate].
    apply widths_inv in H4. destruct H4 as ((Q1 & _) & _). cbn in Q1. rewrite <- Q1.
    unfold mbind at 1, lift at 1 in Hr. cbn [fst snd] in Hr. destruct (below_tol H er) as [b|]; [|discriminate].
    apply mbind_inv in Hr. destruct Hr as [(so & s5 & H5 & Hr)|(e & _ & ?)]; [|discriminate].
    assert (s5 = s') as -> by (destruct so as [so|]; [|discriminate]; unfold mbind, lift in Hr; destruct (print_cost mute so); [|discriminate]; injection Hr as <- <-; reflexivity).
    destruct b; [injection H5 as <- <-; reflexivity|]. apply loop_inv in H5. destruct H5 as (new & _ & _ & Q & _). exact Q. }
  eexists. split; [rewrite K; exact T|]. split; [reflexivity|]. cbn. apply options_spec. unfold h_opts. destruct (dmem _ _ _); [exact Hd|now apply dset_keys].
Qed.
(** with ipopt the same options as in class mpopt *)
Lemma h_opts_ipopt a s eff : options_ok "ipopt" (h_opts a s) eff -> options_ok (N := N) "ipopt" (dict_at s (a_nopts a)) eff.
Proof.
  intros Ho k. rewrite (Ho k). unfold h_opts, dmem. destruct (dget String.eqb (dict_at s (a_nopts a)) "ipopt.print_level") eqn:Ed; [reflexivity|].
  rewrite dget_dset. destruct (String.eqb_spec k "ipopt.print_level") as [->|]; [|reflexivity]. rewrite Ed. reflexivity.
Qed.
End Opts.

(** ** worked cases *)
Section Cases.
Context {N : num}.
Variables (o : ocp N) (cf : ccfg N) (w1 w2 w3 w4 : N).
Definition ex_mp : mpo N := Mpo o 2 [1; 1]%nat cf.
Definition ex_one : mpo N := Mpo o 1 [1]%nat cf.
Definition ex_sol : sdict := [("x", [w1]); ("f", [w2])].
Definition ex_env : env (N := N) := Env (Ok tt) (fun _ _ => Ok tt) (fun _ _ _ => Ok ex_sol).
(** a refinement rule that shows which method was asked for *)
Definition ex_h (sub : string) : hcfg (N := N) :=
  Hcfg [] "residual" sub (fun _ _ => Ok ([w1; w1], None))
    (fun m _ _ => Ok (if String.eqb m "merge_split" then [w1; w2] else [w3; w4], None)).
Definition ex_args (solver : string) : sargs (N := N) := Sargs (Some [("x", [w1])]) false solver 0 1.

(** mpopt_h_adaptive passes an ipopt option to any solver, and writes it into the caller's dictionary *)
Lemma h_options_wrong : exists (E : env (N := N)) mp H a n s s' sol v, h_solve E mp true H a n s = (s', Ok sol) /\
  st_solver s = None /\ dict_at s (a_nopts a) = [] /\ a_solver a = "snopt" /\
  st_solver s' = Some v /\ s_opts v = [("ipopt.print_level", VInt 0)] /\ dict_at s' (a_nopts a) = [("ipopt.print_level", VInt 0)].
Proof.
  exists ex_env, ex_mp, (ex_h "equal_area"), (ex_args "snopt"), 1%nat, (fresh [[]; []]). do 3 eexists. split; [vm_compute; reflexivity|]. do 5 (split; [reflexivity|]). reflexivity.
Qed.
(** the default of mpopt_options is changed by the first call: a later call with default
    arguments refines by the method that was the default then, not by the present one *)
Lemma h_default_wrong : exists (E : env (N := N)) mp a n s s1 sol1 s2 sol2 c,
  a_mopts a = 1%nat /\ st_dicts s = [[]; []] /\
  h_solve E mp true (ex_h "equal_area") a n s = (s1, Ok sol1) /\
  h_solve E mp true (ex_h "merge_split") (Sargs (Some sol1) false (a_solver a) (a_nopts a) (a_mopts a)) n s1 = (s2, Ok sol2) /\
  st_calls s2 = st_calls s1 ++ [c] /\ used_widths c = Some [w3; w4] /\
  (exists c' s2' sol2', h_solve E mp true (ex_h "merge_split") (Sargs (Some sol1) false (a_solver a) (a_nopts a) (a_mopts a)) n
       (Ost (st_solver s1) (st_sw s1) (st_iter s1) (st_info s1) (st_calls s1) [[]; []]) = (s2', Ok sol2') /\
     st_calls s2' = st_calls s1 ++ [c'] /\ used_widths c' = Some [w1; w2]).
Proof.
  exists ex_env, ex_mp, (ex_args "ipopt"), 1%nat, (fresh [[]; []]). do 5 eexists. split; [reflexivity|]. split; [reflexivity|].
  split; [vm_compute; reflexivity|]. split; [vm_compute; reflexivity|]. split; [reflexivity|]. split; [reflexivity|].
  do 3 eexists. split; [vm_compute; reflexivity|]. split; reflexivity.
Qed.
(** without iterations and without a converged initial solution *)
Lemma h_no_iterations : snd (h_solve ex_env ex_mp true (ex_h "equal_area") (ex_args "ipopt") 0 (fresh [[]; []])) = Raise UnboundLocalError.
Proof. vm_compute. reflexivity. Qed.
Lemma ex_h_runs : exists s', h_solve ex_env ex_mp true (ex_h "equal_area") (ex_args "ipopt") 1 (fresh [[]; []]) = (s', Ok ex_sol).
Proof. eexists. vm_compute. reflexivity. Qed.
Lemma ex_one_runs : exists s', h_solve ex_env ex_one true (ex_h "equal_area") (ex_args "ipopt") 1 (fresh [[]; []]) = (s', Ok ex_sol).
Proof. eexists. vm_compute. reflexivity. Qed.
Lemma ex_base_runs : let x := OSolve (ex_args "ipopt") in
  snd (base_solve ex_env ex_mp true (ex_args "sqpmethod") (steps ex_env ex_mp true (ex_h "equal_area") (fresh [[]; []]) ([OSet 0 []] ++ x :: [x]))) = Ok ex_sol.
Proof. vm_compute. reflexivity. Qed.
End Cases.
