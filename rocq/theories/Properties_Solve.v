(** Properties of solving: warm start, options, solver reuse, refinement loop (C22-C25, C44).

    [E : env] is the outside world: whether the solver can be built and what it returns, as a
    function of all earlier calls.  All statements hold for every number type. *)
From Coq Require Import Reals Lia Bool String List Arith ZArith.
From Verif Require Import Num PyList Mat Poly Roots Colloc Ocp Transcribe Solve SpecSolve SpecHist NumR SolveR HsolveR HistR ExOcp ExSolve.
Import ListNotations.
Open Scope string_scope.
Open Scope list_scope.

(** * C22 *)
(** [warm_ok s g r]: r has x0 (the last of the entries x, x0 of s, else the guess g), the last of
    lam_x, lam_x0 as lam_x0, of lam_g, lam_g0 as lam_g0, and no other key *)
Theorem C22_warm_start : forall (N : num) (mp : mpo N) (s : sdict) r, warm_start mp (Some s) = Ok r ->
  exists g, (last_entry s ["x"; "x0"] = None -> initialize_solution mp = Ok g) /\ warm_ok s g r.
Proof. intros N. exact warm_spec. Qed.
Print Assumptions C22_warm_start.
Theorem C22_no_solution : forall (N : num) (mp : mpo N) r,
  warm_start mp None = Ok r <-> exists z, initialize_solution mp = Ok z /\ r = [("x0", z)].
Proof. intros N. exact warm_none. Qed.
Print Assumptions C22_no_solution.
Theorem C22_given_x_suffices : forall (N : num) (mp : mpo N) (s : sdict),
  last_entry s ["x"; "x0"] <> None -> exists r, warm_start mp (Some s) = Ok r.
Proof. intros N. exact warm_ok_x. Qed.
Print Assumptions C22_given_x_suffices.
(** a dictionary with unique keys of which one is listed *)
Theorem C22_single_key : forall (V : Type) (d : list (string * V)) ks k v, NoDup (map fst d) -> In (k, v) d -> In k ks ->
  (forall k', In k' ks -> k' <> k -> ~ In k' (map fst d)) -> last_entry d ks = Some v.
Proof. intros V. exact last_entry_unique. Qed.
Print Assumptions C22_single_key.
Example C22_case : forall (N : num) (mp : mpo N) (a b c : N),
  warm_start mp (Some [("lam_g", [a]); ("f", [b]); ("x", [c])]) = Ok [("lam_g0", [a]); ("x0", [c])].
Proof. reflexivity. Qed.
(** what every successful solve passes to the solver *)
Theorem C22_solver_inputs : forall (N : num) (E : env) (mp : mpo N) mute H s a sol, snd (base_solve E mp mute a s) = Ok sol -> exists c i w,
  st_calls (step E mp mute H s (OSolve a)) = st_calls s ++ [c] /\ ca_out c = Ok sol /\
  warm_start mp (a_init a) = Ok i /\ ca_in c = dset String.eqb i "p" w /\ st_sw (step E mp mute H s (OSolve a)) = Some w /\
  match dget String.eqb (dict_at s (a_mopts a)) "nlp_sw_params" with
  | Some v => v = VNums w
  | None => w = repeat (n1 / nofnat (mp_nseg mp))%num (mp_nseg mp * o_nph (mp_ocp mp))
  end.
Proof. intros N. exact call_inputs. Qed.
Print Assumptions C22_solver_inputs.

(** * C23 *)
Theorem C23_options : forall (N : num) (solver : string) (user : odict (N := N)), NoDup (map fst user) ->
  options_ok solver user (solver_options solver user).
Proof. intros N. exact options_spec. Qed.
Print Assumptions C23_options.
(** class mpopt: over any operations the dictionaries are what the user wrote *)
Theorem C23_dictionaries_kept : forall (N : num) (E : env) (mp : mpo N) mute H s l, (forall x, In x l -> base_op x) ->
  st_dicts (steps E mp mute H s l) = written (st_dicts s) l.
Proof. intros N. exact steps_dicts. Qed.
Print Assumptions C23_dictionaries_kept.
(** class mpopt_h_adaptive: as above for ipopt *)
Theorem C23_adaptive_ipopt_partial : forall (N : num) (E : env) (mp : mpo N) mute H a n s s' sol,
  st_solver s = None \/ a_reinit a = true -> (a_nopts a < length (st_dicts s))%nat ->
  NoDup (map fst (dict_at s (a_nopts a))) -> h_solve E mp mute H a n s = (s', Ok sol) -> a_solver a = "ipopt" ->
  exists v, st_solver s' = Some v /\ s_name v = "ipopt" /\ options_ok "ipopt" (dict_at s (a_nopts a)) (s_opts v).
Proof.
  intros N E mp mute H a n s s' sol H1 H2 H3 H4 H5. destruct (h_creates _ _ _ _ _ _ _ _ _ H1 H2 H3 H4) as (v & K1 & K2 & K3).
  rewrite H5 in K2, K3. exists v. split; [exact K1|]. split; [exact K2|]. exact (h_opts_ipopt _ _ _ K3).
Qed.
Print Assumptions C23_adaptive_ipopt_partial.
(** with another solver it is given an option of ipopt that nobody asked for, and the caller's
    dictionary is changed *)
Theorem C23_adaptive_refuted : forall (N : num) (o : ocp N) (cf : ccfg N), exists (E : env (N := N)) mp H a n s s' sol v,
  h_solve E mp true H a n s = (s', Ok sol) /\
  st_solver s = None /\ dict_at s (a_nopts a) = [] /\ a_solver a = "snopt" /\
  st_solver s' = Some v /\ s_opts v = [("ipopt.print_level", VInt 0)] /\ dict_at s' (a_nopts a) = [("ipopt.print_level", VInt 0)].
Proof. intros N o cf. exact (h_options_wrong o cf n0 n0 n0 n0). Qed.
Print Assumptions C23_adaptive_refuted.

(** * C24 *)
(** a: the first solve, or one with reinitialize_nlp; no later one asks for a new solver object;
    then the successful solve b uses the solver created by a, and remembers the widths it used *)
Theorem C24_reuse : forall (N : num) (E : env) (mp : mpo N) mute H dicts pre a mid b sol,
  (forall x, In x (pre ++ OSolve a :: mid) -> base_op x) ->
  (forall x, In x pre -> no_solve x) \/ a_reinit a = true ->
  (forall x, In x mid -> keeps_solver x) -> a_reinit b = false ->
  let user := nth (a_nopts a) (written dicts pre) [] in
  e_build E = Ok tt -> e_nlpsol E (a_solver a) (solver_options (a_solver a) user) = Ok tt ->
  let s := steps E mp mute H (fresh dicts) (pre ++ OSolve a :: mid) in
  snd (base_solve E mp mute b s) = Ok sol ->
  exists c, st_calls (step E mp mute H s (OSolve b)) = st_calls s ++ [c] /\ ca_out c = Ok sol /\
    ca_solver c = Nlpsol (a_solver a) (solver_options (a_solver a) user) /\
    st_sw (step E mp mute H s (OSolve b)) = used_widths c.
Proof. intros N. exact reuse. Qed.
Print Assumptions C24_reuse.
Theorem C24_creating_call : forall (N : num) (E : env) (mp : mpo N) mute H s b sol,
  st_solver s = None \/ a_reinit b = true -> snd (base_solve E mp mute b s) = Ok sol ->
  exists c, st_calls (step E mp mute H s (OSolve b)) = st_calls s ++ [c] /\ ca_out c = Ok sol /\
    ca_solver c = Nlpsol (a_solver b) (solver_options (a_solver b) (dict_at s (a_nopts b))) /\
    st_sw (step E mp mute H s (OSolve b)) = used_widths c.
Proof. intros N. exact creating_call. Qed.
Print Assumptions C24_creating_call.
Example C24_case : forall (N : num) (o : ocp N) (cf : ccfg N) (w : N), let x := OSolve (ex_args w "ipopt") in
  (forall y, In y ([OSet 0 []] ++ x :: [x]) -> base_op y) /\ (forall y, In y [x] -> keeps_solver y) /\
  snd (base_solve (ex_env w w) (ex_mp o cf) true (ex_args w "sqpmethod")
         (steps (ex_env w w) (ex_mp o cf) true (ex_h w w w w "equal_area") (fresh [[]; []]) ([OSet 0 []] ++ x :: [x]))) = Ok (ex_sol w w).
Proof.
  intros N o cf w x. split; [|split].
  - intros y [<-|[<-|[<-|[]]]]; exact I.
  - intros y [<-|[]]. reflexivity.
  - exact (ex_base_runs o cf w w w w).
Qed.

(** * C25 *)
Theorem C25_loop : forall (N : num) (E : env) (mp : mpo N) mute H a n s s' r, h_solve E mp mute H a n s = (s', r) ->
  exists new, st_calls s' = st_calls s ++ new /\ (length new <= n)%nat /\ chained mp (a_init a) new /\
    (forall c, In c new -> st_solver s' = Some (ca_solver c)) /\
    (a_reinit a = false -> st_solver s <> None -> st_solver s' = st_solver s) /\
    (n = 0%nat -> a_init a = None -> exists e, r = Raise e) /\
    (forall sol, r = Ok sol -> st_iter s' = length new /\
       (new = [] -> a_init a = Some sol) /\
       (new <> [] -> exists pre c, new = pre ++ [c] /\ ca_out c = Ok sol /\ st_sw s' = used_widths c /\ used_widths c <> None)).
Proof. intros N. exact h_solve_inv. Qed.
Print Assumptions C25_loop.
(** any history of calls of both classes and writes to dictionaries: calls of the solver are only added, at most one per call of
    mpopt.solve and max_iter per call of mpopt_h_adaptive.solve *)
Theorem C25_history : forall (N : num) (E : env) (mp : mpo N) mute H l s, exists new,
  st_calls (steps E mp mute H s l) = st_calls s ++ new /\ (length new <= budget l)%nat.
Proof. intros N. exact history_thm. Qed.
Print Assumptions C25_history.
(** each call counts its iterations anew: the counts that earlier calls left make no difference *)
Theorem C25_counts_anew : forall (N : num) (E : env) (mp : mpo N) mute H a n s it info,
  let (s1, r1) := h_solve E mp mute H a n s in let (s2, r2) := h_solve E mp mute H a n (recount s it info) in
  r2 = r1 /\ recount s2 0 [] = recount s1 0 [] /\ (forall sol, r1 = Ok sol -> s2 = s1).
Proof. intros N. exact recount_thm. Qed.
Print Assumptions C25_counts_anew.
Theorem C25_one_segment : forall (E : env) (mp : mpo Rnum) mute H a n s s' sol, mp_nseg mp = 1%nat -> h_solve E mp mute H a n s = (s', Ok sol) ->
  exists c, st_calls s' = st_calls s ++ [c] /\ ca_out c = Ok sol /\ st_iter s' = 1%nat.
Proof. exact h_one. Qed.
Print Assumptions C25_one_segment.
Example C25_case : forall (N : num) (o : ocp N) (cf : ccfg N) (w : N), exists s',
  h_solve (ex_env w w) (ex_mp o cf) true (ex_h w w w w "equal_area") (ex_args w "ipopt") 1 (fresh [[]; []]) = (s', Ok (ex_sol w w)).
Proof. intros N o cf w. exact (ex_h_runs o cf w w w w). Qed.
Example C25_one_segment_case : forall (o : ocp Rnum) (cf : ccfg Rnum) (w : R), mp_nseg (ex_one o cf) = 1%nat /\ exists s',
  h_solve (ex_env (N := Rnum) w w) (ex_one o cf) true (ex_h (N := Rnum) w w w w "equal_area") (ex_args (N := Rnum) w "ipopt") 1 (fresh [[]; []]) = (s', Ok (ex_sol (N := Rnum) w w)).
Proof. intros o cf w. split; [reflexivity|]. exact (ex_one_runs (N := Rnum) o cf w w w w). Qed.

(** * C44 *)
(** two calls with default arguments; between them the default sub-method is changed; the second
    call still refines by the old one (third part: what it does with an untouched default) *)
Theorem C44_defaults_refuted : forall (N : num) (o : ocp N) (cf : ccfg N) (w1 w2 w3 w4 : N),
  exists (E : env (N := N)) mp a n s s1 sol1 s2 sol2 c,
  a_mopts a = 1%nat /\ st_dicts s = [[]; []] /\
  h_solve E mp true (ex_h w1 w2 w3 w4 "equal_area") a n s = (s1, Ok sol1) /\
  h_solve E mp true (ex_h w1 w2 w3 w4 "merge_split") (Sargs (Some sol1) false (a_solver a) (a_nopts a) (a_mopts a)) n s1 = (s2, Ok sol2) /\
  st_calls s2 = st_calls s1 ++ [c] /\ used_widths c = Some [w3; w4] /\
  (exists c' s2' sol2', h_solve E mp true (ex_h w1 w2 w3 w4 "merge_split") (Sargs (Some sol1) false (a_solver a) (a_nopts a) (a_mopts a)) n
       (Ost (st_solver s1) (st_sw s1) (st_iter s1) (st_info s1) (st_calls s1) [[]; []]) = (s2', Ok sol2') /\
     st_calls s2' = st_calls s1 ++ [c'] /\ used_widths c' = Some [w1; w2]).
Proof. intros N. exact h_default_wrong. Qed.
Print Assumptions C44_defaults_refuted.
(** class mpopt has no such memory: its calls leave the default dictionaries as they are *)
Theorem C44_base_partial : forall (N : num) (E : env) (mp : mpo N) mute H s l, (forall x, In x l -> base_op x) ->
  st_dicts (steps E mp mute H s l) = written (st_dicts s) l.
Proof. intros N. exact steps_dicts. Qed.
Print Assumptions C44_base_partial.
