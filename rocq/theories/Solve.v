(** Solving: create_solver, solve and warm start of class mpopt (mpopt.py:710-855) and the
    refinement loop of class mpopt_h_adaptive (mpopt.py:2331-2522).

    The optimizer is an object with attributes; methods are functions of its state that return
    a result or an exception, and the state at that moment.  Dictionaries passed as arguments
    are locations of a store, so that writing to them is visible to the caller; the default
    arguments `= {}` are two fixed locations, shared by all calls as in Python.
    Calls of the NLP solver object are recorded.  What the solver returns, and whether its
    construction fails, is given by [env] and may depend on all earlier calls.
    Not modelled: printing (except that reading solution["f"] for printing may raise), time. *)
From Coq Require Import List Arith ZArith Bool String.
From Verif Require Import Num PyList Mat Poly Roots Colloc Ocp Transcribe.
Import ListNotations.
Open Scope string_scope.
Set Implicit Arguments.
Unset Strict Implicit.

Section Solve.
Context {N : num}.

(** values of option dictionaries; [VOther] stands for any other Python object *)
Inductive val := VInt (z : Z) | VDec (a b : Z) | VStr (s : string) | VNums (l : list N) | VOther (k : nat).
Definition odict := list (string * val).
(** solutions and solver inputs: names to vectors *)
Definition sdict := list (string * list N).

(** ** get_solver_warm_start_input_parameters, mpopt.py:822-855 *)
Definition key_target_pair : list (string * string) :=
  [("x", "x0"); ("x0", "x0"); ("lam_x", "lam_x0"); ("lam_x0", "lam_x0"); ("lam_g", "lam_g0"); ("lam_g0", "lam_g0")].
Definition warm_copy (d : sdict) (e : string * list N) : sdict :=
  match dget String.eqb key_target_pair (fst e) with
  | Some t => dset String.eqb d t (snd e)
  | None => d
  end.
Definition warm_start (mp : mpo N) (solution : option sdict) : res sdict :=
  d <- match solution with
       | None => z <- initialize_solution mp ;; Ok (dset String.eqb [] "x0" z)
       | Some s => Ok (fold_left warm_copy s [])
       end ;;
  if dmem String.eqb d "x0" then Ok d
  else z <- initialize_solution mp ;; Ok (dset String.eqb d "x0" z).

(** ** create_solver, mpopt.py:725-758 *)
Definition default_options (solver : string) : odict :=
  if String.eqb solver "ipopt" then
    [("ipopt.max_iter", VInt 2000); ("ipopt.acceptable_tol", VDec 1 10000);
     ("ipopt.print_level", VInt 0); ("ipopt.sb", VStr "yes"); ("print_time", VInt 0)]
  else [].
Definition solver_options (solver : string) (options : odict) : odict :=
  fold_left (fun d e => dset String.eqb d (fst e) (snd e)) options (default_options solver).

(** the object returned by ca.nlpsol: its plugin name and options (its problem is the
    optimizer's, which does not change) *)
Record nlpsol := Nlpsol { s_name : string; s_opts : odict }.
Record call := Call { ca_solver : nlpsol; ca_in : sdict; ca_out : res sdict }.

(** the outside world *)
Record env := Env {
  e_build : res unit;                                   (* does create_nlp raise? *)
  e_nlpsol : string -> odict -> res unit;               (* does ca.nlpsol raise? *)
  e_run : list call -> nlpsol -> sdict -> res sdict     (* what the solver returns *)
}.

(** attributes: nlp_solver (None until _nlpsolver_initialized), _nlp_sw_params, iter_count,
    iter_info; the calls made so far; the dictionaries *)
Record ost := Ost {
  st_solver : option nlpsol;
  st_sw : option (list N);
  st_iter : nat;
  st_info : list (nat * option N);
  st_calls : list call;
  st_dicts : list odict
}.
Definition fresh (dicts : list odict) : ost := Ost None None 0 [] [] dicts.

Definition M (A : Type) : Type := ost -> ost * res A.
Definition ret {A} (a : A) : M A := fun s => (s, Ok a).
Definition lift {A} (r : res A) : M A := fun s => (s, r).
Definition mbind {A B} (m : M A) (f : A -> M B) : M B :=
  fun s => match m s with (s', Ok a) => f a s' | (s', Raise e) => (s', Raise e) end.
Declare Scope M_scope.
Delimit Scope M_scope with M.
Notation "x <-- m ;; k" := (mbind m (fun x => k)) (at level 61, m at next level, right associativity) : M_scope.
Open Scope M_scope.
Definition get : M ost := fun s => (s, Ok s).
Definition set_solver (v : nlpsol) : M unit :=
  fun s => (Ost (Some v) (st_sw s) (st_iter s) (st_info s) (st_calls s) (st_dicts s), Ok tt).
Definition set_sw (v : list N) : M unit :=
  fun s => (Ost (st_solver s) (Some v) (st_iter s) (st_info s) (st_calls s) (st_dicts s), Ok tt).
Definition set_iter (n : nat) : M unit :=
  fun s => (Ost (st_solver s) (st_sw s) n (st_info s) (st_calls s) (st_dicts s), Ok tt).
Definition set_info (i : list (nat * option N)) : M unit :=
  fun s => (Ost (st_solver s) (st_sw s) (st_iter s) i (st_calls s) (st_dicts s), Ok tt).
Fixpoint replace_nth {A} (l : list A) (i : nat) (x : A) : list A :=
  match l, i with
  | [], _ => []
  | _ :: l', 0 => x :: l'
  | a :: l', S i' => a :: replace_nth l' i' x
  end.
Definition dict_at (s : ost) (i : nat) : odict := nth i (st_dicts s) [].
(** d[k] = v for the dictionary at location i *)
Definition dict_write (i : nat) (k : string) (v : val) : M unit :=
  fun s => (Ost (st_solver s) (st_sw s) (st_iter s) (st_info s) (st_calls s)
              (replace_nth (st_dicts s) i (dset String.eqb (dict_at s i) k v)), Ok tt).
(** self.nlp_solver(inputs, bounds) *)
Definition call_solver (E : env) (v : nlpsol) (inputs : sdict) : M sdict :=
  fun s => let out := e_run E (st_calls s) v inputs in
    (Ost (st_solver s) (st_sw s) (st_iter s) (st_info s) (st_calls s ++ [Call v inputs out]) (st_dicts s), out).

Variable E : env.
Variable mp : mpo N.
(** class attribute _MUTE_, mpopt.py:54 *)
Variable mute : bool.

Definition create_solver (solver : string) (options : odict) : M unit :=
  _ <-- lift (e_build E) ;;
  let opts := solver_options solver options in
  _ <-- lift (e_nlpsol E solver opts) ;;
  set_solver (Nlpsol solver opts).
(** printing of the optimal cost reads solution["f"], mpopt.py:808-809, 2465-2466 *)
Definition print_cost (sol : sdict) : res unit :=
  if mute then Ok tt else _ <- dat String.eqb sol "f" ;; Ok tt.

(** get_segment_width_parameters, mpopt.py:710-723 *)
Definition equal_widths : list N :=
  repeat (ndiv n1 (nofnat (mp_nseg mp))) (mp_nseg mp * o_nph (mp_ocp mp)).

(** arguments of solve; the dictionaries are locations *)
Record sargs := Sargs {
  a_init : option sdict;
  a_reinit : bool;
  a_solver : string;
  a_nopts : nat;
  a_mopts : nat
}.
(** self.nlp_solver is read after it has been created *)
Definition current_solver : M nlpsol :=
  s <-- get ;;
  match st_solver s with Some v => ret v | None => lift (Raise TypeError) end.
(** a value that is not a vector fails; simplified: CasADi would use a number given here for all
    segments *)
Definition as_nums (v : val) : res (list N) :=
  match v with VNums l => Ok l | _ => Raise CasadiError end.

(** mpopt.solve, mpopt.py:760-820 *)
Definition base_solve (a : sargs) : M sdict :=
  s <-- get ;;
  _ <-- (match st_solver s, a_reinit a with
         | Some _, false => ret tt
         | _, _ => create_solver (a_solver a) (dict_at s (a_nopts a))
         end) ;;
  s <-- get ;;
  sw <-- lift (match dget String.eqb (dict_at s (a_mopts a)) "nlp_sw_params" with
               | Some v => as_nums v
               | None => Ok equal_widths
               end) ;;
  _ <-- set_sw sw ;;
  inputs <-- lift (warm_start mp (a_init a)) ;;
  v <-- current_solver ;;
  sol <-- call_solver E v (dset String.eqb inputs "p" sw) ;;
  _ <-- lift (print_cost sol) ;;
  ret sol.

(** ** mpopt_h_adaptive *)
(** attributes of the class and of the object: tol_residual, _DEFAULT_METHOD,
    _DEFAULT_SUB_METHOD; the two refinement computations (modelled in Hadapt.v), which read
    _nlp_sw_params *)
Record hcfg := Hcfg {
  h_tol : list N;
  h_method : string;
  h_sub : string;
  h_slope : list N -> sdict -> res (list N * option N);
  h_resid : string -> list N -> sdict -> res (list N * option N)
}.
Variable H : hcfg.

(** get_segment_width_parameters, mpopt.py:2472-2522 *)
Definition h_widths (solution : option sdict) (options : odict) : M (list N * option N) :=
  if Nat.eqb (mp_nseg mp) 1 then ret (equal_widths, None)
  else match solution with
  | None => ret (equal_widths, None)
  | Some sol =>
      s <-- get ;;
      _ <-- (match st_sw s with Some _ => ret tt | None => set_sw equal_widths end) ;;
      let sw := match st_sw s with Some w => w | None => equal_widths end in
      match dget String.eqb options "method" with
      | Some (VStr m) =>
          if String.eqb m "control_slope" then lift (h_slope H sw sol)
          else if String.eqb m "residual" then
            let sub := match dget String.eqb options "sub_method" with
                       | Some (VStr t) => t | Some _ => "" | None => "equal_area" end in
            lift (h_resid H sub sw sol)
          else ret (equal_widths, None)
      | _ => ret (equal_widths, None)
      end
  end.

(** the last four recorded errors; None among them makes np.mean raise *)
Fixpoint all_some {A} (l : list (option A)) : option (list A) :=
  match l with
  | [] => Some []
  | None :: _ => None
  | Some a :: l' => match all_some l' with Some r => Some (a :: r) | None => None end
  end.
Definition mean_last4 (info : list (nat * option N)) : res N :=
  let vs := map snd info in
  match all_some (skipn (List.length vs - 4) vs) with
  | Some l => Ok (ndiv (sum_ l) (nofnat (List.length l)))
  | None => Raise TypeError
  end.
(** 0.05 and self._TOL_SEG_WIDTH_CHANGE, mpopt.py:2294 *)
Definition tol5 : N := nlit 5 100.
(** mpopt.py:2406-2416 *)
Definition error_stalls (info : list (nat * option N)) (err : option N) : res bool :=
  m <- mean_last4 info ;;
  match err with
  | None => Raise TypeError
  | Some e => Ok (nltb (nabs (nsub e m)) (nmul tol5 (nabs e)))
  end.
(** mpopt.py:2418-2428 *)
Definition widths_stall (w old : list N) : res bool :=
  bs <- mapM (fun i => a <- at_ w i ;; b <- at_ old i ;; Ok (nleb (ndiv (nabs (nsub a b)) a) tol5))
          (seq 0 (List.length w)) ;;
  Ok (forallb (fun b => b) bs).
(** max_error < min(self.tol_residual) *)
Definition below_tol (err : option N) : res bool :=
  match err with
  | None => Ok false
  | Some e => t <- min_ (h_tol H) ;; Ok (nltb e t)
  end.

(** the loop, mpopt.py:2400-2461: [n] iterations left, [it] is the loop variable iter, [neww]
    and [err] the last results of get_segment_width_parameters, [old] is sw_old, [sol] the
    variable solution (None: unbound) *)
Fixpoint hloop (options : odict) (n it : nat) (init : option sdict) (neww : list N) (err : option N)
    (old : list N) (sol : option sdict) : M (option sdict) :=
  match n with
  | 0 => ret sol
  | S n' =>
      _ <-- set_sw neww ;;
      s <-- get ;;
      stop1 <-- (if Nat.ltb 0 (st_iter s) then
                   let info := dset Nat.eqb (st_info s) (st_iter s) err in
                   _ <-- set_info info ;;
                   (if Nat.ltb 4 (st_iter s) then lift (error_stalls info err) else ret false)
                 else ret false) ;;
      if stop1 : bool then _ <-- set_sw old ;; ret sol
      else
      stop2 <-- (if Nat.ltb 0 it then lift (widths_stall neww old) else ret false) ;;
      if stop2 : bool then _ <-- set_sw old ;; ret sol
      else
      inputs <-- lift (warm_start mp init) ;;
      v <-- current_solver ;;
      out <-- call_solver E v (dset String.eqb inputs "p" neww) ;;
      r <-- h_widths (Some out) options ;;
      s <-- get ;;
      _ <-- set_iter (st_iter s + 1) ;;
      b <-- lift (below_tol (snd r)) ;;
      s <-- get ;;
      if b : bool then
        _ <-- set_info (dset Nat.eqb (st_info s) (st_iter s) (snd r)) ;; ret (Some out)
      else
        _ <-- (if Nat.eqb n' 0 then set_info (dset Nat.eqb (st_info s) (st_iter s) (snd r)) else ret tt) ;;
        hloop options n' (it + 1) (Some out) (fst r) (snd r) neww (Some out)
  end.

(** solve, mpopt.py:2331-2470 *)
Definition h_solve (a : sargs) (max_iter : nat) : M sdict :=
  s <-- get ;;
  _ <-- (match st_solver s, a_reinit a with
         | Some _, false => ret tt
         | _, _ =>
             _ <-- (if dmem String.eqb (dict_at s (a_nopts a)) "ipopt.print_level" then ret tt
                    else dict_write (a_nopts a) "ipopt.print_level" (VInt 0)) ;;
             s <-- get ;;
             create_solver (a_solver a) (dict_at s (a_nopts a))
         end) ;;
  s <-- get ;;
  _ <-- (match dict_at s (a_mopts a) with
         | [] => _ <-- dict_write (a_mopts a) "method" (VStr (h_method H)) ;;
                 dict_write (a_mopts a) "sub_method" (VStr (h_sub H))
         | _ => ret tt
         end) ;;
  _ <-- set_iter 0 ;;
  _ <-- set_info [] ;;
  s <-- get ;;
  let options := dict_at s (a_mopts a) in
  r <-- h_widths (a_init a) options ;;
  b <-- lift (below_tol (snd r)) ;;
  sol <-- (if b : bool then
             _ <-- set_info (dset Nat.eqb [] 0 (snd r)) ;; ret (a_init a)
           else hloop options max_iter 0 (a_init a) (fst r) (snd r) [] None) ;;
  match sol with
  | None => lift (Raise UnboundLocalError)
  | Some sol => _ <-- lift (print_cost sol) ;; ret sol
  end.

(** ** Sequences of operations: calls of solve and writes of the user to their dictionaries *)
Inductive op := OSolve (a : sargs) | OHSolve (a : sargs) (max_iter : nat) | OSet (i : nat) (d : odict).
Definition step (s : ost) (x : op) : ost :=
  match x with
  | OSolve a => fst (base_solve a s)
  | OHSolve a n => fst (h_solve a n s)
  | OSet i d => Ost (st_solver s) (st_sw s) (st_iter s) (st_info s) (st_calls s) (replace_nth (st_dicts s) i d)
  end.
Definition steps (s : ost) (l : list op) : ost := fold_left step l s.

End Solve.
Arguments M {N} A.
