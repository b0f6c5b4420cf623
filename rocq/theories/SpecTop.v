(** Specification of the module function solve. *)
From Coq Require Import String Reals List Arith.
From Verif Require Import Num PyList Colloc Ocp Transcribe Solve SpecOcp SpecSolve SpecHadapt SpecLoop.
Import ListNotations.
Open Scope R_scope.
Open Scope list_scope.

(** the optimizer of the arguments: an integer order is meant for all segments *)
Definition built (o : ocp Rnum) (n : nat) (po : orders_arg) (cf : ccfg Rnum) (mp : mpo Rnum) : Prop :=
  mp_ocp mp = o /\ mp_nseg mp = n /\ mp_cf mp = cf /\ length (mp_orders mp) = n /\
  match po with OInt q => forall p, In p (mp_orders mp) -> p = q | OList l => mp_orders mp = l end.
(** the widths: those of the options, equal ones by default *)
Definition chosen (mp : mpo Rnum) (options : odict (N := Rnum)) (p : list R) : Prop :=
  match dget String.eqb options "nlp_sw_params"%string with Some v => v = VNums p | None => p = even mp end.
(** the solver object is made with the user's options *)
Definition made_solver (name : string) (user : odict (N := Rnum)) (v : nlpsol (N := Rnum)) : Prop :=
  s_name v = name /\ (NoDup (map fst user) -> options_ok name user (s_opts v)).

(** a solver that can be made, always returns, and returns vectors of the program's size *)
Definition solver_total (E : env (N := Rnum)) (mp : mpo Rnum) : Prop :=
  e_build E = Ok tt /\ (forall name opts, e_nlpsol E name opts = Ok tt) /\
  forall calls v i, exists sol x f, e_run E calls v i = Ok sol /\ dget String.eqb sol "x"%string = Some x /\
    length x = (o_nph (mp_ocp mp) * nvars mp)%nat /\ dget String.eqb sol "f"%string = Some f.
