(** The function solve of the module, mpopt.py:4279-4309.

    Simplified: plot is False (Plot.v has the plots; they change nothing that is returned but may raise); solve_dict is given by the
    arguments [a] of mpopt.solve that it stands for; the outside world [E] is that of the optimizer
    that is built. *)
From Coq Require Import String List Arith.
From Verif Require Import Num PyList Mat Roots Colloc Ocp Transcribe Solve Hadapt Resid Adaptive Post.
Import ListNotations.
Local Notation "x <-- m ;; k" := (mbind m (fun x => k)) (at level 61, m at next level, right associativity).

Section Top.
Context {N : num}.
Variables (rc : rcfg) (E : mpo N -> env (N := N)) (mute : bool).

(** process_results(solution, ...) of the object: reads solution["x"] and _nlp_sw_params *)
Definition process (mp : mpo N) (plots : list (list nat)) (sol : sdict (N := N)) (residual_x residual_dx : bool) : M (post (N := N)) :=
  s <-- get (N := N) ;;
  lift (N := N) (z <- dat String.eqb sol "x"%string ;;
        match st_sw s with
        | Some sw => process_results rc mp plots sw z false residual_x residual_dx
        | None => Raise TypeError
        end).

(** a new object: no solver, no widths; the dictionaries of the user remain *)
Definition new_object : M (N := N) unit := fun s => (Ost None None 0 [] (st_calls s) (st_dicts s), Ok tt).

Definition top_solve (o : ocp N) (n_segments : nat) (po : orders_arg) (cf : ccfg N) (plots : list (list nat))
    (a : sargs (N := N)) (residual_x residual_dx : bool) : M (mpo N * post (N := N)) :=
  mp <-- lift (N := N) (new_mpo o n_segments po cf) ;;
  _ <-- new_object ;;
  sol <-- base_solve (E mp) mp mute a ;;
  p <-- process mp plots sol residual_x residual_dx ;;
  ret (N := N) (mp, p).
End Top.
