(** The refinement of segment widths inside the loop of mpopt_h_adaptive: the two computations that
    get_segment_width_parameters chooses from, mpopt.py:2472-2522, with the object's attributes.
    [tol], [lbh], [ubh] are tol_residual, lbh, ubh (one entry per phase), [threshold] is
    _THRESHOLD_SLOPE, [method] and [sub] are _DEFAULT_METHOD and _DEFAULT_SUB_METHOD. *)
From Coq Require Import List Arith ZArith Bool String.
From Verif Require Import Num PyList Mat Poly Roots Colloc Ocp Transcribe Solve Hadapt Resid.
Import ListNotations.
Open Scope string_scope.
Open Scope list_scope.
Set Implicit Arguments.
Unset Strict Implicit.

Section Refine.
Context {N : num}.
Definition refine_cfg (rc : rcfg) (mp : mpo N) (tol lbh ubh : list N) (threshold : N) (method sub : string) : hcfg (N := N) :=
  Hcfg tol method sub
    (fun sw sol => x <- dat String.eqb sol "x" ;;
                   '(w, e) <- refine_by_slope rc mp tol lbh ubh threshold sw x ;; Ok (w, Some e))
    (fun sub sw sol => x <- dat String.eqb sol "x" ;;
                       '(w, e) <- refine_by_residual rc mp tol sub sw x ;; Ok (w, Some e)).
End Refine.
