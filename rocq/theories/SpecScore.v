(** Costs measured on another scale (vocabulary of C88). *)
From Coq Require Import Reals Arith.
From Coq Require Import List.
From Verif Require Import Num PyList Mat Poly Roots Colloc Ocp Transcribe Spec SpecOcp.
Import ListNotations.
Open Scope R_scope.

(** the terminal cost of phase [ph0] is the only cost *)
Definition one_cost (o : ocp Rnum) (ph0 : nat) : Prop := (ph0 < o_nph o)%nat /\
  (forall ph f x u t a v, nth_error (o_run o) ph = Some f -> f x u t a = Ok (Some v) -> v = 0) /\
  (forall ph f xf tf x0 t0 a v, ph <> ph0 -> nth_error (o_mayer o) ph = Some f -> f xf tf x0 t0 a = Ok (Some v) -> v = 0).
(** other terminal costs, equal but for [g] on those of the phases in [on] *)
Definition scored (o : ocp Rnum) (on : nat -> bool) (g : R -> R) (mayer : list mayer_fn) : Prop :=
  forall ph f h xf tf x0 t0 a v, nth_error (o_mayer o) ph = Some f -> nth_error mayer ph = Some h -> f xf tf x0 t0 a = Ok (Some v) ->
    h xf tf x0 t0 a = Ok (Some (if on ph then g v else v)).
