(** Specification of running costs that are strictly convex in some arguments. *)
From Coq Require Import Reals Arith String List.
From Verif Require Import Num PyList Mat Poly Roots Colloc Ocp Transcribe Spec SpecOcp SpecConvex NumR.
Import ListNotations.
Open Scope R_scope.

(** half way between two arguments that differ in the sense [D] the running cost of phase [ph] is below the mean of
    its two values *)
Definition strict_run (o : ocp Rnum) (ph : nat) (D : list R -> list R -> list R -> list R -> Prop) : Prop :=
  forall f x x' u u' t a a' (l l' m : R), nth_error (o_run o) ph = Some f ->
    length x = o_nx o -> length x' = o_nx o -> length u = o_nu o -> length u' = o_nu o -> arg_ok o a -> arg_ok o a' ->
    D x u x' u' -> f x u t a = Ok (Some l) -> f x' u' t a' = Ok (Some l') ->
    f (mixl (1 / 2) x x') (mixl (1 / 2) u u') t (mixo (1 / 2) a a') = Ok (Some m) -> m < mix (1 / 2) l l'.
Definition strict_controls (o : ocp Rnum) (ph : nat) : Prop := strict_run o ph (fun _ u _ u' => u <> u').
Definition strict_both (o : ocp Rnum) (ph : nat) : Prop := strict_run o ph (fun x u x' u' => x <> x' \/ u <> u').
(** the phase lasts: its fixed end is after its fixed start *)
Definition lasting (o : ocp Rnum) (ph : nat) : Prop :=
  exists t0 tf, t0 < tf /\ bnd ph (o_lbt0 o) 0 = Fin t0 /\ bnd ph (o_lbtf o) 0 = Fin tf.
(** node [i] of a phase has a positive weight in the objective: all nodes do, but for the first one if the scheme is
    LGR and the first order is not 1 *)
Definition weighted (mp : mpo Rnum) (i : nat) : Prop :=
  (1 <= i)%nat \/ cf_scheme (mp_cf mp) <> "LGR"%string \/ nth 0 (mp_orders mp) 0%nat = 1%nat.
