(** Specification of convex problems: straight lines between points. *)
From Coq Require Import Reals List Arith.
From Verif Require Import Num PyList Mat Poly Roots Colloc Ocp Transcribe Spec SpecOcp NumR.
Import ListNotations.
Open Scope R_scope.

(** the point [lam] of the way from [a] to [b] *)
Definition mix (lam a b : R) : R := (1 - lam) * a + lam * b.
Definition mixl (lam : R) (l m : list R) : list R := map (fun ab => mix lam (fst ab) (snd ab)) (combine l m).
Definition mixo (lam : R) (a b : option (list R)) : option (list R) :=
  match a, b with Some l, Some m => Some (mixl lam l m) | _, _ => None end.

(** phase [ph] of a problem: right-hand sides and terminal conditions affine, path constraints, running
    cost and terminal cost convex in states, controls and parameters *)
Record convex_phase (o : ocp Rnum) (ph : nat) : Prop := {
  cv_dyn : forall f lam x x' u u' t a a' d d', nth_error (o_dyn o) ph = Some f -> 0 <= lam <= 1 ->
    length x = o_nx o -> length x' = o_nx o -> length u = o_nu o -> length u' = o_nu o -> arg_ok o a -> arg_ok o a' ->
    f x u t a = Ok d -> f x' u' t a' = Ok d' -> f (mixl lam x x') (mixl lam u u') t (mixo lam a a') = Ok (mixl lam d d');
  cv_path : forall f lam x x' u u' t a a' c c' m, nth_error (o_path o) ph = Some f -> 0 <= lam <= 1 ->
    length x = o_nx o -> length x' = o_nx o -> length u = o_nu o -> length u' = o_nu o -> arg_ok o a -> arg_ok o a' ->
    f x u t a = Ok (Some c) -> f x' u' t a' = Ok (Some c') -> f (mixl lam x x') (mixl lam u u') t (mixo lam a a') = Ok (Some m) ->
    forall i, nth i m 0 <= mix lam (nth i c 0) (nth i c' 0);
  cv_run : forall f lam x x' u u' t a a' l l' m, nth_error (o_run o) ph = Some f -> 0 <= lam <= 1 ->
    length x = o_nx o -> length x' = o_nx o -> length u = o_nu o -> length u' = o_nu o -> arg_ok o a -> arg_ok o a' ->
    f x u t a = Ok (Some l) -> f x' u' t a' = Ok (Some l') -> f (mixl lam x x') (mixl lam u u') t (mixo lam a a') = Ok (Some m) ->
    m <= mix lam l l';
  cv_term : forall f lam xf xf' tf x0 x0' t0 a a' c c', nth_error (o_term o) ph = Some f -> 0 <= lam <= 1 ->
    length xf = o_nx o -> length xf' = o_nx o -> length x0 = o_nx o -> length x0' = o_nx o -> arg_ok o a -> arg_ok o a' ->
    f xf tf x0 t0 a = Ok (Some c) -> f xf' tf x0' t0 a' = Ok (Some c') ->
    f (mixl lam xf xf') tf (mixl lam x0 x0') t0 (mixo lam a a') = Ok (Some (mixl lam c c'));
  cv_mayer : forall f lam xf xf' tf x0 x0' t0 a a' l l' m, nth_error (o_mayer o) ph = Some f -> 0 <= lam <= 1 ->
    length xf = o_nx o -> length xf' = o_nx o -> length x0 = o_nx o -> length x0' = o_nx o -> arg_ok o a -> arg_ok o a' ->
    f xf tf x0 t0 a = Ok (Some l) -> f xf' tf x0' t0 a' = Ok (Some l') ->
    f (mixl lam xf xf') tf (mixl lam x0 x0') t0 (mixo lam a a') = Ok (Some m) -> m <= mix lam l l'
}.
(** start and end of the phase are fixed *)
Definition fixed_times (o : ocp Rnum) (ph : nat) : Prop :=
  exists t0 tf, t0 <= tf /\ bnd ph (o_lbt0 o) 0 = Fin t0 /\ bnd ph (o_ubt0 o) 0 = Fin t0 /\
                bnd ph (o_lbtf o) 0 = Fin tf /\ bnd ph (o_ubtf o) 0 = Fin tf.
(** [z'] differs from [z] by less than [eps] in every entry *)
Definition close (eps : R) (z z' : list R) : Prop := length z' = length z /\ forall i, (i < length z)%nat -> Rabs (nth i z' 0 - nth i z 0) < eps.
(** the quadrature weights of all segments are non-negative *)
Definition weights_nonneg (mp : mpo Rnum) : Prop :=
  forall q w, In q (mp_orders mp) -> quad_weights (mp_cf mp) q (cf_tau0 (mp_cf mp)) (cf_tau1 (mp_cf mp)) = Ok w -> forall j, 0 <= nth j w 0.
