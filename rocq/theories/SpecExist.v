(** Specification of problems with continuous functions and finite bounds. *)
From Coq Require Import Reals Arith.
From Coquelicot Require Import Coquelicot.
From Coq Require Import List.
From Verif Require Import Num PyList Mat Poly Roots Colloc Ocp Transcribe Spec SpecOcp.
Import ListNotations.
Open Scope R_scope.

(** lists of length n whose entries tend to those of [l'] *)
Definition tends (n : nat) (l : nat -> list R) (l' : list R) : Prop :=
  (forall k, length (l k) = n) /\ length l' = n /\ forall i, (i < n)%nat -> is_lim_seq (fun k => nth i (l k) 0) (nth i l' 0).
(** the parameters as the functions of the user get them *)
Definition tends_arg (n : nat) (a : nat -> option (list R)) (a' : option (list R)) : Prop :=
  if Nat.eqb n 0 then (forall k, a k = None) /\ a' = None
  else exists l l', (forall k, a k = Some (l k)) /\ a' = Some l' /\ tends n l l'.
(** the functions of the user for phase ph are continuous *)
Record continuous_phase (o : ocp Rnum) (ph : nat) : Prop := {
  cn_dyn : forall f x u t a (d : nat -> list R) x' u' t' a' (d' : list R), nth_error (o_dyn o) ph = Some f ->
    tends (o_nx o) x x' -> tends (o_nu o) u u' -> is_lim_seq t (Finite t') -> tends_arg (o_na o) a a' ->
    (forall k, f (x k) (u k) (t k) (a k) = Ok (d k)) -> f x' u' t' a' = Ok d' ->
    forall i, is_lim_seq (fun k => nth i (d k) 0) (nth i d' 0);
  cn_path : forall f x u t a (d : nat -> list R) x' u' t' a' (d' : list R), nth_error (o_path o) ph = Some f ->
    tends (o_nx o) x x' -> tends (o_nu o) u u' -> is_lim_seq t (Finite t') -> tends_arg (o_na o) a a' ->
    (forall k, f (x k) (u k) (t k) (a k) = Ok (Some (d k))) -> f x' u' t' a' = Ok (Some d') ->
    forall i, is_lim_seq (fun k => nth i (d k) 0) (nth i d' 0);
  cn_run : forall f x u t a (d : nat -> R) x' u' t' a' (d' : R), nth_error (o_run o) ph = Some f ->
    tends (o_nx o) x x' -> tends (o_nu o) u u' -> is_lim_seq t (Finite t') -> tends_arg (o_na o) a a' ->
    (forall k, f (x k) (u k) (t k) (a k) = Ok (Some (d k))) -> f x' u' t' a' = Ok (Some d') ->
    is_lim_seq d d';
  cn_term : forall f xf tf x0 t0 a (d : nat -> list R) xf' tf' x0' t0' a' (d' : list R), nth_error (o_term o) ph = Some f ->
    tends (o_nx o) xf xf' -> is_lim_seq tf (Finite tf') -> tends (o_nx o) x0 x0' -> is_lim_seq t0 (Finite t0') -> tends_arg (o_na o) a a' ->
    (forall k, f (xf k) (tf k) (x0 k) (t0 k) (a k) = Ok (Some (d k))) -> f xf' tf' x0' t0' a' = Ok (Some d') ->
    forall i, is_lim_seq (fun k => nth i (d k) 0) (nth i d' 0);
  cn_mayer : forall f xf tf x0 t0 a (d : nat -> R) xf' tf' x0' t0' a' (d' : R), nth_error (o_mayer o) ph = Some f ->
    tends (o_nx o) xf xf' -> is_lim_seq tf (Finite tf') -> tends (o_nx o) x0 x0' -> is_lim_seq t0 (Finite t0') -> tends_arg (o_na o) a a' ->
    (forall k, f (xf k) (tf k) (x0 k) (t0 k) (a k) = Ok (Some (d k))) -> f xf' tf' x0' t0' a' = Ok (Some d') ->
    is_lim_seq d d'
}.
(** all bounds of phase ph are numbers *)
Definition finite_bounds (lo hi : ext R) : Prop := exists a b, lo = Fin a /\ hi = Fin b.
Record bounded_phase (o : ocp Rnum) (ph : nat) : Prop := {
  bp_x : forall s, (s < o_nx o)%nat -> finite_bounds (bnd ph (o_lbx o) s) (bnd ph (o_ubx o) s);
  bp_u : forall c, (c < o_nu o)%nat -> finite_bounds (bnd ph (o_lbu o) c) (bnd ph (o_ubu o) c);
  bp_t0 : finite_bounds (bnd ph (o_lbt0 o) 0) (bnd ph (o_ubt0 o) 0);
  bp_tf : finite_bounds (bnd ph (o_lbtf o) 0) (bnd ph (o_ubtf o) 0);
  bp_a : forall i, (i < o_na o)%nat -> finite_bounds (bnd ph (o_lba o) i) (bnd ph (o_uba o) i)
}.
(** entry by entry *)
Definition points_to (l : nat -> list R) (l' : list R) : Prop := forall i, is_lim_seq (fun k => nth i (l k) 0) (nth i l' 0).
