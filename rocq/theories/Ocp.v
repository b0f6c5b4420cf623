(** class OCP, mpopt.py:3378-3703 *)
From Coq Require Import List Arith ZArith Bool.
From Verif Require Import Num PyList.
Import ListNotations.
Set Implicit Arguments.
Unset Strict Implicit.

Section Ocp.
Context {N : num}.

(** User functions.  They are called with or without the parameter vector, depending
    on [na]; [option] models the presence of the last argument.  They may raise.
    CasADi symbols are modelled by their values, so a user function is a function of
    numbers.  [t00[phase]] etc. are one-element arrays; we pass the scalar.

    dynamics(x, u, t[, a]) -> list *)
Definition dyn_fn := list N -> list N -> N -> option (list N) -> res (list N).
(** path_constraints(x, u, t[, a]) -> list or None *)
Definition path_fn := list N -> list N -> N -> option (list N) -> res (option (list N)).
(** running_costs(x, u, t[, a]) -> scalar or None *)
Definition run_fn := list N -> list N -> N -> option (list N) -> res (option N).
(** terminal_constraints(xf, tf, x0, t0[, a]) -> list or None *)
Definition term_fn := list N -> N -> list N -> N -> option (list N) -> res (option (list N)).
(** terminal_costs(xf, tf, x0, t0[, a]) -> scalar or None *)
Definition mayer_fn := list N -> N -> list N -> N -> option (list N) -> res (option N).

(** Attributes set in OCP.__init__, mpopt.py:3418-3492 (plot settings omitted).
    2-d numpy arrays are lists of rows. *)
Record ocp := Ocp {
  o_nx : nat; o_nu : nat; o_na : nat; o_nph : nat;
  o_dyn : list dyn_fn; o_path : list path_fn; o_mayer : list mayer_fn;
  o_run : list run_fn; o_term : list term_fn;
  o_links : list (nat * nat);
  o_scale_x : list N; o_scale_u : list N; o_scale_a : list N; o_scale_t : N;
  o_x00 : list (list N); o_xf0 : list (list N);
  o_u00 : list (list N); o_uf0 : list (list N);
  o_t00 : list (list N); o_tf0 : list (list N);
  o_a0 : list (list N);
  o_lbx : list (list (ext N)); o_ubx : list (list (ext N));
  o_lbu : list (list (ext N)); o_ubu : list (list (ext N));
  o_lba : list (list (ext N)); o_uba : list (list (ext N));
  o_lbt0 : list (list (ext N)); o_ubt0 : list (list (ext N));
  o_lbtf : list (list (ext N)); o_ubtf : list (list (ext N));
  o_lbe : list (list (ext N)); o_ube : list (list (ext N));
  o_diff_u : list bool; o_lbdu : list (ext N); o_ubdu : list (ext N);
  o_midu : list bool; o_ducont : list bool
}.

(** class attributes LB_DYNAMICS ... UB_TERMINAL_CONSTRAINTS, mpopt.py:3392-3397 *)
Definition LB_DYNAMICS : ext N := Fin n0.
Definition UB_DYNAMICS : ext N := Fin n0.
Definition LB_PATH : ext N := NInf.
Definition UB_PATH : ext N := Fin n0.
Definition LB_TERM : ext N := Fin n0.
Definition UB_TERM : ext N := Fin n0.

(** OCP.__init__, mpopt.py:3399-3492.  With n_phases = 0 the assignment
    self.ubt0[0] = 0.0 is an IndexError. *)
Definition new_ocp (nx nu nph na : nat) : res ocp :=
  let ones k := repeat (@n1 N) k in
  let rows {T} k (v : T) := repeat (repeat v k) nph in
  match nph with
  | 0 => Raise IndexError
  | S m =>
    Ok (Ocp nx nu na nph
      (repeat (fun _ _ _ _ => Ok (repeat n0 nx)) nph)
      (repeat (fun _ _ _ _ => Ok None) nph)
      (repeat (fun _ _ _ _ _ => Ok (Some n0)) nph)
      (repeat (fun _ _ _ _ => Ok (Some n0)) nph)
      (repeat (fun _ _ _ _ _ => Ok None) nph)
      (map (fun i => (i, i + 1)) (seq 0 (nph - 1)))
      (ones nx) (ones nu) (ones na) n1
      (rows nx n0) (rows nx n0) (rows nu n0) (rows nu n0)
      (rows 1 n0) (rows 1 n1) (rows na n0)
      (rows nx NInf) (rows nx PInf) (rows nu NInf) (rows nu PInf)
      (rows na NInf) (rows na PInf)
      (rows 1 (Fin n0)) ([Fin n0] :: repeat [PInf] m)
      (rows 1 (Fin n0)) (rows 1 PInf)
      (repeat (repeat (Fin n0) nx) (nph - 1)) (repeat (repeat (Fin n0) nx) (nph - 1))
      (repeat false nph) (repeat (Fin (nofZ (-15))) nph) (repeat (Fin (nofZ 15)) nph)
      (repeat true nph) (repeat false nph))
  end.

(** the parameter argument: dropped when na == 0 (mpopt.py:3494-3571) *)
Definition a_arg (o : ocp) (a : list N) : option (list N) :=
  if Nat.eqb (o_na o) 0 then None else Some a.
(** get_dynamics ... get_terminal_costs, mpopt.py:3494-3571 *)
Definition get_dynamics (o : ocp) (ph : nat) x u t a : res (list N) :=
  f <- at_ (o_dyn o) ph ;; f x u t (a_arg o a).
Definition get_path_constraints (o : ocp) (ph : nat) x u t a : res (option (list N)) :=
  f <- at_ (o_path o) ph ;; f x u t (a_arg o a).
Definition get_running_costs (o : ocp) (ph : nat) x u t a : res (option N) :=
  f <- at_ (o_run o) ph ;; f x u t (a_arg o a).
Definition get_terminal_constraints (o : ocp) (ph : nat) xf tf x0 t0 a : res (option (list N)) :=
  f <- at_ (o_term o) ph ;; f xf tf x0 t0 (a_arg o a).
Definition get_terminal_costs (o : ocp) (ph : nat) xf tf x0 t0 a : res (option N) :=
  f <- at_ (o_mayer o) ph ;; f xf tf x0 t0 (a_arg o a).

(** the scalar inside a one-element row *)
Definition sc (row : list N) : N := nth 0 row n0.

Definition is_some {A} (x : option A) : bool := match x with Some _ => true | None => false end.

(** has_path_constraints, mpopt.py:3573-3594 *)
Definition has_path_constraints (o : ocp) (ph : nat) : res bool :=
  x <- at_ (o_x00 o) ph ;; u <- at_ (o_u00 o) ph ;; t <- at_ (o_t00 o) ph ;;
  a <- (if Nat.eqb (o_na o) 0 then Ok [] else at_ (o_a0 o) ph) ;;
  r <- get_path_constraints o ph x u (sc t) a ;; Ok (is_some r).
(** has_terminal_constraints, mpopt.py:3596-3626 *)
Definition has_terminal_constraints (o : ocp) (ph : nat) : res bool :=
  xf <- at_ (o_xf0 o) ph ;; tf <- at_ (o_tf0 o) ph ;;
  x0 <- at_ (o_x00 o) ph ;; t0 <- at_ (o_t00 o) ph ;;
  a <- (if Nat.eqb (o_na o) 0 then Ok [] else at_ (o_a0 o) ph) ;;
  r <- get_terminal_constraints o ph xf (sc tf) x0 (sc t0) a ;; Ok (is_some r).

(** shape of a 2-d array equals (r, c) *)
Definition shape {T} (m : list (list T)) (r c : nat) : bool :=
  Nat.eqb (List.length m) r && forallb (fun row => Nat.eqb (List.length row) c) m.
Definition rows_le (lo hi : list (list (ext N))) (ph n : nat) : bool :=
  forallb (fun i => eleb (nth i (nth ph lo []) NaN) (nth i (nth ph hi []) NaN)) (seq 0 n).

(** the body of the per-phase loop of validate, mpopt.py:3638-3661 *)
Definition validate_phase (o : ocp) (ph : nat) : res unit :=
  x <- at_ (o_x00 o) ph ;; u <- at_ (o_u00 o) ph ;; t <- at_ (o_t00 o) ph ;; a <- at_ (o_a0 o) ph ;;
  d <- get_dynamics o ph x u (sc t) a ;; _ <- assert_ (Nat.eqb (List.length d) (o_nx o)) ;;
  tc <- get_terminal_costs o ph x (sc t) x (sc t) a ;; _ <- assert_ (is_some tc) ;;
  rc <- get_running_costs o ph x u (sc t) a ;; _ <- assert_ (is_some rc) ;;
  pc <- get_path_constraints o ph x u (sc t) a ;;
  ct <- get_terminal_constraints o ph x (sc t) x (sc t) a ;;
  _ <- (match pc with Some l => assert_ (0 <? List.length l) | None => Ok tt end) ;;
  match ct with Some l => assert_ (0 <? List.length l) | None => Ok tt end.

(** OCP.validate, mpopt.py:3628-3703.  [lbe.shape[0]] of an empty array is 0. *)
Definition validate (o : ocp) : res unit :=
  let P := o_nph o in
  _ <- assert_ (0 <? P) ;;
  _ <- assert_ (Nat.eqb (List.length (o_dyn o)) P) ;;
  _ <- assert_ (Nat.eqb (List.length (o_run o)) P) ;;
  _ <- assert_ (Nat.eqb (List.length (o_mayer o)) P) ;;
  _ <- assert_ (Nat.eqb (List.length (o_path o)) P) ;;
  _ <- assert_ (Nat.eqb (List.length (o_term o)) P) ;;
  _ <- mapM (validate_phase o) (seq 0 P) ;;
  _ <- assert_ (Nat.eqb (List.length (o_scale_x o)) (o_nx o)) ;;
  _ <- assert_ (Nat.eqb (List.length (o_scale_u o)) (o_nu o)) ;;
  _ <- assert_ (Nat.eqb (List.length (o_scale_a o)) (o_na o)) ;;
  _ <- assert_ (shape (o_x00 o) P (o_nx o)) ;;
  _ <- assert_ (shape (o_xf0 o) P (o_nx o)) ;;
  _ <- assert_ (shape (o_u00 o) P (o_nu o)) ;;
  _ <- assert_ (shape (o_uf0 o) P (o_nu o)) ;;
  _ <- assert_ (shape (o_a0 o) P (o_na o)) ;;
  _ <- assert_ (shape (o_t00 o) P 1) ;;
  _ <- assert_ (shape (o_tf0 o) P 1) ;;
  _ <- assert_ (shape (o_lbx o) P (o_nx o)) ;;
  _ <- assert_ (shape (o_ubx o) P (o_nx o)) ;;
  _ <- assert_ (shape (o_lbu o) P (o_nu o)) ;;
  _ <- assert_ (shape (o_ubu o) P (o_nu o)) ;;
  _ <- assert_ (shape (o_lba o) P (o_na o)) ;;
  _ <- assert_ (shape (o_uba o) P (o_na o)) ;;
  _ <- assert_ (shape (o_lbt0 o) P 1) ;;
  _ <- assert_ (shape (o_ubt0 o) P 1) ;;
  _ <- assert_ (shape (o_lbtf o) P 1) ;;
  _ <- assert_ (shape (o_ubtf o) P 1) ;;
  _ <- assert_ (Nat.eqb (List.length (o_lbe o)) (P - 1)) ;;
  _ <- assert_ (Nat.eqb (List.length (o_ube o)) (P - 1)) ;;
  _ <- assert_ (if 1 <? P then shape (o_lbe o) (P - 1) (o_nx o) else true) ;;
  _ <- assert_ (if 1 <? P then shape (o_ube o) (P - 1) (o_nx o) else true) ;;
  assert_ (forallb (fun ph =>
      rows_le (o_lbx o) (o_ubx o) ph (o_nx o)
      && rows_le (o_lbu o) (o_ubu o) ph (o_nu o)
      && rows_le (o_lba o) (o_uba o) ph (o_na o)
      && rows_le (o_lbt0 o) (o_ubt0 o) ph 1
      && rows_le (o_lbtf o) (o_ubtf o) ph 1
      && (if ph <? P - 1 then rows_le (o_lbe o) (o_ube o) ph (o_nx o) else true))
    (seq 0 P)).

End Ocp.
Arguments ocp N : clear implicits.
