(** Refinement of widths and orders: vocabulary independent of the model's functions. *)
From Coq Require Import String.
From Coq Require Import Reals.
From Coq Require Import List Arith.
From Verif Require Import Num PyList Mat Colloc Ocp Transcribe Solve Hadapt Resid Ph Spec SpecOcp SpecHadapt.
Import ListNotations.
Open Scope R_scope.
Open Scope list_scope.

(** a mesh is a list of segments: order and width.  Marked segments are replaced by two halves *)
Definition halves (s : nat * R) (m : bool) : list (nat * R) :=
  if m then [(fst s, snd s / 2); (fst s, snd s / 2)] else [s].
Fixpoint refined (segs : list (nat * R)) (marks : list bool) : list (nat * R) :=
  match segs, marks with
  | s :: segs', m :: marks' => halves s m ++ refined segs' marks'
  | _, _ => []
  end.

Definition within_limits (lo hi : nat) (orders : list nat) : Prop := forall p, In p orders -> (lo <= p <= hi)%nat.

(** a call of the solver by the optimizer: one order and one width per segment and phase *)
Definition run_ok (o : ocp Rnum) (cf : ccfg Rnum) (lo hi : nat) (user_sw : option (list R)) (c : mpo Rnum * list R) : Prop :=
  let '(m, w) := c in
  mp_ocp m = o /\ mp_cf m = cf /\ length (mp_orders m) = mp_nseg m /\ within_limits lo hi (mp_orders m) /\
  w = match user_sw with Some l => l | None => repeat (1 / INR (mp_nseg m)) (mp_nseg m * o_nph o) end.

(** every segment of the phase has residuals, none above the tolerance *)
Definition phase_met (nx : nat) (tol : R) (segs : list (option (segstate (N := Rnum)))) : Prop :=
  forall e, In e segs -> exists s, e = Some s /\ forall row j, In row (ss_r s) -> (j < nx)%nat -> Rabs (nth j row 0) <= tol.
