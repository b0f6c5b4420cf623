(** Specification of linear laws of the state equations: a combination of the states that keeps its
    value, grows at a constant rate, or grows at most at a given rate. *)
From Coq Require Import Reals List Arith.
From Verif Require Import Num PyList Mat Poly Roots Colloc Ocp Transcribe Spec SpecOcp NumR.
Import ListNotations.
Open Scope R_scope.

(** the combination of n states *)
Definition amount (n : nat) (alpha x : nat -> R) : R := Rsum n (fun s => alpha s * x s).
(** [rel r beta] for the rate [r] of the combination, wherever states and controls are in [D] *)
Definition law (rel : R -> R -> Prop) (o : ocp Rnum) (ph : nat) (alpha : nat -> R) (beta : R) (D : list R -> list R -> Prop) : Prop :=
  forall f x u t a d, nth_error (o_dyn o) ph = Some f -> length x = o_nx o -> length u = o_nu o -> arg_ok o a ->
    f x u t a = Ok d -> D x u -> rel (Rsum (o_nx o) (fun s => alpha s * nth s d 0)) beta.
(** states and controls at all nodes are in [D] *)
Definition nodes_in (mp : mpo Rnum) (y : utraj) (D : list R -> list R -> Prop) : Prop :=
  forall i, (i < total_nodes (mp_orders mp))%nat -> D (vec (o_nx (mp_ocp mp)) (y_x y i)) (vec (o_nu (mp_ocp mp)) (y_u y i)).
