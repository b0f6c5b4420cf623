(** What the rows of a program depend on (vocabulary of C91). *)
From Coq Require Import Reals List Arith.
From Verif Require Import Num PyList Mat Poly Roots Colloc Ocp Transcribe Spec SpecOcp.
Import ListNotations.
Open Scope R_scope.

(** the same values at the nodes of segment [k] *)
Definition same_seg (orders : list nat) (k : nat) (f g : nat -> R) : Prop := forall i, (offset orders k <= i <= offset orders (S k))%nat -> f i = g i.
(** the same states and controls at node [i] *)
Definition same_node (o : ocp Rnum) (i : nat) (y y' : utraj) : Prop := (forall s, (s < o_nx o)%nat -> y_x y i s = y_x y' i s) /\ (forall c, (c < o_nu o)%nat -> y_u y i c = y_u y' i c).
(** the same times and parameters *)
Definition same_frame (o : ocp Rnum) (y y' : utraj) : Prop := y_t0 y = y_t0 y' /\ y_tf y = y_tf y' /\ (forall i, (i < o_na o)%nat -> y_a y i = y_a y' i).
