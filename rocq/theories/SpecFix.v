(** Parameters with given values (vocabulary of C89). *)
From Coq Require Import Reals List Arith.
From Verif Require Import Num PyList Mat Poly Roots Colloc Ocp Transcribe Spec SpecOcp SpecBeside NumR.
Import ListNotations.
Open Scope R_scope.

(** the problem [o] with the functions of [q] and its parameters, their scales, guesses and bounds *)
Definition reparam (o q : ocp Rnum) : ocp Rnum :=
  Ocp (o_nx o) (o_nu o) (o_na q) (o_nph o) (o_dyn q) (o_path q) (o_mayer q) (o_run q) (o_term q) (o_links o)
    (o_scale_x o) (o_scale_u o) (o_scale_a q) (o_scale_t o) (o_x00 o) (o_xf0 o) (o_u00 o) (o_uf0 o) (o_t00 o) (o_tf0 o) (o_a0 q)
    (o_lbx o) (o_ubx o) (o_lbu o) (o_ubu o) (o_lba q) (o_uba q) (o_lbt0 o) (o_ubt0 o) (o_lbtf o) (o_ubtf o) (o_lbe o) (o_ube o)
    (o_diff_u o) (o_lbdu o) (o_ubdu o) (o_midu o) (o_ducont o).
(** the last parameters of [o] can only be [al ph] in phase ph; [q] has the others, and the functions of [o] with [al ph] put in *)
Record put_in (o q : ocp Rnum) (al : nat -> list R) : Prop := {
  pi_na : forall ph, (ph < o_nph o)%nat -> (o_na o = o_na q + length (al ph))%nat;
  pi_kept : forall ph i, (ph < o_nph o)%nat -> (i < o_na q)%nat -> bnd ph (o_lba o) i = bnd ph (o_lba q) i /\ bnd ph (o_uba o) i = bnd ph (o_uba q) i;
  pi_given : forall ph i r, (ph < o_nph o)%nat -> (i < length (al ph))%nat -> within (bnd ph (o_lba o) (o_na q + i)) (bnd ph (o_uba o) (o_na q + i)) r <-> r = nth i (al ph) 0;
  pi_dyn : forall ph f g x u t (l : list R), nth_error (o_dyn o) ph = Some f -> nth_error (o_dyn q) ph = Some g -> length l = o_na q -> g x u t (args l) = f x u t (args (l ++ al ph));
  pi_path : forall ph f g x u t (l : list R), nth_error (o_path o) ph = Some f -> nth_error (o_path q) ph = Some g -> length l = o_na q -> g x u t (args l) = f x u t (args (l ++ al ph));
  pi_run : forall ph f g x u t (l : list R), nth_error (o_run o) ph = Some f -> nth_error (o_run q) ph = Some g -> length l = o_na q -> g x u t (args l) = f x u t (args (l ++ al ph));
  pi_mayer : forall ph f g xf tf x0 t0 (l : list R), nth_error (o_mayer o) ph = Some f -> nth_error (o_mayer q) ph = Some g -> length l = o_na q -> g xf tf x0 t0 (args l) = f xf tf x0 t0 (args (l ++ al ph));
  pi_term : forall ph f g xf tf x0 t0 (l : list R), nth_error (o_term o) ph = Some f -> nth_error (o_term q) ph = Some g -> length l = o_na q -> g xf tf x0 t0 (args l) = f xf tf x0 t0 (args (l ++ al ph))
}.
(** the point has these values *)
Definition has_given (o q : ocp Rnum) (al : nat -> list R) (ys : nat -> utraj) : Prop :=
  forall ph i, (ph < o_nph o)%nat -> (i < length (al ph))%nat -> y_a (ys ph) (o_na q + i)%nat = nth i (al ph) 0.
(** the same point but for these values *)
Definition same_but (mp mp' : mpo Rnum) (z z' : list R) : Prop :=
  forall ph, (ph < o_nph (mp_ocp mp))%nat -> same_traj mp' (user_traj mp z ph) (user_traj mp' z' ph).
