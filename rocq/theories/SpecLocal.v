(** Specification of what a program sees of the functions of a problem. *)
From Coq Require Import Reals List Arith.
From Verif Require Import Num PyList Mat Poly Roots Colloc Ocp Transcribe Spec SpecOcp NumR.
Import ListNotations.
Open Scope R_scope.

(** the same problem with other functions *)
Definition with_functions (o : ocp Rnum) (dyn : list dyn_fn) (path : list path_fn) (mayer : list mayer_fn) (run : list run_fn) (term : list term_fn) : ocp Rnum :=
  Ocp (o_nx o) (o_nu o) (o_na o) (o_nph o) dyn path mayer run term (o_links o)
    (o_scale_x o) (o_scale_u o) (o_scale_a o) (o_scale_t o) (o_x00 o) (o_xf0 o) (o_u00 o) (o_uf0 o) (o_t00 o) (o_tf0 o) (o_a0 o)
    (o_lbx o) (o_ubx o) (o_lbu o) (o_ubu o) (o_lba o) (o_uba o) (o_lbt0 o) (o_ubt0 o) (o_lbtf o) (o_ubtf o) (o_lbe o) (o_ube o)
    (o_diff_u o) (o_lbdu o) (o_ubdu o) (o_midu o) (o_ducont o).
(** states of a phase within its bounds, or the initial state of the first phase *)
Definition x_within (o : ocp Rnum) (ph : nat) (x : list R) : Prop := length x = o_nx o /\
  ((forall s, (s < o_nx o)%nat -> within (bnd ph (o_lbx o) s) (bnd ph (o_ubx o) s) (nth s x 0)) \/ ph = 0%nat /\ x = nth 0 (o_x00 o) []).
Definition u_within (o : ocp Rnum) (ph : nat) (u : list R) : Prop := length u = o_nu o /\ forall s, (s < o_nu o)%nat -> within (bnd ph (o_lbu o) s) (bnd ph (o_ubu o) s) (nth s u 0).
Definition a_within (o : ocp Rnum) (ph : nat) (a : option (list R)) : Prop := arg_ok o a /\
  forall l, a = Some l -> forall s, (s < o_na o)%nat -> within (bnd ph (o_lba o) s) (bnd ph (o_uba o) s) (nth s l 0).
(** the functions give the same values within the bounds; the state equations only where the path constraints hold *)
Record alike_within (o : ocp Rnum) (dyn : list dyn_fn) (path : list path_fn) (mayer : list mayer_fn) (run : list run_fn) (term : list term_fn) : Prop := {
  al_dyn : forall ph f g c x u t a, nth_error (o_dyn o) ph = Some f -> nth_error dyn ph = Some g -> nth_error (o_path o) ph = Some c -> x_within o ph x -> u_within o ph u -> a_within o ph a ->
    (forall (l : list R) v, c x u t a = Ok (Some l) -> In v l -> v <= 0) -> g x u t a = f x u t a;
  al_path : forall ph f g x u t a, nth_error (o_path o) ph = Some f -> nth_error path ph = Some g -> x_within o ph x -> u_within o ph u -> a_within o ph a -> g x u t a = f x u t a;
  al_run : forall ph f g x u t a, nth_error (o_run o) ph = Some f -> nth_error run ph = Some g -> x_within o ph x -> u_within o ph u -> a_within o ph a -> g x u t a = f x u t a;
  al_mayer : forall ph f g xf tf x0 t0 a, nth_error (o_mayer o) ph = Some f -> nth_error mayer ph = Some g -> x_within o ph xf -> x_within o ph x0 -> a_within o ph a -> g xf tf x0 t0 a = f xf tf x0 t0 a;
  al_term : forall ph f g xf tf x0 t0 a, nth_error (o_term o) ph = Some f -> nth_error term ph = Some g -> x_within o ph xf -> x_within o ph x0 -> a_within o ph a -> g xf tf x0 t0 a = f xf tf x0 t0 a
}.
