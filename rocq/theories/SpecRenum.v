(** Specification of problems whose phases and links are numbered in another order. *)
From Coq Require Import Reals List Arith.
From Verif Require Import Num PyList Mat Roots Colloc Ocp Transcribe Spec SpecOcp.
Import ListNotations.
Open Scope R_scope.

(** phase [i] of [o'] is phase [sg i] of [o] *)
Record renumbered (sg : nat -> nat) (o o' : ocp Rnum) : Prop := {
  rn_dims : o_nx o' = o_nx o /\ o_nu o' = o_nu o /\ o_na o' = o_na o /\ o_nph o' = o_nph o;
  rn_scale : o_scale_u o' = o_scale_u o;
  rn_in : forall i, (i < o_nph o)%nat -> (sg i < o_nph o)%nat;
  rn_inj : forall i j, (i < o_nph o)%nat -> (j < o_nph o)%nat -> sg i = sg j -> i = j;
  rn_fns : forall i, (i < o_nph o)%nat ->
    nth_error (o_dyn o') i = nth_error (o_dyn o) (sg i) /\ nth_error (o_path o') i = nth_error (o_path o) (sg i) /\
    nth_error (o_term o') i = nth_error (o_term o) (sg i) /\ nth_error (o_run o') i = nth_error (o_run o) (sg i) /\
    nth_error (o_mayer o') i = nth_error (o_mayer o) (sg i);
  rn_start : forall i, (i < o_nph o)%nat -> nth i (o_x00 o') [] = nth (sg i) (o_x00 o) [];
  rn_bounds : forall i, (i < o_nph o)%nat ->
    nth i (o_lbx o') [] = nth (sg i) (o_lbx o) [] /\ nth i (o_ubx o') [] = nth (sg i) (o_ubx o) [] /\
    nth i (o_lbu o') [] = nth (sg i) (o_lbu o) [] /\ nth i (o_ubu o') [] = nth (sg i) (o_ubu o) [] /\
    nth i (o_lba o') [] = nth (sg i) (o_lba o) [] /\ nth i (o_uba o') [] = nth (sg i) (o_uba o) [] /\
    nth i (o_lbt0 o') [] = nth (sg i) (o_lbt0 o) [] /\ nth i (o_ubt0 o') [] = nth (sg i) (o_ubt0 o) [] /\
    nth i (o_lbtf o') [] = nth (sg i) (o_lbtf o) [] /\ nth i (o_ubtf o') [] = nth (sg i) (o_ubtf o) [];
  rn_switches : forall i, (i < o_nph o)%nat ->
    nth i (o_diff_u o') false = nth (sg i) (o_diff_u o) false /\ nth i (o_lbdu o') NaN = nth (sg i) (o_lbdu o) NaN /\
    nth i (o_ubdu o') NaN = nth (sg i) (o_ubdu o) NaN /\ nth i (o_midu o') false = nth (sg i) (o_midu o) false /\
    nth i (o_ducont o') false = nth (sg i) (o_ducont o) false;
  (** the same links, in any order, with the same jumps *)
  rn_links : forall k' i j, nth_error (o_links o') k' = Some (i, j) -> exists k, nth_error (o_links o) k = Some (sg i, sg j) /\
    nth k' (o_lbe o') [] = nth k (o_lbe o) [] /\ nth k' (o_ube o') [] = nth k (o_ube o) [];
  rn_links_all : forall k i j, nth_error (o_links o) k = Some (i, j) -> exists k' i' j', nth_error (o_links o') k' = Some (i', j') /\ i = sg i' /\ j = sg j' /\
    nth k' (o_lbe o') [] = nth k (o_lbe o) [] /\ nth k' (o_ube o') [] = nth k (o_ube o) []
}.
(** the points [z] and [z'] have the same values and widths, phase by phase *)
Definition same_phases (sg : nat -> nat) (mp mp' : mpo Rnum) (z p z' p' : list R) : Prop :=
  forall i, (i < o_nph (mp_ocp mp))%nat -> same_traj mp (user_traj mp' z' i) (user_traj mp z (sg i)) /\
    forall k, (k < length (mp_orders mp))%nat -> width mp' p' i k = width mp p (sg i) k.
