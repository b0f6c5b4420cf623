(** Specification of the problem that a single phase of a problem poses, from a given state and time on. *)
From Coq Require Import Reals List Arith.
From Verif Require Import Num PyList Mat Roots Colloc Ocp Transcribe Spec SpecOcp.
Import ListNotations.
Open Scope R_scope.

Definition pick {A} (ph : nat) (l : list A) : list A := match nth_error l ph with Some a => [a] | None => [] end.
(** phase [ph] of [o] alone, starting at [x] and [t] *)
Definition phase_ocp (o : ocp Rnum) (ph : nat) (x : list R) (t : R) : ocp Rnum :=
  Ocp (N := Rnum) (o_nx o) (o_nu o) (o_na o) 1 (pick ph (o_dyn o)) (pick ph (o_path o)) (pick ph (o_mayer o)) (pick ph (o_run o)) (pick ph (o_term o)) []
    (o_scale_x o) (o_scale_u o) (o_scale_a o) (o_scale_t o) [x] (pick ph (o_xf0 o)) (pick ph (o_u00 o)) (pick ph (o_uf0 o))
    [[t]] (pick ph (o_tf0 o)) (pick ph (o_a0 o)) (pick ph (o_lbx o)) (pick ph (o_ubx o)) (pick ph (o_lbu o)) (pick ph (o_ubu o)) (pick ph (o_lba o)) (pick ph (o_uba o))
    [[Fin t]] [[Fin t]] (pick ph (o_lbtf o)) (pick ph (o_ubtf o)) [] [] (pick ph (o_diff_u o)) (pick ph (o_lbdu o)) (pick ph (o_ubdu o))
    (pick ph (o_midu o)) (pick ph (o_ducont o)).
(** from where phase [ph] starts at the point [z] *)
Definition phase_mpo (mp : mpo Rnum) (z : list R) (ph : nat) : mpo Rnum :=
  let y := user_traj mp z ph in
  Mpo (phase_ocp (mp_ocp mp) ph (vec (o_nx (mp_ocp mp)) (y_x y 0)) (y_t0 y)) (mp_nseg mp) (mp_orders mp) (mp_cf mp).
(** its widths *)
Definition phase_widths (mp : mpo Rnum) (p : list R) (ph : nat) : list R := map (width mp p ph) (seq 0 (mp_nseg mp)).
Definition entered (o : ocp Rnum) (ph : nat) : Prop := exists i, In (i, ph) (o_links o).
Definition left_by (o : ocp Rnum) (ph : nat) : Prop := exists j, In (ph, j) (o_links o).
(** [y'] has the values of [y] where links need them: the controls at the start, the controls, states and time at the end *)
Definition fits (mp : mpo Rnum) (ph : nat) (y y' : utraj) : Prop :=
  let o := mp_ocp mp in let last := (total_nodes (mp_orders mp) - 1)%nat in
  (entered o ph -> forall c, (c < o_nu o)%nat -> y_u y' 0 c = y_u y 0 c) /\
  (left_by o ph -> (forall c, (c < o_nu o)%nat -> y_u y' last c = y_u y last c) /\
     (forall s, (s < o_nx o)%nat -> y_x y' last s = y_x y last s) /\ y_tf y' = y_tf y).
