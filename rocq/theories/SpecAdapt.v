(** Programs whose segment widths are decision variables: vocabulary independent of the model. *)
From Coq Require Import Reals.
From Coquelicot Require Import Coquelicot.
From Coq Require Import List Arith Bool.
From Verif Require Import Num PyList Colloc Ocp Transcribe Adaptive Spec SpecOcp SpecHadapt SpecResid.
Import ListNotations.
Open Scope R_scope.

(** decision variables of one phase: those of the program with fixed widths, then the widths *)
Definition ad_nvars (mp : mpo Rnum) : nat := (nvars mp + mp_nseg mp)%nat.
Definition ad_traj (mp : mpo Rnum) (z : list R) (ph : nat) : utraj := user_traj mp (skipn (ph * ad_nvars mp) z) 0.
Definition ad_width (mp : mpo Rnum) (z : list R) (ph k : nat) : R := nth (ph * ad_nvars mp + nvars mp + k) z 0.
(** the list [p] holds the widths of the point *)
Definition own_widths (mp : mpo Rnum) (z p : list R) : Prop :=
  length p = (o_nph (mp_ocp mp) * mp_nseg mp)%nat /\
  forall ph k, (ph < o_nph (mp_ocp mp))%nat -> (k < mp_nseg mp)%nat -> width mp p ph k = ad_width mp z ph k.

Record ad_input_ok (ac : acfg Rnum) (mp : mpo Rnum) (npath nterm : nat -> option nat) (z : list R) : Prop := {
  ai_mpo : mpo_ok mp;
  ai_ocp : ocp_ok (mp_ocp mp) npath nterm;
  ai_sc : scales_pos (mp_ocp mp);
  ai_z : length z = (o_nph (mp_ocp mp) * ad_nvars mp)%nat;
  ai_lbh : length (ac_lbh ac) = o_nph (mp_ocp mp);
  ai_ubh : length (ac_ubh ac) = o_nph (mp_ocp mp);
  ai_tol : length (ac_tol ac) = o_nph (mp_ocp mp)
}.

Section Phase.
Variables (ac : acfg Rnum) (mp : mpo Rnum) (rs : list (list R)) (w : nat -> R) (ph : nat) (y : utraj).
Local Notation o := (mp_ocp mp).
Local Notation orders := (mp_orders mp).
(** middle of collocation points j and j+1 of segment k *)
Definition middle (k j : nat) : R := (nth j (nth k rs []) 0 + nth (S j) (nth k rs []) 0) / 2.
(** the bounds of the widths, which fill the phase *)
Definition width_bounds_ok : Prop :=
  forall k, (k < length orders)%nat -> within (nth ph (ac_lbh ac) NaN) (nth ph (ac_ubh ac) NaN) (w k).
Definition width_sum_ok : Prop := Rsum (length orders) w = 1.
(** the control and state polynomials are within their bounds between collocation points *)
Definition mid_controls_ok : Prop :=
  forall k p j q c, nth_error orders k = Some p -> (j < p)%nat -> (q < o_nu o)%nat ->
    seg_interp orders k (nth k rs []) (fun i => y_u y i q) c ->
    within (nth q (nth ph (o_lbu o) []) NaN) (nth q (nth ph (o_ubu o) []) NaN) (peval c (middle k j)).
Definition mid_states_ok : Prop :=
  forall k p j s c, nth_error orders k = Some p -> (j < p)%nat -> (s < o_nx o)%nat ->
    seg_interp orders k (nth k rs []) (fun i => y_x y i s) c ->
    within (nth s (nth ph (o_lbx o) []) NaN) (nth s (nth ph (o_ubx o) []) NaN) (peval c (middle k j)).
(** there the scaled defect of the dynamics times the width is at most the tolerance *)
Definition mid_defects_ok : Prop :=
  ac_mid ac = true ->
  forall k p j s cx cu, nth_error orders k = Some p -> (j < p)%nat -> (s < o_nx o)%nat ->
    seg_polys mp rs y k cx cu ->
    Rabs (w k * (nth s (o_scale_x o) 0 * defect mp w ph y k cx cu s (middle k j))) <= nth ph (ac_tol ac) 0.
Definition ad_phase_ok : Prop :=
  dynamics_ok mp rs w ph y /\ path_ok mp rs w ph y /\ slope_ok mp rs ph y /\ terminal_ok mp ph y /\
  width_sum_ok /\ mid_controls_ok /\ mid_states_ok /\ mid_defects_ok.
(** some bound of this row is not infinite *)
Definition bounded_row (lb ub : list (list (ext R))) : bool :=
  existsb (fun b : ext R => match b with NInf | NaN => false | _ => true end) (nth ph lb []) ||
  existsb (fun b : ext R => match b with PInf | NaN => false | _ => true end) (nth ph ub []).
Definition ad_rows (npath nterm : nat -> option nat) : nat :=
  let n := total_nodes orders in
  (o_nx o * n
   + match npath ph with None => 0 | Some c => c * n end
   + (if nth ph (o_diff_u o) false then o_nu o * n else 0)
   + match nterm ph with None => 0 | Some c => c end
   + 1
   + (if bounded_row (o_lbu o) (o_ubu o) then o_nu o * (n - 1) else 0)
   + (if bounded_row (o_lbx o) (o_ubx o) then o_nx o * (n - 1) else 0)
   + (if ac_mid ac then o_nx o * (n - 1) else 0))%nat.
End Phase.
