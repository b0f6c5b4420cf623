(** Specification of running a problem backwards in time. *)
From Coq Require Import Reals List Arith.
From Verif Require Import Num PyList Mat Poly Roots Colloc Ocp Transcribe Spec SpecOcp NumR.
Import ListNotations.
Open Scope R_scope.

(** nodes on [t0, t1] that are the same from both ends *)
Definition symmetric (t0 t1 : R) (q : nat) (r : list R) : Prop := forall j, (j <= q)%nat -> nth (q - j) r 0 = t0 + t1 - nth j r 0.
(** the trajectory with q + 1 nodes, from its end to its start, with time running from - tf to - t0 *)
Definition backwards (q : nat) (y : utraj) : utraj :=
  Utraj (fun i => y_x y (q - i)) (fun i => y_u y (q - i)) (- y_tf y) (- y_t0 y) (y_a y).
(** bounds of - x *)
Definition neg (b : ext R) : ext R := match b with NInf => PInf | PInf => NInf | Fin x => Fin (- x) | NaN => NaN end.
Definition first (m : list (list (ext R))) : ext R := nth 0 (nth 0 m []) NaN.
(** [o'] is the problem [o] of one phase with time running backwards *)
Record reverse (o o' : ocp Rnum) : Prop := {
  rv_phases : o_nph o = 1%nat /\ o_nph o' = 1%nat;
  rv_dims : o_nx o' = o_nx o /\ o_nu o' = o_nu o /\ o_na o' = o_na o;
  rv_scale : o_scale_u o' = o_scale_u o;
  rv_dyn : exists f f', nth_error (o_dyn o) 0 = Some f /\ nth_error (o_dyn o') 0 = Some f' /\
    forall x u t a, f' x u t a = match f x u (- t) a with Ok d => Ok (map Ropp d) | Raise e => Raise e end;
  rv_path : exists f f', nth_error (o_path o) 0 = Some f /\ nth_error (o_path o') 0 = Some f' /\ forall x u t a, f' x u t a = f x u (- t) a;
  rv_run : exists f f', nth_error (o_run o) 0 = Some f /\ nth_error (o_run o') 0 = Some f' /\ forall x u t a, f' x u t a = f x u (- t) a;
  rv_term : exists f f', nth_error (o_term o) 0 = Some f /\ nth_error (o_term o') 0 = Some f' /\
    forall xf tf x0 t0 a, f' xf tf x0 t0 a = f x0 (- t0) xf (- tf) a;
  rv_mayer : exists f f', nth_error (o_mayer o) 0 = Some f /\ nth_error (o_mayer o') 0 = Some f' /\
    forall xf tf x0 t0 a, f' xf tf x0 t0 a = f x0 (- t0) xf (- tf) a;
  rv_bounds : o_lbx o' = o_lbx o /\ o_ubx o' = o_ubx o /\ o_lbu o' = o_lbu o /\ o_ubu o' = o_ubu o /\ o_lba o' = o_lba o /\ o_uba o' = o_uba o;
  rv_times : first (o_lbt0 o') = neg (first (o_ubtf o)) /\ first (o_ubt0 o') = neg (first (o_lbtf o)) /\ first (o_lbtf o') = neg (first (o_ubt0 o)) /\ first (o_ubtf o') = neg (first (o_lbt0 o));
  rv_slopes : nth 0 (o_diff_u o') false = nth 0 (o_diff_u o) false /\ nth 0 (o_lbdu o') NaN = neg (nth 0 (o_ubdu o) NaN) /\ nth 0 (o_ubdu o') NaN = neg (nth 0 (o_lbdu o) NaN);
  rv_mid : nth 0 (o_midu o') false = nth 0 (o_midu o) false
}.
(** the start that [o] prescribes is within the bounds of the states *)
Definition start_within (o : ocp Rnum) : Prop := forall s, (s < o_nx o)%nat -> within (nth s (nth 0 (o_lbx o) []) NaN) (nth s (nth 0 (o_ubx o) []) NaN) (nth s (nth 0 (o_x00 o) []) 0).
(** the states at the last node are the start that [o'] prescribes *)
Definition arrives (mp : mpo Rnum) (o' : ocp Rnum) (y : utraj) : Prop :=
  forall s, (s < o_nx o')%nat -> y_x y (total_nodes (mp_orders mp) - 1) s = nth s (nth 0 (o_x00 o') []) 0.
