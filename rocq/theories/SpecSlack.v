(** Specification of bounds that a point does not touch. *)
From Coq Require Import Reals List Arith Bool.
From Coquelicot Require Import Coquelicot.
From Coq Require Import List.
From Verif Require Import Num PyList Mat Poly Roots Colloc Ocp Transcribe Spec SpecOcp SpecConvex SpecValue NumR.
Import ListNotations.
Open Scope R_scope.

Definition off_lower (lo : ext R) (x : R) : Prop := match lo with NInf => True | Fin a => a < x | _ => False end.
Definition off_upper (hi : ext R) (x : R) : Prop := match hi with PInf => True | Fin a => x < a | _ => False end.
(** a bound of x that changes is not touched by x *)
Definition untouched (lo hi lo' hi' : ext R) (x : R) : Prop := (lo' = lo \/ off_lower lo x) /\ (hi' = hi \/ off_upper hi x).
(** the bounds in [l] that differ in [l'] are not touched by the trajectories [ys]; they start in the same state *)
Record slack (mp : mpo Rnum) (rs : list (list R)) (l l' : limits) (ys : nat -> utraj) : Prop := {
  sk_x00 : nth 0 (l_x00 l') [] = nth 0 (l_x00 l) [];
  sk_x : forall ph i s, (ph < o_nph (mp_ocp mp))%nat -> (i < total_nodes (mp_orders mp))%nat -> (s < o_nx (mp_ocp mp))%nat -> Nat.eqb ph 0 && Nat.eqb i 0 = false ->
    untouched (bnd ph (l_lbx l) s) (bnd ph (l_ubx l) s) (bnd ph (l_lbx l') s) (bnd ph (l_ubx l') s) (y_x (ys ph) i s);
  sk_u : forall ph i c, (ph < o_nph (mp_ocp mp))%nat -> (i < total_nodes (mp_orders mp))%nat -> (c < o_nu (mp_ocp mp))%nat ->
    untouched (bnd ph (l_lbu l) c) (bnd ph (l_ubu l) c) (bnd ph (l_lbu l') c) (bnd ph (l_ubu l') c) (y_u (ys ph) i c);
  sk_a : forall ph i, (ph < o_nph (mp_ocp mp))%nat -> (i < o_na (mp_ocp mp))%nat ->
    untouched (bnd ph (l_lba l) i) (bnd ph (l_uba l) i) (bnd ph (l_lba l') i) (bnd ph (l_uba l') i) (y_a (ys ph) i);
  sk_slope : forall ph i k j c q, (ph < o_nph (mp_ocp mp))%nat -> nth ph (o_diff_u (mp_ocp mp)) false = true -> owned (mp_orders mp) i k j -> (c < o_nu (mp_ocp mp))%nat ->
    seg_interp (mp_orders mp) k (nth k rs []) (fun i => y_u (ys ph) i c) q ->
    untouched (nth ph (l_lbdu l) NaN) (nth ph (l_ubdu l) NaN) (nth ph (l_lbdu l') NaN) (nth ph (l_ubdu l') NaN)
      (nth c (o_scale_u (mp_ocp mp)) 0 * Derive (peval q) (nth j (nth k rs []) 0));
  sk_midu : forall ph k d j c q, (ph < o_nph (mp_ocp mp))%nat -> nth ph (o_midu (mp_ocp mp)) false = true -> nth_error (mp_orders mp) k = Some d -> (j < d)%nat -> (c < o_nu (mp_ocp mp))%nat ->
    seg_interp (mp_orders mp) k (nth k rs []) (fun i => y_u (ys ph) i c) q ->
    untouched (bnd ph (l_lbu l) c) (bnd ph (l_ubu l) c) (bnd ph (l_lbu l') c) (bnd ph (l_ubu l') c)
      (peval q ((nth j (nth k rs []) 0 + nth (S j) (nth k rs []) 0) / 2));
  sk_link : forall k i j s, nth_error (o_links (mp_ocp mp)) k = Some (i, j) -> (s < o_nx (mp_ocp mp))%nat ->
    untouched (bnd k (l_lbe l) s) (bnd k (l_ube l) s) (bnd k (l_lbe l') s) (bnd k (l_ube l') s)
      (y_x (ys j) 0 s - y_x (ys i) (total_nodes (mp_orders mp) - 1) s)
}.
