(** Specification of smooth solutions of a problem, of their values at the nodes of a mesh and of
    nearly satisfied constraints. *)
From Coq Require Import Reals List Arith.
From Coquelicot Require Import Coquelicot.
From Verif Require Import Num PyList Mat Poly Roots Colloc Ocp Transcribe Spec SpecOcp.
Import ListNotations.
Open Scope R_scope.

(** states and controls of one phase: functions of time *)
Record ftraj := Ftraj { f_x : nat -> R -> R; f_u : nat -> R -> R; f_t0 : R; f_tf : R; f_a : nat -> R }.
(** the values at time [t] *)
Definition f_at (P : ftraj) (t : R) : utraj :=
  Utraj (fun _ s => f_x P s t) (fun _ c => f_u P c t) (f_t0 P) (f_tf P) (f_a P).
(** the values at both ends *)
Definition f_ends (P : ftraj) : utraj :=
  Utraj (fun i s => f_x P s (match i with O => f_t0 P | _ => f_tf P end))
        (fun i c => f_u P c (match i with O => f_t0 P | _ => f_tf P end)) (f_t0 P) (f_tf P) (f_a P).

(** phase [ph] of the continuous problem *)
Record fsolves (o : ocp Rnum) (ph : nat) (P : ftraj) : Prop := {
  fs_time : f_t0 P < f_tf P;
  fs_dyn : forall t s, f_t0 P <= t <= f_tf P -> (s < o_nx o)%nat ->
    is_derive (f_x P s) t (nth s (dyn_val o ph (f_at P t) 0 t) 0);
  fs_path : forall t c, f_t0 P <= t <= f_tf P -> In c (path_val o ph (f_at P t) 0 t) -> c <= 0;
  fs_term : forall c, In c (term_val o ph (f_ends P) 1) -> c = 0;
  fs_init : forall s, ph = O -> (s < o_nx o)%nat -> f_x P s (f_t0 P) = nth s (nth 0 (o_x00 o) []) 0;
  fs_x : forall t s, f_t0 P <= t <= f_tf P -> (s < o_nx o)%nat -> within (bnd ph (o_lbx o) s) (bnd ph (o_ubx o) s) (f_x P s t);
  fs_u : forall t c, f_t0 P <= t <= f_tf P -> (c < o_nu o)%nat -> within (bnd ph (o_lbu o) c) (bnd ph (o_ubu o) c) (f_u P c t);
  fs_t0 : within (bnd ph (o_lbt0 o) 0) (bnd ph (o_ubt0 o) 0) (f_t0 P);
  fs_tf : within (bnd ph (o_lbtf o) 0) (bnd ph (o_ubtf o) 0) (f_tf P);
  fs_a : forall i, (i < o_na o)%nat -> within (bnd ph (o_lba o) i) (bnd ph (o_uba o) i) (f_a P i)
}.
(** the links between the phases *)
Definition flinked (o : ocp Rnum) (Ps : nat -> ftraj) : Prop :=
  forall k i j, nth_error (o_links o) k = Some (i, j) ->
    (forall s, (s < o_nx o)%nat -> within (nth s (nth k (o_lbe o) []) NaN) (nth s (nth k (o_ube o) []) NaN)
       (f_x (Ps j) s (f_t0 (Ps j)) - f_x (Ps i) s (f_tf (Ps i)))) /\
    (forall c, (c < o_nu o)%nat -> f_u (Ps j) c (f_t0 (Ps j)) = f_u (Ps i) c (f_tf (Ps i))) /\
    f_t0 (Ps j) = f_tf (Ps i).
(** [y]: the values of [P] at the nodes of the mesh with widths [w] *)
Definition fsamples (mp : mpo Rnum) (rs : list (list R)) (w : nat -> R) (P : ftraj) (y : utraj) : Prop :=
  y_t0 y = f_t0 P /\ y_tf y = f_tf P /\ (forall i, (i < o_na (mp_ocp mp))%nat -> y_a y i = f_a P i) /\
  forall i k j, owned (mp_orders mp) i k j -> let t := node_time (mp_cf mp) w y k (nth j (nth k rs []) 0) in
    (forall s, (s < o_nx (mp_ocp mp))%nat -> y_x y i s = f_x P s t) /\
    (forall c, (c < o_nu (mp_ocp mp))%nat -> y_u y i c = f_u P c t).

(** [f] has [m] derivatives on [a, b], the last one bounded by [M] *)
Definition smooth (f : R -> R) (a b : R) (m : nat) (M : R) : Prop :=
  forall t, a <= t <= b -> (forall k, (k <= m)%nat -> ex_derive_n f k t) /\ Rabs (Derive_n f m t) <= M.
(** the states, and the controls where they are also bounded at mid points, have one derivative more than the
    orders of the segments *)
Definition smooth_traj (mp : mpo Rnum) (ph : nat) (P : ftraj) (M : R) : Prop :=
  forall q, In q (mp_orders mp) ->
    (forall s, (s < o_nx (mp_ocp mp))%nat -> smooth (f_x P s) (f_t0 P) (f_tf P) (S q) M) /\
    (nth ph (o_midu (mp_ocp mp)) false = true ->
       forall c, (c < o_nu (mp_ocp mp))%nat -> smooth (f_u P c) (f_t0 P) (f_tf P) (S q) M).
(** duration of segment k *)
Definition duration (w : nat -> R) (P : ftraj) (k : nat) : R := (f_tf P - f_t0 P) * w k.
(** the constraints hold up to [eps] *)
Definition sat_within (eps : R) (c : con Rnum) : Prop :=
  forall i, (i < length (c_g c))%nat ->
    above (nth i (c_lo c) NaN) (nth i (c_g c) 0 + eps) /\ below (nth i (c_hi c) NaN) (nth i (c_g c) 0 - eps).
(** running cost along the trajectory, and the cost *)
Definition run_fun (o : ocp Rnum) (ph : nat) (P : ftraj) (L : R -> R) : Prop :=
  forall t, f_t0 P <= t <= f_tf P -> run_val o ph (f_at P t) 0 t = L t.
Definition fcost (o : ocp Rnum) (ph : nat) (P : ftraj) (L : R -> R) : R :=
  mayer_val o ph (f_ends P) 1 + RInt L (f_t0 P) (f_tf P).
