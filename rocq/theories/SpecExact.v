(** Specification of exact solutions of a problem that are polynomials in time, and of their values
    at the nodes of a mesh. *)
From Coq Require Import Reals List Arith.
From Coquelicot Require Import Coquelicot.
From Verif Require Import Num PyList Mat Poly Roots Colloc Ocp Transcribe Spec SpecOcp NumR.
Import ListNotations.
Open Scope R_scope.

(** states and controls of one phase: coefficients of polynomials in time *)
Record ptraj := Ptraj { p_x : nat -> list R; p_u : nat -> list R; p_t0 : R; p_tf : R; p_a : nat -> R }.
(** the values at time [t] *)
Definition at_time (P : ptraj) (t : R) : utraj :=
  Utraj (fun _ s => peval (p_x P s) t) (fun _ c => peval (p_u P c) t) (p_t0 P) (p_tf P) (p_a P).
(** the values at both ends *)
Definition at_ends (P : ptraj) : utraj :=
  Utraj (fun i s => peval (p_x P s) (match i with O => p_t0 P | _ => p_tf P end))
        (fun i c => peval (p_u P c) (match i with O => p_t0 P | _ => p_tf P end)) (p_t0 P) (p_tf P) (p_a P).

(** phase [ph] of the continuous problem *)
Record solves (o : ocp Rnum) (ph : nat) (P : ptraj) : Prop := {
  so_time : p_t0 P < p_tf P;
  so_dyn : forall t s, p_t0 P <= t <= p_tf P -> (s < o_nx o)%nat ->
    is_derive (peval (p_x P s)) t (nth s (dyn_val o ph (at_time P t) 0 t) 0);
  so_path : forall t c, p_t0 P <= t <= p_tf P -> In c (path_val o ph (at_time P t) 0 t) -> c <= 0;
  so_term : forall c, In c (term_val o ph (at_ends P) 1) -> c = 0;
  so_init : forall s, ph = O -> (s < o_nx o)%nat -> peval (p_x P s) (p_t0 P) = nth s (nth 0 (o_x00 o) []) 0;
  so_x : forall t s, p_t0 P <= t <= p_tf P -> (s < o_nx o)%nat -> within (bnd ph (o_lbx o) s) (bnd ph (o_ubx o) s) (peval (p_x P s) t);
  so_u : forall t c, p_t0 P <= t <= p_tf P -> (c < o_nu o)%nat -> within (bnd ph (o_lbu o) c) (bnd ph (o_ubu o) c) (peval (p_u P c) t);
  so_t0 : within (bnd ph (o_lbt0 o) 0) (bnd ph (o_ubt0 o) 0) (p_t0 P);
  so_tf : within (bnd ph (o_lbtf o) 0) (bnd ph (o_ubtf o) 0) (p_tf P);
  so_a : forall i, (i < o_na o)%nat -> within (bnd ph (o_lba o) i) (bnd ph (o_uba o) i) (p_a P i)
}.
(** the links between the phases *)
Definition linked (o : ocp Rnum) (Ps : nat -> ptraj) : Prop :=
  forall k i j, nth_error (o_links o) k = Some (i, j) ->
    (forall s, (s < o_nx o)%nat -> within (nth s (nth k (o_lbe o) []) NaN) (nth s (nth k (o_ube o) []) NaN)
       (peval (p_x (Ps j) s) (p_t0 (Ps j)) - peval (p_x (Ps i) s) (p_tf (Ps i)))) /\
    (forall c, (c < o_nu o)%nat -> peval (p_u (Ps j) c) (p_t0 (Ps j)) = peval (p_u (Ps i) c) (p_tf (Ps i))) /\
    p_t0 (Ps j) = p_tf (Ps i).
(** no slope constraints on the controls *)
Definition no_slopes (o : ocp Rnum) : Prop := forall ph, nth ph (o_diff_u o) false = false /\ nth ph (o_ducont o) false = false.
(** every segment can represent the polynomials *)
Definition resolved (mp : mpo Rnum) (P : ptraj) : Prop :=
  forall q, In q (mp_orders mp) ->
    (forall s, (s < o_nx (mp_ocp mp))%nat -> (length (p_x P s) <= S q)%nat) /\
    (forall c, (c < o_nu (mp_ocp mp))%nat -> (length (p_u P c) <= S q)%nat).
(** [y]: the values of [P] at the nodes of the mesh with widths [w] *)
Definition samples (mp : mpo Rnum) (rs : list (list R)) (w : nat -> R) (P : ptraj) (y : utraj) : Prop :=
  y_t0 y = p_t0 P /\ y_tf y = p_tf P /\ (forall i, (i < o_na (mp_ocp mp))%nat -> y_a y i = p_a P i) /\
  forall i k j, owned (mp_orders mp) i k j -> let t := node_time (mp_cf mp) w y k (nth j (nth k rs []) 0) in
    (forall s, (s < o_nx (mp_ocp mp))%nat -> y_x y i s = peval (p_x P s) t) /\
    (forall c, (c < o_nu (mp_ocp mp))%nat -> y_u y i c = peval (p_u P c) t).
(** the cost: terminal cost and integral of the running cost, which is the polynomial [L] of time *)
Definition run_poly (o : ocp Rnum) (ph : nat) (P : ptraj) (L : list R) : Prop :=
  forall t, p_t0 P <= t <= p_tf P -> run_val o ph (at_time P t) 0 t = peval L t.
Definition exact_cost (o : ocp Rnum) (ph : nat) (P : ptraj) (L : list R) : R :=
  mayer_val o ph (at_ends P) 1 + RInt (peval L) (p_t0 P) (p_tf P).
