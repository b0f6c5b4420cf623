(** Specification of relations between two problems: one relaxes the other, costs are combinations of
    each other, one is the other shifted in time. *)
From Coq Require Import Reals List Arith.
From Verif Require Import Num PyList Mat Poly Roots Colloc Ocp Transcribe Spec SpecOcp NumR.
Import ListNotations.
Open Scope R_scope.

(** the decision vectors of both problems have the same layout and scales *)
Record same_vars (o o' : ocp Rnum) : Prop := {
  sd_nx : o_nx o' = o_nx o; sd_nu : o_nu o' = o_nu o; sd_na : o_na o' = o_na o; sd_nph : o_nph o' = o_nph o;
  sd_sx : o_scale_x o' = o_scale_x o; sd_su : o_scale_u o' = o_scale_u o; sd_sa : o_scale_a o' = o_scale_a o;
  sd_st : o_scale_t o' = o_scale_t o
}.

(** * Relaxed problems *)
(** the bounds lo', hi' allow everything that lo, hi allow *)
Definition wider (lo hi lo' hi' : ext R) : Prop := ext_le lo' lo /\ ext_le hi hi'.
(** same state equations and links; every other condition of [o'] follows from that of [o] *)
Record relaxed (o o' : ocp Rnum) : Prop := {
  rl_same : same_vars o o';
  rl_dyn : o_dyn o' = o_dyn o;
  rl_links : o_links o' = o_links o;
  rl_start : nth 0 (o_x00 o') [] = nth 0 (o_x00 o) [];
  rl_path : forall ph y i t, (ph < o_nph o)%nat -> (forall c, In c (path_val o ph y i t) -> c <= 0) ->
    forall c, In c (path_val o' ph y i t) -> c <= 0;
  rl_term : forall ph y last, (ph < o_nph o)%nat -> (forall c, In c (term_val o ph y last) -> c = 0) ->
    forall c, In c (term_val o' ph y last) -> c = 0;
  rl_x : forall ph s, (ph < o_nph o)%nat -> (s < o_nx o)%nat -> wider (bnd ph (o_lbx o) s) (bnd ph (o_ubx o) s) (bnd ph (o_lbx o') s) (bnd ph (o_ubx o') s);
  rl_u : forall ph c, (ph < o_nph o)%nat -> (c < o_nu o)%nat -> wider (bnd ph (o_lbu o) c) (bnd ph (o_ubu o) c) (bnd ph (o_lbu o') c) (bnd ph (o_ubu o') c);
  rl_a : forall ph i, (ph < o_nph o)%nat -> (i < o_na o)%nat -> wider (bnd ph (o_lba o) i) (bnd ph (o_uba o) i) (bnd ph (o_lba o') i) (bnd ph (o_uba o') i);
  rl_t0 : forall ph, (ph < o_nph o)%nat -> wider (bnd ph (o_lbt0 o) 0) (bnd ph (o_ubt0 o) 0) (bnd ph (o_lbt0 o') 0) (bnd ph (o_ubt0 o') 0);
  rl_tf : forall ph, (ph < o_nph o)%nat -> wider (bnd ph (o_lbtf o) 0) (bnd ph (o_ubtf o) 0) (bnd ph (o_lbtf o') 0) (bnd ph (o_ubtf o') 0);
  rl_e : forall k s, (k < length (o_links o))%nat -> (s < o_nx o)%nat -> wider (bnd k (o_lbe o) s) (bnd k (o_ube o) s) (bnd k (o_lbe o') s) (bnd k (o_ube o') s);
  rl_diff_u : forall ph, (ph < o_nph o)%nat -> nth ph (o_diff_u o') false = true ->
    nth ph (o_diff_u o) false = true /\ wider (nth ph (o_lbdu o) NaN) (nth ph (o_ubdu o) NaN) (nth ph (o_lbdu o') NaN) (nth ph (o_ubdu o') NaN);
  rl_midu : forall ph, (ph < o_nph o)%nat -> nth ph (o_midu o') false = true -> nth ph (o_midu o) false = true;
  rl_ducont : forall ph, (ph < o_nph o)%nat -> nth ph (o_ducont o') false = true -> nth ph (o_ducont o) false = true
}.
(** nowhere more expensive *)
Definition cheaper (o o' : ocp Rnum) : Prop :=
  (forall ph y i t, (ph < o_nph o)%nat -> run_val o' ph y i t <= run_val o ph y i t) /\
  (forall ph y last, (ph < o_nph o)%nat -> mayer_val o' ph y last <= mayer_val o ph y last).

(** * Combined costs *)
(** costs of [o] = alpha * costs of [o1] + beta * costs of [o2], and [gamma ph] at the end of phase ph *)
Definition combined (alpha beta : R) (gamma : nat -> R) (o1 o2 o : ocp Rnum) : Prop :=
  (forall ph y i t, (ph < o_nph o)%nat -> run_val o ph y i t = alpha * run_val o1 ph y i t + beta * run_val o2 ph y i t) /\
  (forall ph y last, (ph < o_nph o)%nat -> mayer_val o ph y last = alpha * mayer_val o1 ph y last + beta * mayer_val o2 ph y last + gamma ph).

(** * Problems shifted in time *)
Definition ext_shift (s : R) (b : ext R) : ext R := match b with Fin a => Fin (a + s) | b => b end.
(** [o'] is [o] starting [s] later: functions at time t + s are those of [o] at t, the bounds on the
    times are [s] later, everything else is as in [o] *)
Record later (s : R) (o o' : ocp Rnum) : Prop := {
  lt_same : same_vars o o';
  lt_dyn : forall ph f f' x u t a, nth_error (o_dyn o) ph = Some f -> nth_error (o_dyn o') ph = Some f' -> f' x u (t + s) a = f x u t a;
  lt_path : forall ph f f' x u t a, nth_error (o_path o) ph = Some f -> nth_error (o_path o') ph = Some f' -> f' x u (t + s) a = f x u t a;
  lt_run : forall ph f f' x u t a, nth_error (o_run o) ph = Some f -> nth_error (o_run o') ph = Some f' -> f' x u (t + s) a = f x u t a;
  lt_term : forall ph f f' xf tf x0 t0 a, nth_error (o_term o) ph = Some f -> nth_error (o_term o') ph = Some f' -> f' xf (tf + s) x0 (t0 + s) a = f xf tf x0 t0 a;
  lt_mayer : forall ph f f' xf tf x0 t0 a, nth_error (o_mayer o) ph = Some f -> nth_error (o_mayer o') ph = Some f' -> f' xf (tf + s) x0 (t0 + s) a = f xf tf x0 t0 a;
  lt_t0 : forall ph, (ph < o_nph o)%nat -> bnd ph (o_lbt0 o') 0 = ext_shift s (bnd ph (o_lbt0 o) 0) /\ bnd ph (o_ubt0 o') 0 = ext_shift s (bnd ph (o_ubt0 o) 0);
  lt_tf : forall ph, (ph < o_nph o)%nat -> bnd ph (o_lbtf o') 0 = ext_shift s (bnd ph (o_lbtf o) 0) /\ bnd ph (o_ubtf o') 0 = ext_shift s (bnd ph (o_ubtf o) 0);
  lt_links : o_links o' = o_links o;
  lt_start : nth 0 (o_x00 o') [] = nth 0 (o_x00 o) [];
  lt_lbx : o_lbx o' = o_lbx o; lt_ubx : o_ubx o' = o_ubx o; lt_lbu : o_lbu o' = o_lbu o; lt_ubu : o_ubu o' = o_ubu o;
  lt_lba : o_lba o' = o_lba o; lt_uba : o_uba o' = o_uba o; lt_lbe : o_lbe o' = o_lbe o; lt_ube : o_ube o' = o_ube o;
  lt_diff_u : o_diff_u o' = o_diff_u o; lt_lbdu : o_lbdu o' = o_lbdu o; lt_ubdu : o_ubdu o' = o_ubdu o;
  lt_midu : o_midu o' = o_midu o; lt_ducont : o_ducont o' = o_ducont o
}.
Definition delay (s : R) (y : utraj) : utraj := Utraj (y_x y) (y_u y) (y_t0 y + s) (y_tf y + s) (y_a y).
(** the trajectories of [z'] are those of [z], [s] later *)
Definition shifted (s : R) (mp : mpo Rnum) (z z' : list R) : Prop :=
  forall ph, (ph < o_nph (mp_ocp mp))%nat -> same_traj mp (user_traj mp z' ph) (delay s (user_traj mp z ph)).
