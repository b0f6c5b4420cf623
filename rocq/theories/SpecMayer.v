(** Specification of a problem with its running cost turned into a state. *)
From Coq Require Import Reals List Arith.
From Verif Require Import Num PyList Mat Poly Roots Colloc Ocp Transcribe Spec SpecOcp NumR.
Import ListNotations.
Open Scope R_scope.

(** [o'] has one more state, whose derivative is the running cost of [o], no running cost, and the change of
    the new state added to the terminal cost.  Its bounds and scale are arbitrary. *)
Record mayer_form (o o' : ocp Rnum) : Prop := {
  mf_nx : o_nx o' = S (o_nx o); mf_nu : o_nu o' = o_nu o; mf_na : o_na o' = o_na o; mf_nph : o_nph o' = o_nph o;
  mf_dyn : forall ph f f' g x q u t a d l, nth_error (o_dyn o) ph = Some f -> nth_error (o_dyn o') ph = Some f' -> nth_error (o_run o) ph = Some g ->
    length x = o_nx o -> f x u t a = Ok d -> g x u t a = Ok (Some l) -> f' (x ++ [q]) u t a = Ok (d ++ [l]);
  mf_path : forall ph f f' x q u t a, nth_error (o_path o) ph = Some f -> nth_error (o_path o') ph = Some f' -> length x = o_nx o -> f' (x ++ [q]) u t a = f x u t a;
  mf_run : forall ph f' x u t a, nth_error (o_run o') ph = Some f' -> f' x u t a = Ok (Some 0);
  mf_term : forall ph f f' xf qf tf x0 q0 t0 a, nth_error (o_term o) ph = Some f -> nth_error (o_term o') ph = Some f' ->
    length xf = o_nx o -> length x0 = o_nx o -> f' (xf ++ [qf]) tf (x0 ++ [q0]) t0 a = f xf tf x0 t0 a;
  mf_mayer : forall ph f f' xf qf tf x0 q0 t0 a l, nth_error (o_mayer o) ph = Some f -> nth_error (o_mayer o') ph = Some f' ->
    length xf = o_nx o -> length x0 = o_nx o -> f xf tf x0 t0 a = Ok (Some l) -> f' (xf ++ [qf]) tf (x0 ++ [q0]) t0 a = Ok (Some (l + (qf - q0)));
  mf_links : o_links o' = o_links o;
  mf_su : o_scale_u o' = o_scale_u o;
  mf_start : forall s, (s < o_nx o)%nat -> nth s (nth 0 (o_x00 o') []) 0 = nth s (nth 0 (o_x00 o) []) 0;
  mf_lbx : forall ph s, (s < o_nx o)%nat -> bnd ph (o_lbx o') s = bnd ph (o_lbx o) s;
  mf_ubx : forall ph s, (s < o_nx o)%nat -> bnd ph (o_ubx o') s = bnd ph (o_ubx o) s;
  mf_lbe : forall k s, (s < o_nx o)%nat -> bnd k (o_lbe o') s = bnd k (o_lbe o) s;
  mf_ube : forall k s, (s < o_nx o)%nat -> bnd k (o_ube o') s = bnd k (o_ube o) s;
  mf_lbu : o_lbu o' = o_lbu o; mf_ubu : o_ubu o' = o_ubu o; mf_lba : o_lba o' = o_lba o; mf_uba : o_uba o' = o_uba o;
  mf_lbt0 : o_lbt0 o' = o_lbt0 o; mf_ubt0 : o_ubt0 o' = o_ubt0 o; mf_lbtf : o_lbtf o' = o_lbtf o; mf_ubtf : o_ubtf o' = o_ubtf o;
  mf_diff_u : o_diff_u o' = o_diff_u o; mf_lbdu : o_lbdu o' = o_lbdu o; mf_ubdu : o_ubdu o' = o_ubdu o;
  mf_midu : o_midu o' = o_midu o; mf_ducont : o_ducont o' = o_ducont o
}.
(** the two points stand for the same motion, but for the new state *)
Definition same_motion (mp mp' : mpo Rnum) (z z' : list R) : Prop :=
  forall ph, (ph < o_nph (mp_ocp mp))%nat -> same_traj mp (user_traj mp z ph) (user_traj mp' z' ph).
(** the new state may have any value and may jump between phases *)
Definition free_last (o o' : ocp Rnum) : Prop :=
  (forall ph r, (ph < o_nph o)%nat -> within (bnd ph (o_lbx o') (o_nx o)) (bnd ph (o_ubx o') (o_nx o)) r) /\
  (forall k r, (k < length (o_links o))%nat -> within (bnd k (o_lbe o') (o_nx o)) (bnd k (o_ube o') (o_nx o)) r).
(** the running cost at all nodes of the first segment is a polynomial of a degree below the order of the segment *)
Definition cost_low (mp : mpo Rnum) (rs : list (list R)) (w : nat -> R) (ph : nat) (y : utraj) : Prop :=
  exists C : list R, (length C <= nth 0 (mp_orders mp) 0)%nat /\
    forall j, (j <= nth 0 (mp_orders mp) 0)%nat -> peval C (nth j (nth 0 rs []) 0) = run_at mp rs w ph y 0 j.
