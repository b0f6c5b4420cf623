(** Specification of two problems put beside each other in one. *)
From Coq Require Import Reals List Arith.
From Verif Require Import Num PyList Mat Poly Roots Colloc Ocp Transcribe Spec SpecOcp NumR.
Import ListNotations.
Open Scope R_scope.

(** parameters as an argument: absent when there are none *)
Definition args (l : list R) : option (list R) := match l with [] => None | _ => Some l end.
(** constraints of both; None when neither has any *)
Definition join_cons (a b : option (list R)) : option (list R) :=
  match a, b with None, None => None | Some l, None => Some l | None, Some m => Some m | Some l, Some m => Some (l ++ m) end.
(** the first n rows of a matrix are those of two others beside each other *)
Definition rows_beside {T} (n : nat) (m ma mb : list (list T)) : Prop := forall i, (i < n)%nat -> nth i m [] = nth i ma [] ++ nth i mb [].
(** times within the bounds of both *)
Definition times_beside (n : nat) (lo hi la ha lb hb : list (list (ext R))) : Prop := forall ph t, (ph < n)%nat ->
  within (bnd ph lo 0) (bnd ph hi 0) t <-> within (bnd ph la 0) (bnd ph ha 0) t /\ within (bnd ph lb 0) (bnd ph hb 0) t.
(** [o] has the states, controls, parameters and constraints of [oa] and of [ob]; the phases run at the same
    times; the costs are added *)
Record beside (o oa ob : ocp Rnum) : Prop := {
  bs_phases : o_nph oa = o_nph o /\ o_nph ob = o_nph o /\ o_links oa = o_links o /\ o_links ob = o_links o;
  bs_dims : (o_nx o = o_nx oa + o_nx ob /\ o_nu o = o_nu oa + o_nu ob /\ o_na o = o_na oa + o_na ob)%nat;
  bs_scale : o_scale_u o = o_scale_u oa ++ o_scale_u ob;
  bs_dyn : forall ph f fa fb, nth_error (o_dyn o) ph = Some f -> nth_error (o_dyn oa) ph = Some fa -> nth_error (o_dyn ob) ph = Some fb ->
    forall (xa xb ua ub : list R) (t : R) (a b da db : list R), length xa = o_nx oa -> length xb = o_nx ob -> length ua = o_nu oa -> length ub = o_nu ob -> length a = o_na oa -> length b = o_na ob ->
    fa xa ua t (args a) = Ok da -> fb xb ub t (args b) = Ok db -> f (xa ++ xb) (ua ++ ub) t (args (a ++ b)) = Ok (da ++ db);
  bs_path : forall ph f fa fb, nth_error (o_path o) ph = Some f -> nth_error (o_path oa) ph = Some fa -> nth_error (o_path ob) ph = Some fb ->
    forall (xa xb ua ub : list R) (t : R) (a b : list R) (ca cb : option (list R)), length xa = o_nx oa -> length xb = o_nx ob -> length ua = o_nu oa -> length ub = o_nu ob -> length a = o_na oa -> length b = o_na ob ->
    fa xa ua t (args a) = Ok ca -> fb xb ub t (args b) = Ok cb -> f (xa ++ xb) (ua ++ ub) t (args (a ++ b)) = Ok (join_cons ca cb);
  bs_run : forall ph f fa fb, nth_error (o_run o) ph = Some f -> nth_error (o_run oa) ph = Some fa -> nth_error (o_run ob) ph = Some fb ->
    forall (xa xb ua ub : list R) (t : R) (a b : list R) (ca cb : R), length xa = o_nx oa -> length xb = o_nx ob -> length ua = o_nu oa -> length ub = o_nu ob -> length a = o_na oa -> length b = o_na ob ->
    fa xa ua t (args a) = Ok (Some ca) -> fb xb ub t (args b) = Ok (Some cb) -> f (xa ++ xb) (ua ++ ub) t (args (a ++ b)) = Ok (Some (ca + cb));
  bs_term : forall ph f fa fb, nth_error (o_term o) ph = Some f -> nth_error (o_term oa) ph = Some fa -> nth_error (o_term ob) ph = Some fb ->
    forall (xa xb ya yb : list R) (tf t0 : R) (a b : list R) (ca cb : option (list R)), length xa = o_nx oa -> length xb = o_nx ob -> length ya = o_nx oa -> length yb = o_nx ob -> length a = o_na oa -> length b = o_na ob ->
    fa xa tf ya t0 (args a) = Ok ca -> fb xb tf yb t0 (args b) = Ok cb -> f (xa ++ xb) tf (ya ++ yb) t0 (args (a ++ b)) = Ok (join_cons ca cb);
  bs_mayer : forall ph f fa fb, nth_error (o_mayer o) ph = Some f -> nth_error (o_mayer oa) ph = Some fa -> nth_error (o_mayer ob) ph = Some fb ->
    forall (xa xb ya yb : list R) (tf t0 : R) (a b : list R) (ca cb : R), length xa = o_nx oa -> length xb = o_nx ob -> length ya = o_nx oa -> length yb = o_nx ob -> length a = o_na oa -> length b = o_na ob ->
    fa xa tf ya t0 (args a) = Ok (Some ca) -> fb xb tf yb t0 (args b) = Ok (Some cb) -> f (xa ++ xb) tf (ya ++ yb) t0 (args (a ++ b)) = Ok (Some (ca + cb));
  bs_start : nth 0 (o_x00 o) [] = nth 0 (o_x00 oa) [] ++ nth 0 (o_x00 ob) [];
  bs_x : rows_beside (o_nph o) (o_lbx o) (o_lbx oa) (o_lbx ob) /\ rows_beside (o_nph o) (o_ubx o) (o_ubx oa) (o_ubx ob);
  bs_u : rows_beside (o_nph o) (o_lbu o) (o_lbu oa) (o_lbu ob) /\ rows_beside (o_nph o) (o_ubu o) (o_ubu oa) (o_ubu ob);
  bs_a : rows_beside (o_nph o) (o_lba o) (o_lba oa) (o_lba ob) /\ rows_beside (o_nph o) (o_uba o) (o_uba oa) (o_uba ob);
  bs_e : rows_beside (o_nph o - 1) (o_lbe o) (o_lbe oa) (o_lbe ob) /\ rows_beside (o_nph o - 1) (o_ube o) (o_ube oa) (o_ube ob);
  bs_t0 : times_beside (o_nph o) (o_lbt0 o) (o_ubt0 o) (o_lbt0 oa) (o_ubt0 oa) (o_lbt0 ob) (o_ubt0 ob);
  bs_tf : times_beside (o_nph o) (o_lbtf o) (o_ubtf o) (o_lbtf oa) (o_ubtf oa) (o_lbtf ob) (o_ubtf ob);
  bs_slopes : (o_diff_u oa = o_diff_u o /\ o_diff_u ob = o_diff_u o) /\ (o_lbdu oa = o_lbdu o /\ o_lbdu ob = o_lbdu o) /\ (o_ubdu oa = o_ubdu o /\ o_ubdu ob = o_ubdu o);
  bs_flags : (o_midu oa = o_midu o /\ o_midu ob = o_midu o) /\ (o_ducont oa = o_ducont o /\ o_ducont ob = o_ducont o)
}.
(** the part of a trajectory that belongs to the second problem; the first problem has the first states, controls and parameters *)
Definition second (oa : ocp Rnum) (y : utraj) : utraj :=
  Utraj (fun i s => y_x y i (o_nx oa + s)%nat) (fun i c => y_u y i (o_nu oa + c)%nat) (y_t0 y) (y_tf y) (fun i => y_a y (o_na oa + i)%nat).
(** the points [za] and [zb] are the parts of the point [z] *)
Definition parts (mp : mpo Rnum) (oa ob : ocp Rnum) (z za zb : list R) : Prop := forall ph, (ph < o_nph (mp_ocp mp))%nat ->
  same_traj (with_ocp mp oa) (user_traj (with_ocp mp oa) za ph) (user_traj mp z ph) /\
  same_traj (with_ocp mp ob) (user_traj (with_ocp mp ob) zb ph) (second oa (user_traj mp z ph)).
(** start and end times of all phases are given by the bounds *)
Definition times_given (o : ocp Rnum) : Prop := forall ph, (ph < o_nph o)%nat ->
  (exists a, forall t, within (bnd ph (o_lbt0 o) 0) (bnd ph (o_ubt0 o) 0) t -> t = a) /\
  (exists b, forall t, within (bnd ph (o_lbtf o) 0) (bnd ph (o_ubtf o) 0) t -> t = b).
