(** Specification of a problem moved to the unit interval: start and end time become parameters. *)
From Coq Require Import Reals List Arith.
From Verif Require Import Num PyList Mat Poly Roots Colloc Ocp Transcribe Spec SpecOcp NumR.
Import ListNotations.
Open Scope R_scope.

Section Unit.
Variable o : ocp Rnum.
Let na := o_na o.
(** the parameter argument of the user functions of the new problem: the old parameters, start time, end time *)
Definition old_pars (a : option (list R)) : option (list R) :=
  if Nat.eqb na 0 then None else match a with Some l => Some (firstn na l) | None => None end.
Definition start_par (a : option (list R)) : R := match a with Some l => nth na l 0 | None => 0 end.
Definition stop_par (a : option (list R)) : R := match a with Some l => nth (S na) l 0 | None => 0 end.
Definition long_par (a : option (list R)) : R := stop_par a - start_par a.
(** the time that belongs to s in [0, 1] *)
Definition time_par (a : option (list R)) (s : R) : R := start_par a + long_par a * s.

Definition unit_dyn (f : dyn_fn (N := Rnum)) : dyn_fn (N := Rnum) := fun x u s a =>
  match f x u (time_par a s) (old_pars a) with Ok d => Ok (map (fun v => long_par a * v) d) | Raise e => Raise e end.
Definition unit_run (f : run_fn (N := Rnum)) : run_fn (N := Rnum) := fun x u s a =>
  match f x u (time_par a s) (old_pars a) with Ok (Some l) => Ok (Some (long_par a * l)) | r => r end.
Definition unit_path (f : path_fn (N := Rnum)) : path_fn (N := Rnum) := fun x u s a => f x u (time_par a s) (old_pars a).
Definition unit_mayer (f : mayer_fn (N := Rnum)) : mayer_fn (N := Rnum) := fun xf _ x0 _ a => f xf (stop_par a) x0 (start_par a) (old_pars a).
Definition unit_term (f : term_fn (N := Rnum)) : term_fn (N := Rnum) := fun xf _ x0 _ a => f xf (stop_par a) x0 (start_par a) (old_pars a).

(** rows of all phases, with the first entries of two other tables added *)
Definition join {T} (d : T) (m m0 m1 : list (list T)) : list (list T) :=
  map (fun ph => nth ph m [] ++ [nth 0 (nth ph m0 []) d; nth 0 (nth ph m1 []) d]) (seq 0 (o_nph o)).
Definition all_phases {T} (v : T) : list (list T) := map (fun _ => [v]) (seq 0 (o_nph o)).

Definition unit_time : ocp Rnum :=
  Ocp (o_nx o) (o_nu o) (na + 2) (o_nph o) (map unit_dyn (o_dyn o)) (map unit_path (o_path o)) (map unit_mayer (o_mayer o)) (map unit_run (o_run o)) (map unit_term (o_term o)) (o_links o)
    (o_scale_x o) (o_scale_u o) (o_scale_a o ++ [o_scale_t o; o_scale_t o]) 1 (o_x00 o) (o_xf0 o) (o_u00 o) (o_uf0 o) (all_phases 0) (all_phases 1) (join 0 (o_a0 o) (o_t00 o) (o_tf0 o))
    (o_lbx o) (o_ubx o) (o_lbu o) (o_ubu o) (join NaN (o_lba o) (o_lbt0 o) (o_lbtf o)) (join NaN (o_uba o) (o_ubt0 o) (o_ubtf o))
    (all_phases (Fin 0)) (all_phases (Fin 0)) (all_phases (Fin 1)) (all_phases (Fin 1)) (o_lbe o) (o_ube o)
    (o_diff_u o) (o_lbdu o) (o_ubdu o) (o_midu o) (o_ducont o).
(** a trajectory on the unit interval *)
Definition unit_traj (y : utraj) : utraj :=
  Utraj (y_x y) (y_u y) 0 1 (fun i => if Nat.ltb i na then y_a y i else if Nat.eqb i na then y_t0 y else y_tf y).
End Unit.
(** the same optimizer for the new problem *)
Definition unit_mpo (mp : mpo Rnum) : mpo Rnum := Mpo (unit_time (mp_ocp mp)) (mp_nseg mp) (mp_orders mp) (mp_cf mp).
(** point [z'] of the new problem is point [z] of the old one, moved to the unit interval *)
Definition on_unit (mp : mpo Rnum) (z z' : list R) : Prop :=
  forall ph, (ph < o_nph (mp_ocp mp))%nat -> same_traj (unit_mpo mp) (user_traj (unit_mpo mp) z' ph) (unit_traj (mp_ocp mp) (user_traj mp z ph)).
