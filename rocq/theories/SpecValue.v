(** Specification of problems that differ in their initial states and bounds only, and of the problem
    between two of them. *)
From Coq Require Import Reals List Arith.
From Verif Require Import Num PyList Mat Poly Roots Colloc Ocp Transcribe Spec SpecOcp SpecConvex NumR.
Import ListNotations.
Open Scope R_scope.

(** the arrays x00, lbx, ubx, lbu, ubu, lba, uba, lbe, ube, lbdu and ubdu of a problem *)
Record limits := Limits {
  l_x00 : list (list R);
  l_lbx : list (list (ext R)); l_ubx : list (list (ext R));
  l_lbu : list (list (ext R)); l_ubu : list (list (ext R));
  l_lba : list (list (ext R)); l_uba : list (list (ext R));
  l_lbe : list (list (ext R)); l_ube : list (list (ext R));
  l_lbdu : list (ext R); l_ubdu : list (ext R)
}.
(** the problem with these arrays *)
Definition with_limits (o : ocp Rnum) (l : limits) : ocp Rnum :=
  Ocp (N := Rnum) (o_nx o) (o_nu o) (o_na o) (o_nph o) (o_dyn o) (o_path o) (o_mayer o) (o_run o) (o_term o) (o_links o)
    (o_scale_x o) (o_scale_u o) (o_scale_a o) (o_scale_t o) (l_x00 l) (o_xf0 o) (o_u00 o) (o_uf0 o)
    (o_t00 o) (o_tf0 o) (o_a0 o) (l_lbx l) (l_ubx l) (l_lbu l) (l_ubu l) (l_lba l) (l_uba l)
    (o_lbt0 o) (o_ubt0 o) (o_lbtf o) (o_ubtf o) (l_lbe l) (l_ube l) (o_diff_u o) (l_lbdu l) (l_ubdu l)
    (o_midu o) (o_ducont o).

(** the bound [lam] of the way from one to another; infinite as soon as one of them is *)
Definition mixe (lam : R) (a b : ext R) : ext R :=
  match a, b with
  | NaN, _ | _, NaN => NaN
  | Fin x, Fin y => Fin (mix lam x y)
  | NInf, _ | _, NInf => NInf
  | _, _ => PInf
  end.
Definition zip {A} (f : A -> A -> A) (l m : list A) : list A := map (fun ab => f (fst ab) (snd ab)) (combine l m).
Definition mix_limits (lam : R) (l m : limits) : limits :=
  let b := zip (zip (mixe lam)) in
  Limits (zip (mixl lam) (l_x00 l) (l_x00 m))
    (b (l_lbx l) (l_lbx m)) (b (l_ubx l) (l_ubx m)) (b (l_lbu l) (l_lbu m)) (b (l_ubu l) (l_ubu m))
    (b (l_lba l) (l_lba m)) (b (l_uba l) (l_uba m)) (b (l_lbe l) (l_lbe m)) (b (l_ube l) (l_ube m))
    (zip (mixe lam) (l_lbdu l) (l_lbdu m)) (zip (mixe lam) (l_ubdu l) (l_ubdu m)).
(** those of a problem *)
Definition limits_of (o : ocp Rnum) : limits :=
  Limits (o_x00 o) (o_lbx o) (o_ubx o) (o_lbu o) (o_ubu o) (o_lba o) (o_uba o) (o_lbe o) (o_ube o) (o_lbdu o) (o_ubdu o).
(** those of a problem with another initial state *)
Definition start_at (o : ocp Rnum) (x : list R) : limits :=
  Limits (x :: tl (o_x00 o)) (o_lbx o) (o_ubx o) (o_lbu o) (o_ubu o) (o_lba o) (o_uba o) (o_lbe o) (o_ube o) (o_lbdu o) (o_ubdu o).
