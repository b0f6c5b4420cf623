(** Specification of a problem with the bounds of states and controls turned into path constraints. *)
From Coq Require Import Reals List Arith.
From Verif Require Import Num PyList Mat Poly Roots Colloc Ocp Transcribe Spec SpecOcp NumR.
Import ListNotations.
Open Scope R_scope.

(** rows that are at most 0 exactly when the values are above (below) the bounds; no row for an infinite bound *)
Definition lower_row (b : ext R) (x : R) : list R := match b with NInf => [] | Fin a => [a - x] | _ => [1] end.
Definition upper_row (b : ext R) (x : R) : list R := match b with PInf => [] | Fin a => [x - a] | _ => [1] end.
Definition rows (f : ext R -> R -> list R) (bs : list (ext R)) (xs : list R) : list R := flat_map (fun bx => f (fst bx) (snd bx)) (combine bs xs).
Definition bound_rows (o : ocp Rnum) (ph : nat) (x u : list R) : list R :=
  rows lower_row (nth ph (o_lbx o) []) x ++ rows upper_row (nth ph (o_ubx o) []) x ++
  rows lower_row (nth ph (o_lbu o) []) u ++ rows upper_row (nth ph (o_ubu o) []) u.
(** the path constraints of phase ph followed by these rows *)
Definition add_rows (o : ocp Rnum) (ph : nat) (f : path_fn (N := Rnum)) : path_fn (N := Rnum) :=
  fun x u t a => match f x u t a with
    | Ok None => Ok (Some (bound_rows o ph x u))
    | Ok (Some l) => Ok (Some (l ++ bound_rows o ph x u))
    | Raise e => Raise e
    end.
Definition paths_of_bounds (o : ocp Rnum) : ocp Rnum :=
  Ocp (N := Rnum) (o_nx o) (o_nu o) (o_na o) (o_nph o) (o_dyn o)
    (map (fun pf => add_rows o (fst pf) (snd pf)) (combine (seq 0 (length (o_path o))) (o_path o)))
    (o_mayer o) (o_run o) (o_term o) (o_links o)
    (o_scale_x o) (o_scale_u o) (o_scale_a o) (o_scale_t o) (o_x00 o) (o_xf0 o) (o_u00 o) (o_uf0 o)
    (o_t00 o) (o_tf0 o) (o_a0 o)
    (repeat (repeat NInf (o_nx o)) (o_nph o)) (repeat (repeat PInf (o_nx o)) (o_nph o))
    (repeat (repeat NInf (o_nu o)) (o_nph o)) (repeat (repeat PInf (o_nu o)) (o_nph o))
    (o_lba o) (o_uba o) (o_lbt0 o) (o_ubt0 o) (o_lbtf o) (o_ubtf o) (o_lbe o) (o_ube o) (o_diff_u o) (o_lbdu o) (o_ubdu o)
    (o_midu o) (o_ducont o).
(** how many rows a phase has then *)
Definition counted (f : ext R -> R -> list R) (bs : list (ext R)) : nat := length (flat_map (fun b => f b 0) bs).
Definition more_paths (o : ocp Rnum) (npath : nat -> option nat) (ph : nat) : option nat :=
  Some ((match npath ph with Some n => n | None => 0 end) +
    (counted lower_row (nth ph (o_lbx o) []) + (counted upper_row (nth ph (o_ubx o) []) +
    (counted lower_row (nth ph (o_lbu o) []) + counted upper_row (nth ph (o_ubu o) [])))))%nat.
(** the initial state is within the bounds of the first phase *)
Definition start_inside (o : ocp Rnum) : Prop :=
  forall s, (s < o_nx o)%nat -> within (bnd 0 (o_lbx o) s) (bnd 0 (o_ubx o) s) (nth s (nth 0 (o_x00 o) []) 0).
