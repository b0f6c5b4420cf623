(** How a user fills in a problem: assignments to entries of the attributes that OCP.__init__
    makes (mpopt.py:3418-3485), [ocp.lbu[0] = 0], [ocp.x00[0] = [10, -2]], [ocp.lbx[0][1] = -0.8],
    [ocp.ubdu[1] = 5], [ocp.dynamics[0] = f], and new scaling arrays.

    numpy: a number assigned to a row is written to all its entries, and so is a list of one
    number; a list of another length than the row is a ValueError.  The attributes of lines
    3455-3476 are arrays of floats; diff_u, lbdu, ubdu, midu and du_continuity (lines 3479-3486)
    are made of Python ints and are arrays of int64: a number written to them is cut to an integer;
    infinity, and what int64 cannot hold, is an OverflowError.
    Simplified: replacing a whole array of bounds or guesses is not modelled; a switch is modelled by whether its integer is not zero; the attributes n_states,
    phase_links and plotting settings are not assigned; a row cannot hold inf in the arrays of the
    initial guess. *)
From Coq Require Import List Arith ZArith Bool.
From Verif Require Import Num PyList Mat Roots Colloc Ocp Transcribe Objects.
Import ListNotations.
Set Implicit Arguments.
Unset Strict Implicit.

(** position [i] in a sequence of [n] entries: negative positions count from the end *)
Definition position (n : nat) (i : Z) : res nat :=
  let j := if (i <? 0)%Z then (i + Z.of_nat n)%Z else i in
  if ((0 <=? j) && (j <? Z.of_nat n))%Z then Ok (Z.to_nat j) else Raise IndexError.
(** l[i] = x *)
Definition put {A} (l : list A) (i : Z) (x : A) : res (list A) :=
  k <- position (length l) i ;; Ok (set_nth l k x).
(** what is assigned to a row: a number, a list, or a number to its entry [j] *)
Inductive rowval (T : Type) := One (v : T) | Row (l : list T) | Entry (j : Z) (v : T).
Arguments One {T} v.
Arguments Row {T} l.
Arguments Entry {T} j v.
Definition put_row {T} (m : list (list T)) (i : Z) (v : rowval T) : res (list (list T)) :=
  k <- position (length m) i ;;
  row <- at_ m k ;;
  match v with
  | One a | Row [a] => Ok (set_nth m k (repeat a (length row)))
  | Row l => if Nat.eqb (length l) (length row) then Ok (set_nth m k l) else Raise ValueError
  | Entry j a => row' <- put row j a ;; Ok (set_nth m k row')
  end.

(** attributes *)
Inductive gattr := Gx00 | Gxf0 | Gu00 | Guf0 | Gt00 | Gtf0 | Ga0.
Inductive battr := Blbx | Bubx | Blbu | Bubu | Blba | Buba | Blbt0 | Bubt0 | Blbtf | Bubtf | Blbe | Bube.
Inductive iattr := Idiff_u | Imidu | Idu_continuity.
Inductive dattr := Dlbdu | Dubdu.

Section Assign.
Context {N : num}.

(** a number written to an array of int64 *)
Definition to_int (v : ext N) : res Z :=
  match v with
  | Fin x => let k := ntrunc x in
             if ((- 2 ^ 63 <=? k) && (k <? 2 ^ 63))%Z then Ok k else Raise OverflowError
  | NaN => Raise ValueError
  | _ => Raise OverflowError
  end.

(** l[i] = v for such an array; [g] is how the model represents its integers *)
Definition put_int {A} (l : list A) (i : Z) (v : ext N) (g : Z -> A) : res (list A) :=
  j <- position (length l) i ;; k <- to_int v ;; Ok (set_nth l j (g k)).

Inductive assign :=
| SetGuess (a : gattr) (i : Z) (v : rowval N)
| SetBound (a : battr) (i : Z) (v : rowval (ext N))
| SetSwitch (a : iattr) (i : Z) (v : ext N)
| SetSlope (a : dattr) (i : Z) (v : ext N)
| SetDynamics (i : Z) (f : dyn_fn (N := N))
| SetPath (i : Z) (f : path_fn (N := N))
| SetMayer (i : Z) (f : mayer_fn (N := N))
| SetRunning (i : Z) (f : run_fn (N := N))
| SetTerminal (i : Z) (f : term_fn (N := N))
| SetScaleX (l : list N)
| SetScaleU (l : list N)
| SetScaleA (l : list N)
| SetScaleT (s : N).

(** the problem with one attribute replaced ([with_dyn]: Objects.v) *)
Definition with_path (o : ocp N) v : ocp N :=
  Ocp (o_nx o) (o_nu o) (o_na o) (o_nph o) (o_dyn o) v (o_mayer o) (o_run o) (o_term o) (o_links o)
    (o_scale_x o) (o_scale_u o) (o_scale_a o) (o_scale_t o) (o_x00 o) (o_xf0 o) (o_u00 o) (o_uf0 o) (o_t00
    o) (o_tf0 o) (o_a0 o) (o_lbx o) (o_ubx o) (o_lbu o) (o_ubu o) (o_lba o) (o_uba o) (o_lbt0 o) (o_ubt0 o)
    (o_lbtf o) (o_ubtf o) (o_lbe o) (o_ube o) (o_diff_u o) (o_lbdu o) (o_ubdu o) (o_midu o) (o_ducont o).
Definition with_mayer (o : ocp N) v : ocp N :=
  Ocp (o_nx o) (o_nu o) (o_na o) (o_nph o) (o_dyn o) (o_path o) v (o_run o) (o_term o) (o_links o)
    (o_scale_x o) (o_scale_u o) (o_scale_a o) (o_scale_t o) (o_x00 o) (o_xf0 o) (o_u00 o) (o_uf0 o) (o_t00
    o) (o_tf0 o) (o_a0 o) (o_lbx o) (o_ubx o) (o_lbu o) (o_ubu o) (o_lba o) (o_uba o) (o_lbt0 o) (o_ubt0 o)
    (o_lbtf o) (o_ubtf o) (o_lbe o) (o_ube o) (o_diff_u o) (o_lbdu o) (o_ubdu o) (o_midu o) (o_ducont o).
Definition with_run (o : ocp N) v : ocp N :=
  Ocp (o_nx o) (o_nu o) (o_na o) (o_nph o) (o_dyn o) (o_path o) (o_mayer o) v (o_term o) (o_links o)
    (o_scale_x o) (o_scale_u o) (o_scale_a o) (o_scale_t o) (o_x00 o) (o_xf0 o) (o_u00 o) (o_uf0 o) (o_t00
    o) (o_tf0 o) (o_a0 o) (o_lbx o) (o_ubx o) (o_lbu o) (o_ubu o) (o_lba o) (o_uba o) (o_lbt0 o) (o_ubt0 o)
    (o_lbtf o) (o_ubtf o) (o_lbe o) (o_ube o) (o_diff_u o) (o_lbdu o) (o_ubdu o) (o_midu o) (o_ducont o).
Definition with_term (o : ocp N) v : ocp N :=
  Ocp (o_nx o) (o_nu o) (o_na o) (o_nph o) (o_dyn o) (o_path o) (o_mayer o) (o_run o) v (o_links o)
    (o_scale_x o) (o_scale_u o) (o_scale_a o) (o_scale_t o) (o_x00 o) (o_xf0 o) (o_u00 o) (o_uf0 o) (o_t00
    o) (o_tf0 o) (o_a0 o) (o_lbx o) (o_ubx o) (o_lbu o) (o_ubu o) (o_lba o) (o_uba o) (o_lbt0 o) (o_ubt0 o)
    (o_lbtf o) (o_ubtf o) (o_lbe o) (o_ube o) (o_diff_u o) (o_lbdu o) (o_ubdu o) (o_midu o) (o_ducont o).
Definition with_scale_x (o : ocp N) v : ocp N :=
  Ocp (o_nx o) (o_nu o) (o_na o) (o_nph o) (o_dyn o) (o_path o) (o_mayer o) (o_run o) (o_term o) (o_links o)
    v (o_scale_u o) (o_scale_a o) (o_scale_t o) (o_x00 o) (o_xf0 o) (o_u00 o) (o_uf0 o) (o_t00 o) (o_tf0 o)
    (o_a0 o) (o_lbx o) (o_ubx o) (o_lbu o) (o_ubu o) (o_lba o) (o_uba o) (o_lbt0 o) (o_ubt0 o) (o_lbtf o)
    (o_ubtf o) (o_lbe o) (o_ube o) (o_diff_u o) (o_lbdu o) (o_ubdu o) (o_midu o) (o_ducont o).
Definition with_scale_u (o : ocp N) v : ocp N :=
  Ocp (o_nx o) (o_nu o) (o_na o) (o_nph o) (o_dyn o) (o_path o) (o_mayer o) (o_run o) (o_term o) (o_links o)
    (o_scale_x o) v (o_scale_a o) (o_scale_t o) (o_x00 o) (o_xf0 o) (o_u00 o) (o_uf0 o) (o_t00 o) (o_tf0 o)
    (o_a0 o) (o_lbx o) (o_ubx o) (o_lbu o) (o_ubu o) (o_lba o) (o_uba o) (o_lbt0 o) (o_ubt0 o) (o_lbtf o)
    (o_ubtf o) (o_lbe o) (o_ube o) (o_diff_u o) (o_lbdu o) (o_ubdu o) (o_midu o) (o_ducont o).
Definition with_scale_a (o : ocp N) v : ocp N :=
  Ocp (o_nx o) (o_nu o) (o_na o) (o_nph o) (o_dyn o) (o_path o) (o_mayer o) (o_run o) (o_term o) (o_links o)
    (o_scale_x o) (o_scale_u o) v (o_scale_t o) (o_x00 o) (o_xf0 o) (o_u00 o) (o_uf0 o) (o_t00 o) (o_tf0 o)
    (o_a0 o) (o_lbx o) (o_ubx o) (o_lbu o) (o_ubu o) (o_lba o) (o_uba o) (o_lbt0 o) (o_ubt0 o) (o_lbtf o)
    (o_ubtf o) (o_lbe o) (o_ube o) (o_diff_u o) (o_lbdu o) (o_ubdu o) (o_midu o) (o_ducont o).
Definition with_scale_t (o : ocp N) v : ocp N :=
  Ocp (o_nx o) (o_nu o) (o_na o) (o_nph o) (o_dyn o) (o_path o) (o_mayer o) (o_run o) (o_term o) (o_links o)
    (o_scale_x o) (o_scale_u o) (o_scale_a o) v (o_x00 o) (o_xf0 o) (o_u00 o) (o_uf0 o) (o_t00 o) (o_tf0 o)
    (o_a0 o) (o_lbx o) (o_ubx o) (o_lbu o) (o_ubu o) (o_lba o) (o_uba o) (o_lbt0 o) (o_ubt0 o) (o_lbtf o)
    (o_ubtf o) (o_lbe o) (o_ube o) (o_diff_u o) (o_lbdu o) (o_ubdu o) (o_midu o) (o_ducont o).
Definition with_x00 (o : ocp N) v : ocp N :=
  Ocp (o_nx o) (o_nu o) (o_na o) (o_nph o) (o_dyn o) (o_path o) (o_mayer o) (o_run o) (o_term o) (o_links o)
    (o_scale_x o) (o_scale_u o) (o_scale_a o) (o_scale_t o) v (o_xf0 o) (o_u00 o) (o_uf0 o) (o_t00 o) (o_tf0
    o) (o_a0 o) (o_lbx o) (o_ubx o) (o_lbu o) (o_ubu o) (o_lba o) (o_uba o) (o_lbt0 o) (o_ubt0 o) (o_lbtf o)
    (o_ubtf o) (o_lbe o) (o_ube o) (o_diff_u o) (o_lbdu o) (o_ubdu o) (o_midu o) (o_ducont o).
Definition with_xf0 (o : ocp N) v : ocp N :=
  Ocp (o_nx o) (o_nu o) (o_na o) (o_nph o) (o_dyn o) (o_path o) (o_mayer o) (o_run o) (o_term o) (o_links o)
    (o_scale_x o) (o_scale_u o) (o_scale_a o) (o_scale_t o) (o_x00 o) v (o_u00 o) (o_uf0 o) (o_t00 o) (o_tf0
    o) (o_a0 o) (o_lbx o) (o_ubx o) (o_lbu o) (o_ubu o) (o_lba o) (o_uba o) (o_lbt0 o) (o_ubt0 o) (o_lbtf o)
    (o_ubtf o) (o_lbe o) (o_ube o) (o_diff_u o) (o_lbdu o) (o_ubdu o) (o_midu o) (o_ducont o).
Definition with_u00 (o : ocp N) v : ocp N :=
  Ocp (o_nx o) (o_nu o) (o_na o) (o_nph o) (o_dyn o) (o_path o) (o_mayer o) (o_run o) (o_term o) (o_links o)
    (o_scale_x o) (o_scale_u o) (o_scale_a o) (o_scale_t o) (o_x00 o) (o_xf0 o) v (o_uf0 o) (o_t00 o) (o_tf0
    o) (o_a0 o) (o_lbx o) (o_ubx o) (o_lbu o) (o_ubu o) (o_lba o) (o_uba o) (o_lbt0 o) (o_ubt0 o) (o_lbtf o)
    (o_ubtf o) (o_lbe o) (o_ube o) (o_diff_u o) (o_lbdu o) (o_ubdu o) (o_midu o) (o_ducont o).
Definition with_uf0 (o : ocp N) v : ocp N :=
  Ocp (o_nx o) (o_nu o) (o_na o) (o_nph o) (o_dyn o) (o_path o) (o_mayer o) (o_run o) (o_term o) (o_links o)
    (o_scale_x o) (o_scale_u o) (o_scale_a o) (o_scale_t o) (o_x00 o) (o_xf0 o) (o_u00 o) v (o_t00 o) (o_tf0
    o) (o_a0 o) (o_lbx o) (o_ubx o) (o_lbu o) (o_ubu o) (o_lba o) (o_uba o) (o_lbt0 o) (o_ubt0 o) (o_lbtf o)
    (o_ubtf o) (o_lbe o) (o_ube o) (o_diff_u o) (o_lbdu o) (o_ubdu o) (o_midu o) (o_ducont o).
Definition with_t00 (o : ocp N) v : ocp N :=
  Ocp (o_nx o) (o_nu o) (o_na o) (o_nph o) (o_dyn o) (o_path o) (o_mayer o) (o_run o) (o_term o) (o_links o)
    (o_scale_x o) (o_scale_u o) (o_scale_a o) (o_scale_t o) (o_x00 o) (o_xf0 o) (o_u00 o) (o_uf0 o) v (o_tf0
    o) (o_a0 o) (o_lbx o) (o_ubx o) (o_lbu o) (o_ubu o) (o_lba o) (o_uba o) (o_lbt0 o) (o_ubt0 o) (o_lbtf o)
    (o_ubtf o) (o_lbe o) (o_ube o) (o_diff_u o) (o_lbdu o) (o_ubdu o) (o_midu o) (o_ducont o).
Definition with_tf0 (o : ocp N) v : ocp N :=
  Ocp (o_nx o) (o_nu o) (o_na o) (o_nph o) (o_dyn o) (o_path o) (o_mayer o) (o_run o) (o_term o) (o_links o)
    (o_scale_x o) (o_scale_u o) (o_scale_a o) (o_scale_t o) (o_x00 o) (o_xf0 o) (o_u00 o) (o_uf0 o) (o_t00
    o) v (o_a0 o) (o_lbx o) (o_ubx o) (o_lbu o) (o_ubu o) (o_lba o) (o_uba o) (o_lbt0 o) (o_ubt0 o) (o_lbtf
    o) (o_ubtf o) (o_lbe o) (o_ube o) (o_diff_u o) (o_lbdu o) (o_ubdu o) (o_midu o) (o_ducont o).
Definition with_a0 (o : ocp N) v : ocp N :=
  Ocp (o_nx o) (o_nu o) (o_na o) (o_nph o) (o_dyn o) (o_path o) (o_mayer o) (o_run o) (o_term o) (o_links o)
    (o_scale_x o) (o_scale_u o) (o_scale_a o) (o_scale_t o) (o_x00 o) (o_xf0 o) (o_u00 o) (o_uf0 o) (o_t00
    o) (o_tf0 o) v (o_lbx o) (o_ubx o) (o_lbu o) (o_ubu o) (o_lba o) (o_uba o) (o_lbt0 o) (o_ubt0 o) (o_lbtf
    o) (o_ubtf o) (o_lbe o) (o_ube o) (o_diff_u o) (o_lbdu o) (o_ubdu o) (o_midu o) (o_ducont o).
Definition with_lbx (o : ocp N) v : ocp N :=
  Ocp (o_nx o) (o_nu o) (o_na o) (o_nph o) (o_dyn o) (o_path o) (o_mayer o) (o_run o) (o_term o) (o_links o)
    (o_scale_x o) (o_scale_u o) (o_scale_a o) (o_scale_t o) (o_x00 o) (o_xf0 o) (o_u00 o) (o_uf0 o) (o_t00
    o) (o_tf0 o) (o_a0 o) v (o_ubx o) (o_lbu o) (o_ubu o) (o_lba o) (o_uba o) (o_lbt0 o) (o_ubt0 o) (o_lbtf
    o) (o_ubtf o) (o_lbe o) (o_ube o) (o_diff_u o) (o_lbdu o) (o_ubdu o) (o_midu o) (o_ducont o).
Definition with_ubx (o : ocp N) v : ocp N :=
  Ocp (o_nx o) (o_nu o) (o_na o) (o_nph o) (o_dyn o) (o_path o) (o_mayer o) (o_run o) (o_term o) (o_links o)
    (o_scale_x o) (o_scale_u o) (o_scale_a o) (o_scale_t o) (o_x00 o) (o_xf0 o) (o_u00 o) (o_uf0 o) (o_t00
    o) (o_tf0 o) (o_a0 o) (o_lbx o) v (o_lbu o) (o_ubu o) (o_lba o) (o_uba o) (o_lbt0 o) (o_ubt0 o) (o_lbtf
    o) (o_ubtf o) (o_lbe o) (o_ube o) (o_diff_u o) (o_lbdu o) (o_ubdu o) (o_midu o) (o_ducont o).
Definition with_lbu (o : ocp N) v : ocp N :=
  Ocp (o_nx o) (o_nu o) (o_na o) (o_nph o) (o_dyn o) (o_path o) (o_mayer o) (o_run o) (o_term o) (o_links o)
    (o_scale_x o) (o_scale_u o) (o_scale_a o) (o_scale_t o) (o_x00 o) (o_xf0 o) (o_u00 o) (o_uf0 o) (o_t00
    o) (o_tf0 o) (o_a0 o) (o_lbx o) (o_ubx o) v (o_ubu o) (o_lba o) (o_uba o) (o_lbt0 o) (o_ubt0 o) (o_lbtf
    o) (o_ubtf o) (o_lbe o) (o_ube o) (o_diff_u o) (o_lbdu o) (o_ubdu o) (o_midu o) (o_ducont o).
Definition with_ubu (o : ocp N) v : ocp N :=
  Ocp (o_nx o) (o_nu o) (o_na o) (o_nph o) (o_dyn o) (o_path o) (o_mayer o) (o_run o) (o_term o) (o_links o)
    (o_scale_x o) (o_scale_u o) (o_scale_a o) (o_scale_t o) (o_x00 o) (o_xf0 o) (o_u00 o) (o_uf0 o) (o_t00
    o) (o_tf0 o) (o_a0 o) (o_lbx o) (o_ubx o) (o_lbu o) v (o_lba o) (o_uba o) (o_lbt0 o) (o_ubt0 o) (o_lbtf
    o) (o_ubtf o) (o_lbe o) (o_ube o) (o_diff_u o) (o_lbdu o) (o_ubdu o) (o_midu o) (o_ducont o).
Definition with_lba (o : ocp N) v : ocp N :=
  Ocp (o_nx o) (o_nu o) (o_na o) (o_nph o) (o_dyn o) (o_path o) (o_mayer o) (o_run o) (o_term o) (o_links o)
    (o_scale_x o) (o_scale_u o) (o_scale_a o) (o_scale_t o) (o_x00 o) (o_xf0 o) (o_u00 o) (o_uf0 o) (o_t00
    o) (o_tf0 o) (o_a0 o) (o_lbx o) (o_ubx o) (o_lbu o) (o_ubu o) v (o_uba o) (o_lbt0 o) (o_ubt0 o) (o_lbtf
    o) (o_ubtf o) (o_lbe o) (o_ube o) (o_diff_u o) (o_lbdu o) (o_ubdu o) (o_midu o) (o_ducont o).
Definition with_uba (o : ocp N) v : ocp N :=
  Ocp (o_nx o) (o_nu o) (o_na o) (o_nph o) (o_dyn o) (o_path o) (o_mayer o) (o_run o) (o_term o) (o_links o)
    (o_scale_x o) (o_scale_u o) (o_scale_a o) (o_scale_t o) (o_x00 o) (o_xf0 o) (o_u00 o) (o_uf0 o) (o_t00
    o) (o_tf0 o) (o_a0 o) (o_lbx o) (o_ubx o) (o_lbu o) (o_ubu o) (o_lba o) v (o_lbt0 o) (o_ubt0 o) (o_lbtf
    o) (o_ubtf o) (o_lbe o) (o_ube o) (o_diff_u o) (o_lbdu o) (o_ubdu o) (o_midu o) (o_ducont o).
Definition with_lbt0 (o : ocp N) v : ocp N :=
  Ocp (o_nx o) (o_nu o) (o_na o) (o_nph o) (o_dyn o) (o_path o) (o_mayer o) (o_run o) (o_term o) (o_links o)
    (o_scale_x o) (o_scale_u o) (o_scale_a o) (o_scale_t o) (o_x00 o) (o_xf0 o) (o_u00 o) (o_uf0 o) (o_t00
    o) (o_tf0 o) (o_a0 o) (o_lbx o) (o_ubx o) (o_lbu o) (o_ubu o) (o_lba o) (o_uba o) v (o_ubt0 o) (o_lbtf
    o) (o_ubtf o) (o_lbe o) (o_ube o) (o_diff_u o) (o_lbdu o) (o_ubdu o) (o_midu o) (o_ducont o).
Definition with_ubt0 (o : ocp N) v : ocp N :=
  Ocp (o_nx o) (o_nu o) (o_na o) (o_nph o) (o_dyn o) (o_path o) (o_mayer o) (o_run o) (o_term o) (o_links o)
    (o_scale_x o) (o_scale_u o) (o_scale_a o) (o_scale_t o) (o_x00 o) (o_xf0 o) (o_u00 o) (o_uf0 o) (o_t00
    o) (o_tf0 o) (o_a0 o) (o_lbx o) (o_ubx o) (o_lbu o) (o_ubu o) (o_lba o) (o_uba o) (o_lbt0 o) v (o_lbtf
    o) (o_ubtf o) (o_lbe o) (o_ube o) (o_diff_u o) (o_lbdu o) (o_ubdu o) (o_midu o) (o_ducont o).
Definition with_lbtf (o : ocp N) v : ocp N :=
  Ocp (o_nx o) (o_nu o) (o_na o) (o_nph o) (o_dyn o) (o_path o) (o_mayer o) (o_run o) (o_term o) (o_links o)
    (o_scale_x o) (o_scale_u o) (o_scale_a o) (o_scale_t o) (o_x00 o) (o_xf0 o) (o_u00 o) (o_uf0 o) (o_t00
    o) (o_tf0 o) (o_a0 o) (o_lbx o) (o_ubx o) (o_lbu o) (o_ubu o) (o_lba o) (o_uba o) (o_lbt0 o) (o_ubt0 o)
    v (o_ubtf o) (o_lbe o) (o_ube o) (o_diff_u o) (o_lbdu o) (o_ubdu o) (o_midu o) (o_ducont o).
Definition with_ubtf (o : ocp N) v : ocp N :=
  Ocp (o_nx o) (o_nu o) (o_na o) (o_nph o) (o_dyn o) (o_path o) (o_mayer o) (o_run o) (o_term o) (o_links o)
    (o_scale_x o) (o_scale_u o) (o_scale_a o) (o_scale_t o) (o_x00 o) (o_xf0 o) (o_u00 o) (o_uf0 o) (o_t00
    o) (o_tf0 o) (o_a0 o) (o_lbx o) (o_ubx o) (o_lbu o) (o_ubu o) (o_lba o) (o_uba o) (o_lbt0 o) (o_ubt0 o)
    (o_lbtf o) v (o_lbe o) (o_ube o) (o_diff_u o) (o_lbdu o) (o_ubdu o) (o_midu o) (o_ducont o).
Definition with_lbe (o : ocp N) v : ocp N :=
  Ocp (o_nx o) (o_nu o) (o_na o) (o_nph o) (o_dyn o) (o_path o) (o_mayer o) (o_run o) (o_term o) (o_links o)
    (o_scale_x o) (o_scale_u o) (o_scale_a o) (o_scale_t o) (o_x00 o) (o_xf0 o) (o_u00 o) (o_uf0 o) (o_t00
    o) (o_tf0 o) (o_a0 o) (o_lbx o) (o_ubx o) (o_lbu o) (o_ubu o) (o_lba o) (o_uba o) (o_lbt0 o) (o_ubt0 o)
    (o_lbtf o) (o_ubtf o) v (o_ube o) (o_diff_u o) (o_lbdu o) (o_ubdu o) (o_midu o) (o_ducont o).
Definition with_ube (o : ocp N) v : ocp N :=
  Ocp (o_nx o) (o_nu o) (o_na o) (o_nph o) (o_dyn o) (o_path o) (o_mayer o) (o_run o) (o_term o) (o_links o)
    (o_scale_x o) (o_scale_u o) (o_scale_a o) (o_scale_t o) (o_x00 o) (o_xf0 o) (o_u00 o) (o_uf0 o) (o_t00
    o) (o_tf0 o) (o_a0 o) (o_lbx o) (o_ubx o) (o_lbu o) (o_ubu o) (o_lba o) (o_uba o) (o_lbt0 o) (o_ubt0 o)
    (o_lbtf o) (o_ubtf o) (o_lbe o) v (o_diff_u o) (o_lbdu o) (o_ubdu o) (o_midu o) (o_ducont o).
Definition with_diff_u (o : ocp N) v : ocp N :=
  Ocp (o_nx o) (o_nu o) (o_na o) (o_nph o) (o_dyn o) (o_path o) (o_mayer o) (o_run o) (o_term o) (o_links o)
    (o_scale_x o) (o_scale_u o) (o_scale_a o) (o_scale_t o) (o_x00 o) (o_xf0 o) (o_u00 o) (o_uf0 o) (o_t00
    o) (o_tf0 o) (o_a0 o) (o_lbx o) (o_ubx o) (o_lbu o) (o_ubu o) (o_lba o) (o_uba o) (o_lbt0 o) (o_ubt0 o)
    (o_lbtf o) (o_ubtf o) (o_lbe o) (o_ube o) v (o_lbdu o) (o_ubdu o) (o_midu o) (o_ducont o).
Definition with_lbdu (o : ocp N) v : ocp N :=
  Ocp (o_nx o) (o_nu o) (o_na o) (o_nph o) (o_dyn o) (o_path o) (o_mayer o) (o_run o) (o_term o) (o_links o)
    (o_scale_x o) (o_scale_u o) (o_scale_a o) (o_scale_t o) (o_x00 o) (o_xf0 o) (o_u00 o) (o_uf0 o) (o_t00
    o) (o_tf0 o) (o_a0 o) (o_lbx o) (o_ubx o) (o_lbu o) (o_ubu o) (o_lba o) (o_uba o) (o_lbt0 o) (o_ubt0 o)
    (o_lbtf o) (o_ubtf o) (o_lbe o) (o_ube o) (o_diff_u o) v (o_ubdu o) (o_midu o) (o_ducont o).
Definition with_ubdu (o : ocp N) v : ocp N :=
  Ocp (o_nx o) (o_nu o) (o_na o) (o_nph o) (o_dyn o) (o_path o) (o_mayer o) (o_run o) (o_term o) (o_links o)
    (o_scale_x o) (o_scale_u o) (o_scale_a o) (o_scale_t o) (o_x00 o) (o_xf0 o) (o_u00 o) (o_uf0 o) (o_t00
    o) (o_tf0 o) (o_a0 o) (o_lbx o) (o_ubx o) (o_lbu o) (o_ubu o) (o_lba o) (o_uba o) (o_lbt0 o) (o_ubt0 o)
    (o_lbtf o) (o_ubtf o) (o_lbe o) (o_ube o) (o_diff_u o) (o_lbdu o) v (o_midu o) (o_ducont o).
Definition with_midu (o : ocp N) v : ocp N :=
  Ocp (o_nx o) (o_nu o) (o_na o) (o_nph o) (o_dyn o) (o_path o) (o_mayer o) (o_run o) (o_term o) (o_links o)
    (o_scale_x o) (o_scale_u o) (o_scale_a o) (o_scale_t o) (o_x00 o) (o_xf0 o) (o_u00 o) (o_uf0 o) (o_t00
    o) (o_tf0 o) (o_a0 o) (o_lbx o) (o_ubx o) (o_lbu o) (o_ubu o) (o_lba o) (o_uba o) (o_lbt0 o) (o_ubt0 o)
    (o_lbtf o) (o_ubtf o) (o_lbe o) (o_ube o) (o_diff_u o) (o_lbdu o) (o_ubdu o) v (o_ducont o).
Definition with_ducont (o : ocp N) v : ocp N :=
  Ocp (o_nx o) (o_nu o) (o_na o) (o_nph o) (o_dyn o) (o_path o) (o_mayer o) (o_run o) (o_term o) (o_links o)
    (o_scale_x o) (o_scale_u o) (o_scale_a o) (o_scale_t o) (o_x00 o) (o_xf0 o) (o_u00 o) (o_uf0 o) (o_t00
    o) (o_tf0 o) (o_a0 o) (o_lbx o) (o_ubx o) (o_lbu o) (o_ubu o) (o_lba o) (o_uba o) (o_lbt0 o) (o_ubt0 o)
    (o_lbtf o) (o_ubtf o) (o_lbe o) (o_ube o) (o_diff_u o) (o_lbdu o) (o_ubdu o) (o_midu o) v.
(** one assignment *)
Definition run_assign (o : ocp N) (x : assign) : res (ocp N) :=
  match x with
  | SetGuess Gx00 i v => m <- put_row (o_x00 o) i v ;; Ok (with_x00 o m)
  | SetGuess Gxf0 i v => m <- put_row (o_xf0 o) i v ;; Ok (with_xf0 o m)
  | SetGuess Gu00 i v => m <- put_row (o_u00 o) i v ;; Ok (with_u00 o m)
  | SetGuess Guf0 i v => m <- put_row (o_uf0 o) i v ;; Ok (with_uf0 o m)
  | SetGuess Gt00 i v => m <- put_row (o_t00 o) i v ;; Ok (with_t00 o m)
  | SetGuess Gtf0 i v => m <- put_row (o_tf0 o) i v ;; Ok (with_tf0 o m)
  | SetGuess Ga0 i v => m <- put_row (o_a0 o) i v ;; Ok (with_a0 o m)
  | SetBound Blbx i v => m <- put_row (o_lbx o) i v ;; Ok (with_lbx o m)
  | SetBound Bubx i v => m <- put_row (o_ubx o) i v ;; Ok (with_ubx o m)
  | SetBound Blbu i v => m <- put_row (o_lbu o) i v ;; Ok (with_lbu o m)
  | SetBound Bubu i v => m <- put_row (o_ubu o) i v ;; Ok (with_ubu o m)
  | SetBound Blba i v => m <- put_row (o_lba o) i v ;; Ok (with_lba o m)
  | SetBound Buba i v => m <- put_row (o_uba o) i v ;; Ok (with_uba o m)
  | SetBound Blbt0 i v => m <- put_row (o_lbt0 o) i v ;; Ok (with_lbt0 o m)
  | SetBound Bubt0 i v => m <- put_row (o_ubt0 o) i v ;; Ok (with_ubt0 o m)
  | SetBound Blbtf i v => m <- put_row (o_lbtf o) i v ;; Ok (with_lbtf o m)
  | SetBound Bubtf i v => m <- put_row (o_ubtf o) i v ;; Ok (with_ubtf o m)
  | SetBound Blbe i v => m <- put_row (o_lbe o) i v ;; Ok (with_lbe o m)
  | SetBound Bube i v => m <- put_row (o_ube o) i v ;; Ok (with_ube o m)
  | SetSwitch Idiff_u i v => m <- put_int (o_diff_u o) i v (fun k => negb (k =? 0)%Z) ;; Ok (with_diff_u o m)
  | SetSwitch Imidu i v => m <- put_int (o_midu o) i v (fun k => negb (k =? 0)%Z) ;; Ok (with_midu o m)
  | SetSwitch Idu_continuity i v => m <- put_int (o_ducont o) i v (fun k => negb (k =? 0)%Z) ;; Ok (with_ducont o m)
  | SetSlope Dlbdu i v => m <- put_int (o_lbdu o) i v (fun k => Fin (nofZ k)) ;; Ok (with_lbdu o m)
  | SetSlope Dubdu i v => m <- put_int (o_ubdu o) i v (fun k => Fin (nofZ k)) ;; Ok (with_ubdu o m)
  | SetDynamics i f => m <- put (o_dyn o) i f ;; Ok (with_dyn o m)
  | SetPath i f => m <- put (o_path o) i f ;; Ok (with_path o m)
  | SetMayer i f => m <- put (o_mayer o) i f ;; Ok (with_mayer o m)
  | SetRunning i f => m <- put (o_run o) i f ;; Ok (with_run o m)
  | SetTerminal i f => m <- put (o_term o) i f ;; Ok (with_term o m)
  | SetScaleX l => Ok (with_scale_x o l)
  | SetScaleU l => Ok (with_scale_u o l)
  | SetScaleA l => Ok (with_scale_a o l)
  | SetScaleT s => Ok (with_scale_t o s)
  end.
(** a program that makes a problem and fills it in *)
Definition build (nx nu nph na : nat) (l : list assign) : res (ocp N) :=
  o <- new_ocp nx nu nph na ;; foldM run_assign l o.

End Assign.
Arguments assign N : clear implicits.
