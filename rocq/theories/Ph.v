(** Refinement of widths and orders: class mpopt_ph_adaptive, mpopt.py:4316-4611.

    Python's rule for local variables is kept: a name that a function assigns is local in all of it,
    and reading it before the assignment raises UnboundLocalError.  solve_ph reads grid_type in that
    way in its second statement; what follows that statement is modelled as [ph_rest], which shows
    what the method would do with a value for grid_type.

    The NLP solver is given by [run] and may depend on all earlier calls, which are recorded.
    Simplified: of solve_dict only mpopt_options["nlp_sw_params"] is kept ([user_sw]); other entries
    of solve_dict, among them the key "nlp_sw_params" that the loop writes, are keyword arguments
    that mpopt.solve ignores (mpopt.py:767).  Printing is not modelled. *)
From Coq Require Import List Arith ZArith Bool String.
From Verif Require Import Num PyList Mat Poly Roots Colloc Ocp Transcribe Solve Hadapt Resid.
Import ListNotations.
Open Scope nat_scope.
Open Scope list_scope.
Set Implicit Arguments.
Unset Strict Implicit.

(** min and max of a list of ints *)
Definition min_nats (l : list nat) : res nat :=
  match l with [] => Raise ValueError | a :: l' => Ok (fold_left Nat.min l' a) end.
Definition max_nats (l : list nat) : res nat :=
  match l with [] => Raise ValueError | a :: l' => Ok (fold_left Nat.max l' a) end.
Definition read_local {A} (v : option A) : res A :=
  match v with Some a => Ok a | None => Raise UnboundLocalError end.

Section Ph.
Context {N : num}.

(** ** __init__, mpopt.py:4341-4398 *)
Record phcfg := Phcfg {
  ph_min : nat; ph_max : nat;              (* poly_order_min, poly_order_max *)
  ph_min_seg : nat; ph_max_seg : nat;      (* min_segments, max_segments; not used by any method *)
  ph_tol : N;                              (* max_residual *)
  ph_smooth : N;                           (* non_smooth_threshold *)
  ph_rc : rcfg                             (* n_grid_points and grid_type *)
}.
Definition new_ph (o : ocp N) (n_segments : nat) (po : orders_arg) (cf : ccfg N) (grid_type : string) (max_residual : N)
    (pmin pmax seg_min seg_max n_grid_points : nat) (threshold : N) : res (mpo N * phcfg) :=
  mp <- new_mpo o n_segments po cf ;;
  lo <- min_nats (mp_orders mp) ;;
  hi <- max_nats (mp_orders mp) ;;
  Ok (mp, Phcfg (if lo <? pmin then lo else pmin) (if pmax <? hi then hi else pmax)
            (if n_segments <? seg_min then n_segments else seg_min) (if seg_max <? n_segments then n_segments else seg_max)
            max_residual threshold (Rcfg n_grid_points (repeat grid_type (o_nph o)))).

Variable pc : phcfg.

(** limit_poly_orders, mpopt.py:4432-4437 *)
Definition limit_poly_orders (orders : list nat) : list nat :=
  map (fun p => Nat.min (Nat.max (ph_min pc) p) (ph_max pc)) orders.

(** get_abs_max_residual, mpopt.py:4400-4420, the values (the indices are not used), followed by
    np.array(max_r_phase)[:, 1].max(axis=1): the largest entry of every segment of a phase *)
Definition seg_residual (nx : nat) (s : option (segstate (N := N))) : res N :=
  match s with
  | None => Raise TypeError
  | Some s => cols <- mapM (fun j => max_ (map (fun row => nabs (nth j row n0)) (ss_r s))) (seq 0 nx) ;; max_ cols
  end.
Definition max_residuals (nx : nat) (r : list (nat * list (option (segstate (N := N))))) : res (list (list N)) :=
  mapM (fun '(_, segs) => mapM (seg_residual nx) segs) r.
Definition status (ms : list N) : list bool := map (nltb (ph_tol pc)) ms.
Definition any (l : list bool) : bool := existsb (fun b => b) l.

(** orders of the finer mesh, mpopt.py:4471-4485: the last phase that needs refinement decides *)
Definition raise_orders (orders : list nat) (sts : list (list bool)) : list nat :=
  fold_left (fun acc st => if any st then map (fun '(p, b) => p + 3 * Nat.b2n b) (combine orders st) else acc) sts orders.

(** dd_max_phase > non_smooth_threshold for a segment, mpopt.py:4537-4546, 4566-4570 *)
Definition rough (nx : nat) (new old : option (segdd (N := N))) : res bool :=
  match new, old with
  | Some new, Some old =>
      bs <- mapM (fun j =>
          m <- max_ (map (fun row => nabs (nth j row n0)) (sd_x old)) ;;
          Ok (any (map (fun row => nltb (ph_smooth pc) (ndiv (nabs (nth j row n0)) m)) (sd_x new)))) (seq 0 nx) ;;
      Ok (any bs)
  | _, _ => Raise TypeError
  end.

(** the new mesh of one phase, mpopt.py:4560-4608; [sw] is _nlp_sw_params, whose first entries are used
    for every phase *)
Definition split_mesh (orders : list nat) (sw : list N) (marks : list bool) : res (list nat * list N) :=
  parts <- mapM (fun '(i, m) =>
      w <- at_ sw i ;; p <- at_ orders i ;;
      Ok (if m : bool then ([p; p], [ndiv w n2; ndiv w n2]) else ([p], [w]))) (enumerate marks) ;;
  Ok (List.concat (map fst parts), List.concat (map snd parts)).

(** ** solve_ph, mpopt.py:4422-4611 *)
(** a call of the solver: optimizer and widths *)
Definition solved : Type := mpo N * list N.
Definition W (A : Type) : Type := list solved -> list solved * res A.
Definition wret {A} (a : A) : W A := fun h => (h, Ok a).
Definition wlift {A} (r : res A) : W A := fun h => (h, r).
Definition wbind {A B} (m : W A) (f : A -> W B) : W B :=
  fun h => match m h with (h', Ok a) => f a h' | (h', Raise e) => (h', Raise e) end.
Local Notation "x <~ m ;; k" := (wbind m (fun x => k)) (at level 61, m at next level, right associativity).

Variable run : list solved -> mpo N -> list N -> res (list N).
Variable user_sw : option (list N).
(** self.reset_mpopt(); self.solve(reinitialize_nlp=True, mpopt_options): widths and solution *)
Definition ph_solve (mp : mpo N) : W (list N * list N) :=
  _ <~ wlift (assert_ (Nat.eqb (List.length (mp_orders mp)) (mp_nseg mp))) ;;
  let sw := match user_sw with Some l => l | None => equal_widths mp end in
  fun h => (h ++ [(mp, sw)], z <- run h mp sw ;; Ok (sw, z)).

(** one pass: the solution returned at once, or the last solution and the mesh for the next pass *)
Definition ph_pass (mp : mpo N) : W (list N + (list N * (list nat * list N))) :=
  let o := mp_ocp mp in let nx := o_nx o in let cf := mp_cf mp in let phases := seq 0 (o_nph o) in
  swz <~ ph_solve mp ;;
  let '(sw, z) := swz in
  r <~ wlift (states_residuals (ph_rc pc) mp sw z None None true) ;;
  ms <~ wlift (max_residuals nx r) ;;
  let sts := map status ms in
  let orders := raise_orders (mp_orders mp) sts in
  if negb (forallb any sts) then wret (inl z)
  else
  taus <~ wlift (mapM (c_roots cf) orders) ;;
  let nodes := map (fun _ => taus) phases in
  dd <~ wlift (second_derivative (ph_rc pc) mp sw z "spectral" (Some nodes)) ;;
  let mp2 := Mpo o (mp_nseg mp) (limit_poly_orders orders) cf in
  swz <~ ph_solve mp2 ;;
  let '(sw, z) := swz in
  r <~ wlift (states_residuals (ph_rc pc) mp2 sw z None None true) ;;
  ms <~ wlift (max_residuals nx r) ;;
  dd2 <~ wlift (second_derivative (ph_rc pc) mp2 sw z "spectral" (Some nodes)) ;;
  let sts := map status ms in
  rgh <~ wlift (mapM (fun '(st, (new, old)) => if any st then mapM (fun '(a, b) => rough nx a b) (combine new old) else Ok [])
                  (combine sts (combine dd2 dd))) ;;
  if negb (forallb any sts) then wret (inl z)
  else
  meshes <~ wlift (mapM (fun '(st, rg) => split_mesh (mp_orders mp2) sw (map (fun '(a, b) => andb a b) (combine st rg))) (combine sts rgh)) ;;
  m <~ wlift (last_ meshes) ;;
  wret (inr (z, m)).

(** the loop; [new] is solution_new *)
Fixpoint ph_loop (iters : nat) (mp : mpo N) (new : option (list N)) : W (list N) :=
  match iters with
  | 0 => wlift (read_local new)
  | S n =>
      r <~ ph_pass mp ;;
      match r with
      | inl z => wret z
      | inr (z, (orders, sw)) => ph_loop n (Mpo (mp_ocp mp) (List.length sw) orders (mp_cf mp)) (Some z)
      end
  end.
Definition ph_rest (mp : mpo N) (max_iter : nat) : W (list N) := ph_loop max_iter mp None.
(** grid_type is local, and not bound yet; self.grid_type[0] otherwise *)
Definition solve_ph (mp : mpo N) (max_iter : nat) : W (list N) :=
  g <~ wlift (read_local (None : option (option string))) ;;
  _ <~ (match g with Some s => wret s | None => wlift (at_ (r_grid (ph_rc pc)) 0) end) ;;
  ph_rest mp max_iter.
End Ph.
