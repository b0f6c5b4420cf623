(** class mpopt_adaptive: segment widths as decision variables, mpopt.py:2877-3276
    (process_results, 3278-3375, repeats that of mpopt: see Post.v).

    As in Transcribe.v, CasADi expressions are modelled by their values. *)
From Coq Require Import String.
From Coq Require Import List Arith ZArith Bool.
From Verif Require Import Num PyList Mat Poly Roots Colloc Ocp Transcribe Solve.
Import ListNotations.
Set Implicit Arguments.
Unset Strict Implicit.

Section Adaptive.
Context {N : num}.

(** attributes lbh, ubh, tol_residual and mid_residuals, mpopt.py:2920-2925 *)
Record acfg := Acfg { ac_lbh : list (ext N); ac_ubh : list (ext N); ac_tol : list N; ac_mid : bool }.
(** their values after __init__: _SEG_WIDTH_MIN, _SEG_WIDTH_MAX and _TOL_RESIDUAL, mpopt.py:2896-2898 *)
Definition default_acfg (n_phases : nat) : acfg :=
  Acfg (repeat (Fin (nlit 1 10000)) n_phases) (repeat (Fin n1) n_phases) (repeat (nlit 1 1000) n_phases) true.

Variable ac : acfg.
Variable mp : mpo N.
Let o := mp_ocp mp.
Let cf := mp_cf mp.
Let orders := mp_orders mp.

(** get_nlp_variables, mpopt.py:2927-2979: that of the base class with the widths
    seg_widths[:, phase] and their bounds at the end *)
Definition a_variables (ph : nat) (v : pvars N) (sw : list N) : res (con N) :=
  c <- nlp_variables mp ph v ;;
  lb <- at_ (ac_lbh ac) ph ;;
  ub <- at_ (ac_ubh ac) ph ;;
  Ok (con_app c (Con sw (repeat lb (mp_nseg mp)) (repeat ub (mp_nseg mp)))).

(** residuals of the dynamics at the mid points of one segment, times its width,
    mpopt.py:3093-3123.  [start] is the number of mid points of the segments before, which is
    also the running index. A segment without points leaves a None that vertcat refuses. *)
Definition mid_residuals (ph : nat) (v : pvars N) (xi ui dxi : mat N) (ti : list N) (sw : list N)
    (taus_mid : list (list N)) (seg : nat) : res (list N) :=
  w <- at_ sw seg ;;
  taus <- at_ taus_mid seg ;;
  let h := nmul (ndiv (ndiv (nsub (v_tf v) (v_t0 v)) (o_scale_t o)) (nsub (cf_tau1 cf) (cf_tau0 cf))) w in
  let start := nsum (map (@List.length N) (firstn seg taus_mid)) in
  rows <- mapM (fun i =>
      t <- at_ ti i ;;
      dx <- get_dynamics o ph (vunscale (o_scale_x o) (mrow xi i)) (vunscale (o_scale_u o) (mrow ui i)) t (un_a mp v) ;;
      _ <- (if Nat.eqb (List.length dx) (o_nx o) then Ok tt else Raise CasadiError) ;;
      Ok (map (nmul h) (vscale (o_scale_x o) dx))) (seq start (List.length taus)) ;;
  if Nat.eqb (List.length taus) 0 then Raise TypeError
  else
    fm <- mat_of_rows (o_nx o) rows ;;
    Ok (map (nmul w) (mvec (msub (take_rows (seq start (List.length taus)) dxi) fm))).

(** get_nlp_constrains_for_segment_widths, mpopt.py:3034-3136; [d_t d] is self.time_grid[phase] *)
Definition con_widths (d : disc) (ph : nat) (v : pvars N) (sw : list N) : res (con N) :=
  let total := Con [nsub (sum_ sw) n1] [Fin n0] [Fin n0] in
  taus_mid <- mapM (fun p => r <- c_roots cf p ;; Ok (mid_points r)) orders ;;
  let ti := mid_points (d_t d) in
  I <- comp_interp cf taus_mid orders ;;
  D <- comp_interpD cf taus_mid orders 1 ;;
  _ <- (if Nat.eqb (nc I) (nr (v_X v)) && Nat.eqb (nc I) (nr (v_U v)) then Ok tt else Raise CasadiError) ;;
  let xi := mmul I (v_X v) in
  let ui := mmul I (v_U v) in
  lbu <- at_ (o_lbu o) ph ;; ubu <- at_ (o_ubu o) ph ;;
  let cu := if existsb (fun b => eltb NInf b) lbu || existsb (fun b => eltb b PInf) ubu then
              Con (mvec ui) (bound_block lbu (o_scale_u o) (nr ui)) (bound_block ubu (o_scale_u o) (nr ui))
            else con_nil in
  lbx <- at_ (o_lbx o) ph ;; ubx <- at_ (o_ubx o) ph ;;
  let cx := if existsb (fun b => eltb NInf b) lbx || existsb (fun b => eltb b PInf) ubx then
              Con (mvec xi) (bound_block lbx (o_scale_x o) (nr xi)) (bound_block ubx (o_scale_x o) (nr xi))
            else con_nil in
  cr <- (if ac_mid ac then
           _ <- (if Nat.eqb (nc D) (nr (v_X v)) then Ok tt else Raise CasadiError) ;;
           let dxi := mmul D (v_X v) in
           rs <- mapM (mid_residuals ph v xi ui dxi ti sw taus_mid) (seq 0 (mp_nseg mp)) ;;
           tol <- at_ (ac_tol ac) ph ;;
           Ok (con_const (List.concat rs) (Fin (nopp tol)) (Fin tol))
         else Ok con_nil) ;;
  Ok (con_concat [total; cu; cx; cr]).

(** discretize_phase, mpopt.py:3138-3174: no mid-point control constraints of the base class
    and no slope continuity *)
Definition a_discretize (ap : approx N) (ph : nat) (v : pvars N) (sw : list N) : res (con N * N) :=
  d <- discretize_nodes mp ap sw ph v ;;
  F <- con_dynamics mp ap d v ;;
  C <- con_path d ;;
  '(TC, mayer) <- con_terminal mp ph v ;;
  DU <- con_slope mp ap ph v ;;
  SW <- con_widths d ph v sw ;;
  _ <- (if Nat.eqb (List.length (ap_W ap)) (List.length (d_q d)) then Ok tt else Raise CasadiError) ;;
  let J := nadd mayer (sum_ (map2 nmul (ap_W ap) (d_q d))) in
  Ok (con_concat [F; C; DU; TC; SW], J).

(** create_nlp (mpopt.py:574-639) with these methods; create_solver removes the parameter p
    (mpopt.py:3190-3192) *)
Definition a_create_nlp (vs : list (pvars N * list N)) : res (nlp N) :=
  ap <- compute_numerical_approximation mp ;;
  parts <- mapM (fun ph =>
      v <- at_ vs ph ;;
      z <- a_variables ph (fst v) (snd v) ;;
      '(g, j) <- a_discretize ap ph (fst v) (snd v) ;;
      Ok (z, g, j)) (seq 0 (o_nph o)) ;;
  E <- (if Nat.ltb 1 (o_nph o) then con_events mp (map fst vs) else Ok con_nil) ;;
  Ok (Nlp (con_concat (map (fun '(z, _, _) => z) parts))
          (con_app (con_concat (map (fun '(_, g, _) => g) parts)) E)
          (sum_ (map (fun '(_, _, j) => j) parts))).

(** values of the symbols of phase ph when Z = z *)
Definition a_unpack (z : list N) (ph : nat) : pvars N * list N :=
  let zp := skipn (ph * (zlen mp + mp_nseg mp)) z in
  (unpack mp zp 0, firstn (mp_nseg mp) (skipn (zlen mp) zp)).
Definition a_nlp_at (z : list N) : res (nlp N) := a_create_nlp (map (a_unpack z) (seq 0 (o_nph o))).

(** init_trajectories, mpopt.py:3249-3276: the second argument of the function is not used *)
Definition a_trajectories (ph : nat) (z : list N) : res (traj N) :=
  let '(v, sw) := a_unpack z ph in
  ap <- compute_numerical_approximation mp ;;
  nodes <- mesh mp (ap_taus ap) sw (un_t mp (v_t0 v)) (un_t mp (v_tf v)) ;;
  Ok (Traj (v_X v) (v_U v) (map (@nd_t N) nodes) (un_t mp (v_t0 v)) (un_t mp (v_tf v)) (v_A v)).

(** init_solution_per_phase, mpopt.py:2981-3032: that of the base class and equal widths *)
Definition a_init_solution_per_phase (ph : nat) : res (list N) :=
  z <- init_solution_per_phase mp ph ;;
  Ok (z ++ repeat (ndiv n1 (nofnat (mp_nseg mp))) (mp_nseg mp))%list.
Definition a_initialize_solution : res (list N) :=
  zs <- mapM a_init_solution_per_phase (seq 0 (o_nph o)) ;; Ok (List.concat zs).

(** get_solver_warm_start_input_parameters with this initial guess *)
Definition a_warm_start (solution : option (sdict (N := N))) : res (sdict (N := N)) :=
  d <- match solution with
       | None => z <- a_initialize_solution ;; Ok (dset String.eqb [] "x0"%string z)
       | Some s => Ok (fold_left (@warm_copy N) s [])
       end ;;
  if dmem String.eqb d "x0"%string then Ok d
  else z <- a_initialize_solution ;; Ok (dset String.eqb d "x0"%string z).

(** the CasADi function sw_fn of solve, mpopt.py:3242-3243: seg_widths[:] at Z = z *)
Definition a_widths (z : list N) : res (list N) :=
  if Nat.eqb (List.length z) (o_nph o * (zlen mp + mp_nseg mp)) then
    Ok (flat_map (fun ph => snd (a_unpack z ph)) (seq 0 (o_nph o)))
  else Raise CasadiError.

Open Scope string_scope.
Local Notation "x <-- m ;; k" := (mbind m (fun x => k)) (at level 61, m at next level, right associativity).
(** solve, mpopt.py:3209-3247; create_solver (3176-3207) differs from that of the base class only
    in removing p from the problem *)
Definition a_solve (E : env (N := N)) (a : sargs (N := N)) : M (N := N) sdict :=
  s <-- get ;;
  _ <-- (match st_solver s, a_reinit a with
         | Some _, false => ret tt
         | _, _ => create_solver E (a_solver a) (dict_at s (a_nopts a))
         end) ;;
  inputs <-- lift (a_warm_start (a_init a)) ;;
  v <-- current_solver ;;
  sol <-- call_solver E v inputs ;;
  x <-- lift (dat String.eqb sol "x") ;;
  h <-- lift (a_widths x) ;;
  _ <-- set_sw h ;;
  ret sol.

End Adaptive.
Arguments acfg N : clear implicits.
