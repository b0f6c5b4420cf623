(** class mpopt: collocation transcription of an OCP into a nonlinear program,
    mpopt.py:31-708.

    CasADi expressions are modelled by their values: [create_nlp] maps the values of
    all decision variables and of the segment widths to the values of the vectors
    x, g and of the objective f, together with the bound vectors. *)
From Coq Require Import List Arith ZArith Bool String.
From Verif Require Import Num PyList Mat Poly Roots Colloc Ocp.
Import ListNotations.
Set Implicit Arguments.
Unset Strict Implicit.

Section Transcribe.
Context {N : num}.

(** Decision variables of one phase: X[phase] (Npoints x nx), U[phase] (Npoints x nu),
    t0[phase], tf[phase], A[:, phase] (mpopt.py:114-118), all in solver units. *)
Record pvars := Pvars {
  v_X : mat N;
  v_U : mat N;
  v_t0 : N;
  v_tf : N;
  v_A : list N
}.

(** the optimizer object: OCP, segments, orders, collocation configuration (mpopt.py:56-79) *)
Record mpo := Mpo {
  mp_ocp : ocp N;
  mp_nseg : nat;
  mp_orders : list nat;
  mp_cf : ccfg N
}.

(** an argument that is an int or a list of ints (mpopt.py:72-74) *)
Inductive orders_arg := OInt (p : nat) | OList (l : list nat).
Definition orders_of (n : nat) (a : orders_arg) : list nat :=
  match a with OInt p => repeat p n | OList l => l end.
(** mpopt.__init__ and reset_mpopt, mpopt.py:56-93 *)
Definition new_mpo (o : ocp N) (n_segments : nat) (po : orders_arg) (cf : ccfg N) : res mpo :=
  let orders := orders_of n_segments po in
  _ <- assert_ (Nat.eqb (List.length orders) n_segments) ;;
  Ok (Mpo o n_segments orders cf).

Variable mp : mpo.
Let o := mp_ocp mp.
Let cf := mp_cf mp.
Let orders := mp_orders mp.

(** self._Npoints, mpopt.py:84 *)
Definition npoints : nat := nsum (mp_orders mp) + 1.

(** compute_numerical_approximation, mpopt.py:95-103.  [ap_taus] lists, for every
    segment, self._taus[self.poly_orders[seg]]. *)
Record approx := Approx { ap_D : mat N; ap_W : list N; ap_taus : list (list N) }.
Definition compute_numerical_approximation : res approx :=
  taus <- mapM (c_roots cf) orders ;;
  D <- comp_diff cf orders 1 ;;
  W <- comp_quad cf orders (cf_tau0 cf) (cf_tau1 cf) ;;
  Ok (Approx D W taus).

(** _optimization_vars_per_phase, mpopt.py:130-134 *)
Definition optimization_vars_per_phase : nat :=
  npoints * (o_nx o + o_nu o) + o_nph o * o_na o + 2.

(** ** The mesh loop: segment, point, time and width factor of every node,
    mpopt.py:180-197, 210-211.  The loop also evaluates the user functions; this is
    done separately below (they are pure). *)
Record node := Node { nd_seg : nat; nd_point : nat; nd_t : N; nd_h : N }.

Fixpoint mesh_loop (taus : list (list N)) (sw : list N) (dt : N)
    (fuel seg point : nat) (t_seg0 h_seg : N) : res (list node) :=
  match fuel with
  | 0 => Ok []
  | S fuel' =>
      p <- at_ orders seg ;;
      '(seg, point, t_seg0, h_seg) <-
        (if p <? point then
           w <- at_ sw (seg + 1) ;;
           Ok (seg + 1, 1,
               nadd t_seg0 (nmul h_seg (nsub (cf_tau1 cf) (cf_tau0 cf))),
               nmul dt w)
         else Ok (seg, point, t_seg0, h_seg)) ;;
      ts <- at_ taus seg ;;
      tau <- at_ ts point ;;
      let t := nadd t_seg0 (nmul h_seg (nsub tau (cf_tau0 cf))) in
      rest <- mesh_loop taus sw dt fuel' seg (point + 1) t_seg0 h_seg ;;
      Ok (Node seg point t h_seg :: rest)
  end.
(** [dt] is (tf - t0) / (tau1 - tau0) with unscaled t0, tf *)
Definition mesh (taus : list (list N)) (sw : list N) (t0 tf : N) : res (list node) :=
  let dt := ndiv (nsub tf t0) (nsub (cf_tau1 cf) (cf_tau0 cf)) in
  w <- at_ sw 0 ;;
  mesh_loop taus sw dt npoints 0 0 t0 (nmul dt w).

(** unscaled values used by the user functions, mpopt.py:175-177, 192-193 *)
Definition un_t (t : N) : N := ndiv t (o_scale_t o).
Definition un_a (v : pvars) : list N := vunscale (o_scale_a o) (v_A v).
Definition un_x (v : pvars) (i : nat) : list N := vunscale (o_scale_x o) (mrow (v_X v) i).
Definition un_u (v : pvars) (i : nat) : list N := vunscale (o_scale_u o) (mrow (v_U v) i).

(** get_discretized_dynamics_constraints_and_cost_matrices, mpopt.py:154-211:
    (f, c, q) and the time grid. *)
Record disc := Disc {
  d_f : list (list N);
  d_c : option (list (list N));
  d_q : list N;
  d_t : list N
}.
Definition discretize_nodes (ap : approx) (sw : list N) (ph : nat) (v : pvars) : res disc :=
  has <- has_path_constraints o ph ;;
  nodes <- mesh (ap_taus ap) sw (un_t (v_t0 v)) (un_t (v_tf v)) ;;
  let a := un_a v in
  rows <- mapM (fun '(i, nd) =>
      let x := un_x v i in
      let u := un_u v i in
      dx <- get_dynamics o ph x u (nd_t nd) a ;;
      _ <- (if Nat.eqb (List.length dx) (o_nx o) then Ok tt else Raise CasadiError) ;;
      c <- (if has then
              r <- get_path_constraints o ph x u (nd_t nd) a ;;
              match r with Some l => Ok l | None => Raise TypeError end
            else Ok []) ;;
      r <- get_running_costs o ph x u (nd_t nd) a ;;
      match r with
      | None => Raise TypeError
      | Some l => Ok (map (nmul (nd_h nd)) (vscale (o_scale_x o) dx), c, nmul (nd_h nd) l)
      end) (enumerate nodes) ;;
  Ok (Disc (map (fun '(f, _, _) => f) rows)
           (if has then Some (map (fun '(_, c, _) => c) rows) else None)
           (map (fun '(_, _, q) => q) rows)
           (map nd_t nodes)).

(** A block of constraints: values, lower and upper bounds. *)
Record con := Con { c_g : list N; c_lo : list (ext N); c_hi : list (ext N) }.
Definition con_nil : con := Con [] [] [].
Definition con_app (a b : con) : con :=
  Con (c_g a ++ c_g b) (c_lo a ++ c_lo b) (c_hi a ++ c_hi b).
Definition con_concat (l : list con) : con := fold_right con_app con_nil l.
Definition con_const (g : list N) (lo hi : ext N) : con :=
  Con g (repeat lo (List.length g)) (repeat hi (List.length g)).

(** kron(eye(n), D) if n > 1 else D *)
Definition block_diag (n : nat) (D : mat N) : mat N :=
  if 1 <? n then kron (eye n) D else D.

(** get_nlp_constraints_for_dynamics, mpopt.py:213-237 *)
Definition con_dynamics (ap : approx) (d : disc) (v : pvars) : res con :=
  lhs <- mvmul (block_diag (o_nx o) (ap_D ap)) (mvec (v_X v)) ;;
  fm <- mat_of_rows (o_nx o) (d_f d) ;;
  let rhs := mvec fm in
  _ <- (if Nat.eqb (List.length lhs) (List.length rhs) then Ok tt else Raise CasadiError) ;;
  Ok (con_const (vsub lhs rhs) LB_DYNAMICS UB_DYNAMICS).

(** get_nlp_constraints_for_path_contraints, mpopt.py:239-262 *)
Definition con_path (d : disc) : res con :=
  match d_c d with
  | None => Ok con_nil
  | Some c =>
      cm <- mat_of_rows (List.length (nth 0 c [])) c ;;
      Ok (con_const (mvec cm) LB_PATH UB_PATH)
  end.

(** get_nlp_constraints_for_terminal_contraints, mpopt.py:264-300: constraints and Mayer term *)
Definition con_terminal (ph : nat) (v : pvars) : res (con * N) :=
  let x0 := un_x v 0 in
  let xf := un_x v (npoints - 1) in
  let a := un_a v in
  let t0 := un_t (v_t0 v) in
  let tf := un_t (v_tf v) in
  has <- has_terminal_constraints o ph ;;
  c <- (if has then
          r <- get_terminal_constraints o ph xf tf x0 t0 a ;;
          match r with
          | None => Raise TypeError
          | Some tc => Ok (con_const tc LB_TERM UB_TERM)
          end
        else Ok con_nil) ;;
  j <- get_terminal_costs o ph xf tf x0 t0 a ;;
  match j with
  | None => Raise TypeError
  | Some j => Ok (c, j)
  end.

(** get_nlp_constraints_for_control_input_slope, mpopt.py:302-328 *)
Definition con_slope (ap : approx) (ph : nat) (v : pvars) : res con :=
  du <- at_ (o_diff_u o) ph ;;
  if (du : bool) then
    g <- mvmul (block_diag (o_nu o) (ap_D ap)) (mvec (v_U v)) ;;
    lo <- at_ (o_lbdu o) ph ;;
    hi <- at_ (o_ubdu o) ph ;;
    Ok (con_const g lo hi)
  else Ok con_nil.

(** mid points of adjacent entries, mpopt.py:350-352 *)
Fixpoint mid_points (tau : list N) : list N :=
  match tau with
  | a :: ((b :: _) as l) => ndiv (nadd a b) n2 :: mid_points l
  | _ => []
  end.

(** [np.repeat(bound * scale, n)] *)
Definition bound_block (lb : list (ext N)) (sc : list N) (n : nat) : list (ext N) :=
  repeat_each n (map2 escale lb sc).

(** get_nlp_constrains_for_control_input_at_mid_colloc_points, mpopt.py:330-377 *)
Definition con_midu (ph : nat) (v : pvars) : res con :=
  on <- at_ (o_midu o) ph ;;
  if negb on then Ok con_nil
  else
    taus_mid <- mapM (fun p => r <- c_roots cf p ;; Ok (mid_points r)) orders ;;
    I <- comp_interp cf taus_mid orders ;;
    _ <- (if Nat.eqb (nc I) (nr (v_U v)) then Ok tt else Raise CasadiError) ;;
    let ui := mmul I (v_U v) in
    lb <- at_ (o_lbu o) ph ;;
    ub <- at_ (o_ubu o) ph ;;
    if existsb (fun b => eltb NInf b) lb || existsb (fun b => eltb b PInf) ub then
      Ok (Con (mvec ui) (bound_block lb (o_scale_u o) (nr ui)) (bound_block ub (o_scale_u o) (nr ui)))
    else Ok con_nil.

(** rows of M[1:-1][::2] and of M[2:-1][::2] *)
Definition rows_1_m1_2 (n : nat) : list nat := every2 (slice 1 (n - 1) (seq 0 n)).
Definition rows_2_m1_2 (n : nat) : list nat := every2 (slice 2 (n - 1) (seq 0 n)).

(** get_nlp_constrains_for_control_slope_continuity_across_segments, mpopt.py:379-413 *)
Definition con_ducont (ph : nat) (v : pvars) : res con :=
  on <- at_ (o_ducont o) ph ;;
  if Nat.eqb (mp_nseg mp) 1 || negb on then Ok con_nil
  else
    let taus_end := map (fun _ => [cf_tau0 cf; cf_tau1 cf]) orders in
    D <- comp_interpD cf taus_end orders 1 ;;
    let A := take_rows (rows_1_m1_2 (nr D)) D in
    let B := take_rows (rows_2_m1_2 (nr D)) D in
    _ <- (if Nat.eqb (nr A) (nr B) then Ok tt else Raise ValueError) ;;
    g <- mvmul (block_diag (o_nu o) (msub A B)) (mvec (v_U v)) ;;
    Ok (con_const g (Fin n0) (Fin n0)).

(** discretize_phase, mpopt.py:415-462.  J = mayer + W q. *)
Definition discretize_phase (ap : approx) (sw : list N) (ph : nat) (v : pvars) : res (con * N) :=
  d <- discretize_nodes ap sw ph v ;;
  F <- con_dynamics ap d v ;;
  C <- con_path d ;;
  '(TC, mayer) <- con_terminal ph v ;;
  DU <- con_slope ap ph v ;;
  mU <- con_midu ph v ;;
  dU <- con_ducont ph v ;;
  _ <- (if Nat.eqb (List.length (ap_W ap)) (List.length (d_q d)) then Ok tt else Raise CasadiError) ;;
  let J := nadd mayer (sum_ (map2 nmul (ap_W ap) (d_q d))) in
  Ok (con_concat [F; C; DU; mU; dU; TC], J).

(** get_event_constraints, mpopt.py:464-521.  np.concatenate of an empty list is a
    ValueError. *)
Definition con_events (vs : list pvars) : res con :=
  let n := List.length (o_links o) in
  diffs <- mapM (fun '(i, j) =>
      vi <- at_ vs i ;; vj <- at_ vs j ;;
      Ok (vsub (mrow (v_X vj) 0) (mrow (v_X vi) (npoints - 1)),
          vsub (mrow (v_U vj) 0) (mrow (v_U vi) (npoints - 1)),
          nsub (v_t0 vj) (v_tf vi))) (o_links o) ;;
  _ <- (if Nat.eqb n 0 then Raise ValueError else Ok tt) ;;
  lo <- mapM (fun k => b <- at_ (o_lbe o) k ;; Ok (map2 escale b (o_scale_x o))) (seq 0 n) ;;
  hi <- mapM (fun k => b <- at_ (o_ube o) k ;; Ok (map2 escale b (o_scale_x o))) (seq 0 n) ;;
  Ok (con_concat
        [ Con (List.concat (map (fun '(x, _, _) => x) diffs)) (List.concat lo) (List.concat hi);
          (let zs := repeat (Fin n0) (n * o_nu o) in
           Con (List.concat (map (fun '(_, u, _) => u) diffs)) zs zs);
          (let zs := repeat (Fin n0) n in
           Con (map (fun '(_, _, t) => t) diffs) zs zs) ]).

(** get_nlp_variables, mpopt.py:523-572: values, lower and upper bounds.
    np.concatenate(np.array(xmin_vec).T) lists the bound of state 0 at all nodes, then
    that of state 1, ... *)
Definition xbounds (lb : list (ext N)) (x00 : option (list N)) : res (list (ext N)) :=
  let row := map2 escale lb (o_scale_x o) in
  let rows := repeat row npoints in
  let rows := match x00 with
              | Some x => map Fin (map2 nmul x (o_scale_x o)) :: tl rows
              | None => rows
              end in
  if forallb (fun r => Nat.eqb (List.length r) (o_nx o)) rows then
    Ok (flat_map (fun s => map (fun r => nth s r NaN) rows) (seq 0 (o_nx o)))
  else Raise ValueError.
Definition nlp_variables (ph : nat) (v : pvars) : res con :=
  let Z := mvec (v_X v) ++ mvec (v_U v) ++ [v_t0 v; v_tf v] ++ v_A v in
  x00 <- (if Nat.eqb ph 0 then x <- at_ (o_x00 o) 0 ;; Ok (Some x) else Ok None) ;;
  lbx <- at_ (o_lbx o) ph ;; ubx <- at_ (o_ubx o) ph ;;
  xlo <- xbounds lbx x00 ;; xhi <- xbounds ubx x00 ;;
  lbu <- at_ (o_lbu o) ph ;; ubu <- at_ (o_ubu o) ph ;;
  lbt0 <- at_ (o_lbt0 o) ph ;; ubt0 <- at_ (o_ubt0 o) ph ;;
  lbtf <- at_ (o_lbtf o) ph ;; ubtf <- at_ (o_ubtf o) ph ;;
  lba <- at_ (o_lba o) ph ;; uba <- at_ (o_uba o) ph ;;
  let st := o_scale_t o in
  Ok (Con Z
    (xlo ++ bound_block lbu (o_scale_u o) npoints ++ map (fun b => escale b st) lbt0
       ++ map (fun b => escale b st) lbtf ++ map2 escale lba (o_scale_a o))
    (xhi ++ bound_block ubu (o_scale_u o) npoints ++ map (fun b => escale b st) ubt0
       ++ map (fun b => escale b st) ubtf ++ map2 escale uba (o_scale_a o))).

(** the widths of one phase: seg_widths[:, phase], mpopt.py:152, 627 (the parameter
    vector p is seg_widths[:], i.e. grouped by phase) *)
Definition sw_of (p : list N) (ph : nat) : list N :=
  slice (ph * mp_nseg mp) ((ph + 1) * mp_nseg mp) p.

(** create_nlp, mpopt.py:574-639: (x with lbx/ubx, g with lbg/ubg, f) *)
Record nlp := Nlp { n_x : con; n_g : con; n_f : N }.
Definition create_nlp (vs : list pvars) (p : list N) : res nlp :=
  ap <- compute_numerical_approximation ;;
  parts <- mapM (fun ph =>
      v <- at_ vs ph ;;
      z <- nlp_variables ph v ;;
      '(g, j) <- discretize_phase ap (sw_of p ph) ph v ;;
      Ok (z, g, j)) (seq 0 (o_nph o)) ;;
  E <- (if 1 <? o_nph o then con_events vs else Ok con_nil) ;;
  Ok (Nlp (con_concat (map (fun '(z, _, _) => z) parts))
          (con_app (con_concat (map (fun '(_, g, _) => g) parts)) E)
          (sum_ (map (fun '(_, _, j) => j) parts))).

(** number of decision variables of one phase in Z *)
Definition zlen : nat := npoints * o_nx o + npoints * o_nu o + 2 + o_na o.

(** init_trajectories, mpopt.py:857-882: the CasADi function reads the variables of the
    phase off the vector Z of all phases.  [unpack z ph] are the values of the symbols
    of phase ph when Z = z. *)
Definition unpack (z : list N) (ph : nat) : pvars :=
  let zp := skipn (ph * zlen) z in
  let nX := npoints * o_nx o in
  let nU := npoints * o_nu o in
  Pvars (Mat npoints (o_nx o) (fun i s => nth (s * npoints + i) zp n0))
        (Mat npoints (o_nu o) (fun i s => nth (nX + s * npoints + i) zp n0))
        (nth (nX + nU) zp n0) (nth (nX + nU + 1) zp n0)
        (firstn (o_na o) (skipn (nX + nU + 2) zp)).
Record traj := Traj { tr_x : mat N; tr_u : mat N; tr_t : list N; tr_t0 : N; tr_tf : N; tr_a : list N }.
Definition trajectories (ph : nat) (z : list N) (p : list N) : res traj :=
  let v := unpack z ph in
  ap <- compute_numerical_approximation ;;
  nodes <- mesh (ap_taus ap) (sw_of p ph) (un_t (v_t0 v)) (un_t (v_tf v)) ;;
  Ok (Traj (v_X v) (v_U v) (map nd_t nodes) (un_t (v_t0 v)) (un_t (v_tf v)) (v_A v)).

(** the NLP as a function of the decision vector, as the solver sees it *)
Definition nlp_at (z p : list N) : res nlp :=
  create_nlp (map (unpack z) (seq 0 (o_nph o))) p.

(** ** Initial guess, mpopt.py:641-708 *)

(** x00 + (xf0 - x00) / (tf0 - t00) * (t - t00), elementwise *)
Definition lerp (a b : list N) (t0 tf t : N) : list N :=
  map2 (fun p q => nadd p (nmul (ndiv (nsub q p) (nsub tf t0)) (nsub t t0))) a b.
Definition init_solution_per_phase (ph : nat) : res (list N) :=
  x00 <- at_ (o_x00 o) ph ;; xf0 <- at_ (o_xf0 o) ph ;;
  u00 <- at_ (o_u00 o) ph ;; uf0 <- at_ (o_uf0 o) ph ;;
  t00 <- at_ (o_t00 o) ph ;; tf0 <- at_ (o_tf0 o) ph ;;
  a0 <- at_ (o_a0 o) ph ;;
  let x00 := map2 nmul x00 (o_scale_x o) in
  let xf0 := map2 nmul xf0 (o_scale_x o) in
  let u00 := map2 nmul u00 (o_scale_u o) in
  let uf0 := map2 nmul uf0 (o_scale_u o) in
  let t00 := nmul (sc t00) (o_scale_t o) in
  let tf0 := nmul (sc tf0) (o_scale_t o) in
  let a0 := map2 nmul a0 (o_scale_a o) in
  let grid := linspace t00 tf0 npoints in
  (* states: np.array([...]).T, rows are states *)
  let zx := flat_map (fun s => map (fun t => nth s (lerp x00 xf0 t00 tf0 t) n0) grid)
              (seq 0 (o_nx o)) in
  (* controls: np.array([...]) without transposition, rows are nodes *)
  let zu := flat_map (fun t => lerp u00 uf0 t00 tf0 t) grid in
  Ok (zx ++ zu ++ [t00; tf0] ++ a0).
Definition initialize_solution : res (list N) :=
  zs <- mapM init_solution_per_phase (seq 0 (o_nph o)) ;; Ok (List.concat zs).

End Transcribe.
Arguments pvars N : clear implicits.
Arguments mpo N : clear implicits.
Arguments con N : clear implicits.
Arguments nlp N : clear implicits.
Arguments approx N : clear implicits.
Arguments traj N : clear implicits.
Arguments node N : clear implicits.
