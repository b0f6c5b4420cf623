(** Retrieval of results: class post_process, mpopt.py:1576-1855 and 2210-2232, and the parts of
    process_results (mpopt.py:884-950, 3278-3344) that build its object.  Plotting is not modelled.

    numpy arrays of two dimensions are matrices; the time vector is a list, although it is a column
    in the nodal data and has one dimension in the interpolated data.
    Simplified: phase indices are natural numbers; all options are present, as process_results sets
    them; the collocation object that get_interpolated_data makes is the history-free layer of
    Colloc.v (property C09). *)
From Coq Require Import List Arith ZArith Bool String.
From Verif Require Import Num PyList Mat Poly Roots Colloc Ocp Transcribe Hadapt Resid Adaptive.
Import ListNotations.
Open Scope nat_scope.
Open Scope list_scope.
Set Implicit Arguments.
Unset Strict Implicit.

Section Post.
Context {N : num}.

(** ** Arrays *)
(** m / v for an array of two dimensions and one of one dimension: numpy lines up the columns of m
    with v and repeats whichever has length 1 *)
Definition bdiv (m : mat N) (v : list N) : res (mat N) :=
  let k := List.length v in
  let quot := fun i jm jv => ndiv (mget m i jm) (nth jv v n0) in
  if Nat.eqb (nc m) k then Ok (Mat (nr m) k (fun i j => quot i j j))
  else if Nat.eqb (nc m) 1 then Ok (Mat (nr m) k (fun i j => quot i 0 j))
  else if Nat.eqb k 1 then Ok (Mat (nr m) (nc m) (fun i j => quot i j 0))
  else Raise ValueError.
(** np.vstack and np.hstack of two *)
Definition vstack (a b : mat N) : res (mat N) :=
  if Nat.eqb (nc a) (nc b) then
    Ok (Mat (nr a + nr b) (nc a) (fun i j => if i <? nr a then mget a i j else mget b (i - nr a) j))
  else Raise ValueError.
Definition hstack (a b : mat N) : res (mat N) :=
  if Nat.eqb (nr a) (nr b) then
    Ok (Mat (nr a) (nc a + nc b) (fun i j => if j <? nc a then mget a i j else mget b i (j - nc a)))
  else Raise ValueError.
(** np.dot *)
Definition dot (a b : mat N) : res (mat N) :=
  if Nat.eqb (nc a) (nr b) then Ok (mmul a b) else Raise ValueError.
(** DM.full() of a column *)
Definition column (v : list N) : mat N := Mat (List.length v) 1 (fun i _ => nth i v n0).

(** ** post_process.__init__, mpopt.py:1589-1637 *)
(** the entries "t_x" and "t_dx" of the dictionary of residuals *)
Record resid_data := Resid_data {
  rd_x : option (list (list (option (segstate (N := N)))));
  rd_dx : option (list (list (list N)) * list (list (rows (N := N))))
}.
Record post := Post {
  po_traj : list (list N -> list N -> res (traj N));
  po_x : list N;               (* solution["x"] *)
  po_sw : list N;              (* options["seg_widths"] *)
  po_scale_x : list N; po_scale_u : list N; po_scale_a : list N;
  po_scaling : bool;
  po_phases : list nat;
  po_cf : ccfg N;
  po_orders : list nat;
  po_resid : option resid_data
}.
Variable po : post.

(** ** get_trajectories, mpopt.py:1639-1667 *)
Record pdata := Pdata { pd_x : mat N; pd_u : mat N; pd_t : list N; pd_a : mat N }.
Definition get_trajectories (ph : nat) : res pdata :=
  f <- at_ (po_traj po) ph ;;
  tr <- f (po_x po) (po_sw po) ;;
  if po_scaling po then Ok (Pdata (tr_x tr) (tr_u tr) (tr_t tr) (column (tr_a tr)))
  else
    x <- bdiv (tr_x tr) (po_scale_x po) ;;
    u <- bdiv (tr_u tr) (po_scale_u po) ;;
    a <- bdiv (column (tr_a tr)) (po_scale_a po) ;;
    Ok (Pdata x u (tr_t tr) a).

(** ** get_original_data, mpopt.py:1669-1692 *)
Definition original_step (d : pdata) (ph : nat) : res pdata :=
  dp <- get_trajectories ph ;;
  x <- vstack (pd_x d) (pd_x dp) ;;
  u <- vstack (pd_u d) (pd_u dp) ;;
  a <- vstack (pd_a d) (pd_a dp) ;;
  Ok (Pdata x u (pd_t d ++ pd_t dp) a).
Definition get_original_data (phases : list nat) : res pdata :=
  let phases := match phases with [] => po_phases po | _ => phases end in
  p0 <- at_ phases 0 ;;
  d <- get_trajectories p0 ;;
  foldM original_step (tl phases) d.

(** ** get_non_uniform_interpolation_grid, mpopt.py:1716-1742 *)
Definition with_mid_points (taus : list N) : res (list N) :=
  match but_last taus with
  | [] => Raise ValueError
  | _ =>
      pts <- mapM (fun '(i, tau) => a <- at_ taus i ;; b <- at_ taus (i + 1) ;; Ok [tau; ndiv (nadd a b) n2])
               (enumerate (but_last taus)) ;;
      l <- last_ taus ;;
      Ok (List.concat pts ++ [l])
  end.
(** the loop is left after [passes] passes at the latest *)
Fixpoint refine_loop (passes : nat) (n : nat) (taus : list N) : res (list N) :=
  if List.length taus <? n then
    match passes with
    | O => Ok taus
    | S p => taus <- with_mid_points taus ;; refine_loop p n taus
    end
  else Ok taus.
Definition non_uniform_grid (taus : list N) (n : nat) : res (list N) := refine_loop 6 n taus.

(** ** get_interpolation_taus, mpopt.py:1694-1714 *)
Definition get_interpolation_taus (n : nat) (taus_orig : option (list N)) (method : string) : res (list N) :=
  match taus_orig with
  | None => Ok (linspace (cf_tau0 (po_cf po)) (cf_tau1 (po_cf po)) n)
  | Some l => if String.eqb method "uniform"%string then Ok (linspace (cf_tau0 (po_cf po)) (cf_tau1 (po_cf po)) n)
              else non_uniform_grid l n
  end.

(** ** get_interpolated_data, mpopt.py:1773-1831; [taus] = [] stands for the default grid *)
Definition nodes_per_seg : nat := 50.
Definition default_taus : res (list (list N)) :=
  ts <- mapM (fun p => r <- c_roots (po_cf po) p ;; l <- get_interpolation_taus nodes_per_seg (Some r) "uniform"%string ;; Ok (tl l))
          (po_orders po) ;;
  match ts with
  | [] => Raise IndexError
  | t :: ts => Ok ((cf_tau0 (po_cf po) :: t) :: ts)
  end.
Definition interp_one (I : mat N) (taus : list (list N)) (ph : nat) : res pdata :=
  d <- get_original_data [ph] ;;
  x <- dot I (pd_x d) ;;
  u <- dot I (pd_u d) ;;
  t <- time_grid (pd_t d) taus (po_orders po) (cf_tau0 (po_cf po)) (cf_tau1 (po_cf po)) ;;
  Ok (Pdata x u t (pd_a d)).
Definition interp_step (I : mat N) (taus : list (list N)) (d : pdata) (ph : nat) : res pdata :=
  dp <- interp_one I taus ph ;;
  x <- vstack (pd_x d) (pd_x dp) ;;
  u <- vstack (pd_u d) (pd_u dp) ;;
  a <- hstack (pd_a d) (pd_a dp) ;;
  Ok (Pdata x u (pd_t d ++ pd_t dp) a).
Definition get_interpolated_data (phases : list nat) (taus : list (list N)) : res pdata :=
  taus <- match taus with [] => default_taus | _ => Ok taus end ;;
  I <- comp_interp (po_cf po) taus (po_orders po) ;;
  p0 <- at_ phases 0 ;;
  d <- interp_one I taus p0 ;;
  foldM (interp_step I taus) (tl phases) d.

(** ** get_data, mpopt.py:1833-1858 *)
Definition get_data (phases : list nat) (interpolate : bool) : res pdata :=
  let phases := match phases with [] => po_phases po | _ => phases end in
  if interpolate then get_interpolated_data phases [] else get_original_data phases.

(** ** sort_residual_data, mpopt.py:2210-2232 *)
(** entries of numpy arrays: numbers, or arrays inside an array of objects *)
Inductive cell := CNum (x : N) | CArr (l : list N).
(** the array that numpy makes of a list of vectors, as its rows: one row per vector when they have
    the same length, otherwise one row of objects *)
Definition as_rows (l : list (list N)) : list (list cell) :=
  match l with
  | [] => [[]]
  | v :: _ => if forallb (fun w => Nat.eqb (List.length w) (List.length v)) l
              then map (map CNum) l else [map CArr l]
  end.
(** np.vstack of two arrays given by their rows *)
Definition vstack_rows {A} (a b : list (list A)) : res (list (list A)) :=
  match a, b with
  | r :: _, r' :: _ => if Nat.eqb (List.length r) (List.length r') then Ok (a ++ b) else Raise ValueError
  | _, _ => Raise ValueError
  end.
(** np.concatenate: nothing to join is an error *)
Definition concat_ {A} (l : list (list A)) : res (list A) :=
  match l with [] => Raise ValueError | _ => Ok (List.concat l) end.
Definition norm_residual (rs : list (rows (N := N))) : res (list N) :=
  concat_ (map (fun r => match r with Some m => map norm2 m | None => [] end) rs).
Definition sort_residual_data (time : list (list (list N))) (residuals : list (list (rows (N := N)))) (phases : list nat)
  : res (list N * list cell) :=
  t0 <- at_ time 0 ;; r0 <- at_ residuals 0 ;;
  r <- norm_residual r0 ;;
  '(r, t) <-
    (if 1 <? List.length phases then
       '(R, T) <- foldM (fun '(R, T) ph =>
                     tp <- at_ time ph ;; rs <- at_ residuals ph ;; rp <- norm_residual rs ;;
                     R <- vstack_rows R [rp] ;; T <- vstack_rows T (as_rows tp) ;; Ok (R, T))
                   (tl phases) ([r], as_rows t0) ;;
       Ok (List.concat R, List.concat T)
     else t <- concat_ t0 ;; Ok (r, map CNum t)) ;;
  if Nat.eqb (List.length r) (List.length t) then Ok (r, t) else Raise ValueError.

End Post.

(** ** process_results but its plots (Plot.v), mpopt.py:884-950, and the same in class mpopt_adaptive,
    3278-3344; [plots] is phases_to_plot *)
Section Process.
Context {N : num}.
Variables (rc : rcfg) (mp : mpo N) (traj : nat -> list N -> list N -> res (traj N)).
Definition residual_values (sw z : list N) (residual_x residual_dx : bool) : res (option (resid_data (N := N))) :=
  rx <- (if residual_x then r <- states_residuals_by rc mp traj sw z None None false ;; Ok (Some (map snd r)) else Ok None) ;;
  rdx <- (if residual_dx then r <- dynamics_residuals_by rc mp traj sw z None None false ;; Ok (Some r) else Ok None) ;;
  Ok (if residual_dx then Some (Resid_data rx rdx) else None).
Definition post_of (plots : list (list nat)) (sw z : list N)
    (scaling : bool) (r : option (resid_data (N := N))) : res (post (N := N)) :=
  let o := mp_ocp mp in
  phases <- at_ plots 0 ;;
  Ok (Post (map traj (seq 0 (o_nph o))) z sw (o_scale_x o) (o_scale_u o) (o_scale_a o) scaling phases
        (mp_cf mp) (mp_orders mp) r).
Definition process_results_by (plots : list (list nat)) (sw z : list N) (scaling residual_x residual_dx : bool)
  : res (post (N := N)) :=
  r <- residual_values sw z residual_x residual_dx ;;
  post_of plots sw z scaling r.
End Process.
(** class mpopt *)
Notation process_results rc mp := (process_results_by rc mp (trajectories mp)).
(** class mpopt_adaptive: [own_trajectories] is its init_trajectories, whose second argument is not
    used (Adaptive.v); the methods it inherits *)
Definition own_trajectories {N : num} (mp : mpo N) (ph : nat) (z _ : list N) : res (traj N) := a_trajectories mp ph z.
Notation a_process_results rc mp := (process_results_by rc mp (own_trajectories mp)).
Notation a_dynamics_residuals rc mp := (dynamics_residuals_by rc mp (own_trajectories mp)).
Notation a_states_residuals rc mp := (states_residuals_by rc mp (own_trajectories mp)).
Notation a_second_derivative rc mp := (second_derivative_by rc mp (own_trajectories mp)).
