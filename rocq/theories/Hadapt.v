(** Refinement of segment widths, class mpopt_h_adaptive, mpopt.py:2524-2875.

    The residuals of a phase are a list over segments; None means that no residual was computed
    for the segment, otherwise there is one row per evaluation point (get_dynamics_residuals,
    modelled in Resid.v).  Plotting is not modelled. *)
From Coq Require Import List Arith ZArith Bool String.
From Verif Require Import Num PyList.
Import ListNotations.
Open Scope string_scope.
Open Scope list_scope.
Set Implicit Arguments.
Unset Strict Implicit.

Section Hadapt.
Context {N : num}.
Definition rows := option (list (list N)).

(** np.abs(np.array(err)).max() if err is not None else 0 *)
Definition seg_max (err : rows) : res N :=
  match err with None => Ok n0 | Some m => max_ (map nabs (List.concat m)) end.
(** np.linalg.norm(np.array(err), 2, axis=1) if err is not None else [0] *)
Definition seg_norms (err : rows) : list N :=
  match err with None => [n0] | Some m => map norm2 m end.

(** ** merge_split_segments_based_on_residuals, mpopt.py:2662-2707 *)
(** itertools.groupby on the pairs (key, segment) *)
Fixpoint group_by (l : list (bool * nat)) : list (list (bool * nat)) :=
  match l with
  | [] => []
  | (k, i) :: l' =>
      match group_by l' with
      | ((k', i') :: g) :: gs =>
          if Bool.eqb k k' then ((k, i) :: (k', i') :: g) :: gs else [(k, i)] :: ((k', i') :: g) :: gs
      | gs => [(k, i)] :: gs
      end
  end.
Definition group_key (g : list (bool * nat)) : bool := match g with (k, _) :: _ => k | [] => true end.
(** the loop over groups: [per] are the numbers of parts of the groups above tolerance that are
    still to come *)
Fixpoint spread (gs : list (bool * N)) (per : list nat) : list N :=
  match gs with
  | [] => []
  | (true, h) :: gs' => h :: spread gs' per
  | (false, h) :: gs' =>
      match per with
      | [] => []
      | n :: per' => repeat (ndiv h (nofnat n)) n ++ spread gs' per'
      end
  end.
Definition merge_split (max_residuals sw : list N) (tol : N) : res (list N) :=
  let ns := List.length sw in
  data <- mapM (fun seg => r <- at_ max_residuals seg ;; Ok (nltb r tol, seg)) (seq 0 ns) ;;
  let groups := group_by data in
  let n_false := List.length (filter (fun g => negb (group_key g)) groups) in
  if Nat.eqb (List.length groups) ns then Ok sw
  else if Nat.eqb n_false 0 then Ok sw
  else
    h_new <- mapM (fun g => ws <- mapM (fun e => at_ sw (snd e)) g ;; Ok (group_key g, sum_ ws)) groups ;;
    let n_free := ns - List.length groups in
    let per := repeat (1 + n_free / n_false) (n_false - 1) ++ [1 + n_free / n_false + n_free mod n_false] in
    Ok (spread h_new per).

(** ** get_roots_wrt_equal_area, mpopt.py:2637-2660 *)
(** (l >= q).argmax(): the first index, 0 if there is none *)
Fixpoint first_ge (l : list N) (q : N) : option nat :=
  match l with
  | [] => None
  | a :: l' => if nleb q a then Some 0 else match first_ge l' q with Some i => Some (S i) | None => None end
  end.
Definition argmax_ge (l : list N) (q : N) : nat := match first_ge l q with Some i => i | None => 0 end.
(** l[i - 1], which is l[-1] for i = 0 *)
Definition prev_ (l : list N) (i : nat) : res N := match i with 0 => last_ l | S j => at_ l j end.
Definition half : N := nlit 1 2.
Definition areas (residuals : list N) : list N :=
  map2 (fun a b => nmul half (nadd a b)) residuals (tl residuals).
Definition equal_area (residuals : list N) (n : nat) : res (list N) :=
  let m := List.length residuals in
  let cum := n0 :: cumsum (areas residuals) in
  total <- last_ cum ;;
  let c := map (fun a => ndiv a total) cum in
  s <- mapM (fun i =>
      let q := ndiv (nofnat (i + 1)) (nofnat n) in
      let j := argmax_ge c q in
      cp <- prev_ c j ;; cj <- at_ c j ;;
      Ok (ndiv (nadd (nsub (nofnat j) n1) (ndiv (nsub q cp) (nsub cj cp))) (nsub (nofnat m) n1)))
    (seq 0 n) ;;
  Ok (diff_ (n0 :: s)).

(** refine_segment_widths_based_on_residuals, mpopt.py:2594-2635 *)
Definition refine (method : string) (residuals : list rows) (sw : list N) (tol : N) (n_segments : nat) : res (list N) :=
  if String.eqb method "merge_split" then
    mx <- mapM seg_max residuals ;; merge_split mx sw tol
  else if String.eqb method "equal_area" then
    equal_area (List.concat (map seg_norms residuals)) n_segments
  else Ok sw.

(** compute_seg_width_based_on_residuals, mpopt.py:2524-2592, after get_dynamics_residuals;
    [sw] is self._nlp_sw_params *)
Definition phase_by_residual (method : string) (n : nat) (sw : list N) (tol : list N) (residuals : list (list rows))
    (st : list (list N) * N) (ph : nat) : res (list (list N) * N) :=
  let '(acc, max_error) := st in
  rs <- at_ residuals ph ;;
  ms <- mapM seg_max rs ;;
  mr <- max_ ms ;;
  let max_error := if nltb max_error mr then mr else max_error in
  let old := slice (n * ph) (n * (ph + 1)) sw in
  t <- at_ tol ph ;;
  if nltb mr t then Ok (acc ++ [old], max_error)
  else
    w <- refine method rs old t n ;;
    if String.eqb method "equal_area" then
      (* 0.4 * new + 0.6 * old on arrays *)
      _ <- (if Nat.eqb (List.length w) (List.length old) then Ok tt else Raise ValueError) ;;
      Ok (acc ++ [map2 (fun a b => nadd (nmul (nlit 4 10) a) (nmul (nlit 6 10) b)) w old], max_error)
    else Ok (acc ++ [w], max_error).
Definition widths_by_residual (method : string) (n nph : nat) (sw tol : list N) (residuals : list (list rows)) : res (list N * N) :=
  '(ws, e) <- foldM (phase_by_residual method n sw tol residuals) (seq 0 nph) ([], n0) ;;
  Ok (List.concat ws, e).

(** ** Control slope, mpopt.py:2709-2875 *)
(** list.sort(key=...): stable *)
Fixpoint insert_by {A} (key : A -> N) (x : A) (l : list A) : list A :=
  match l with
  | [] => [x]
  | y :: l' => if nleb (key x) (key y) then x :: y :: l' else y :: insert_by key x l'
  end.
Definition sort_by {A} (key : A -> N) (l : list A) : list A := fold_right (insert_by key) [] l.

(** compute_time_at_max_values, mpopt.py:2808-2840; the argument t_grid is not used; [du] has
    one row per node *)
Definition inner {A} (l : list A) : list A := but_last (tl l).
Definition time_at_max (t : list N) (du : list (list N)) (threshold : N) : list N :=
  map fst (sort_by snd (filter (fun e => nleb threshold (snd e)) (combine (inner t) (inner (map norm2 du))))).

(** compute_segment_widths_at_times, mpopt.py:2842-2875 *)
Definition widths_at_times (times : list N) (n : nat) (t0 tf : N) : res (list N) :=
  let nav := List.length times in
  ws <- (if Nat.ltb (n - 2) nav && Nat.leb 2 n then
           let ts := sort_by (fun x => x) (firstn n times) in
           a <- at_ ts 0 ;; b <- at_ ts (n - 2) ;;
           mid <- mapM (fun i => x <- at_ ts i ;; y <- at_ ts (i - 1) ;; Ok (nsub x y)) (seq 1 (n - 2)) ;;
           Ok (nsub a t0 :: mid ++ [nsub tf b])
         else if Nat.leb 2 n then
           let ts := sort_by (fun x => x) times in
           a <- at_ ts 0 ;; b <- last_ ts ;;
           let sw0 := nsub a t0 in
           let sw_end := nsub tf b in
           let n_req := n - (nav - 1) in
           let n_start := if Nat.eqb n_req 2 then 1
             else Z.to_nat (1 + ntrunc (nmul (ndiv sw0 (nadd sw0 sw_end)) (nofnat (n_req - 1)))) in
           let n_end : Z := if Nat.eqb n_req 2 then 1%Z else (Z.of_nat n_req - Z.of_nat n_start)%Z in
           _ <- (if Nat.leb (n_start + (nav - 1)) n then Ok tt else Raise IndexError) ;;
           mid <- mapM (fun i => x <- at_ ts (i + 1) ;; y <- at_ ts i ;; Ok (nsub x y)) (seq 0 (nav - 1)) ;;
           Ok (repeat (ndiv sw0 (nofnat n_start)) n_start ++ mid ++
               repeat (ndiv sw_end (nofZ n_end)) (n - (n_start + (nav - 1))))
         else if Nat.eqb n 1 then
           (* segment_widths[0] is overwritten by tf - times[-1] *)
           b <- last_ (firstn 1 times) ;; Ok [nsub tf b]
         else Raise IndexError) ;;
  Ok (map (fun w => ndiv w (nsub tf t0)) ws).

(** the clamping and normalisation, mpopt.py:2794-2804 *)
Definition clamp (lo hi w : N) : N :=
  let w1 := if nltb w lo then lo else w in if nltb hi w then hi else w1.
Definition clamp_widths (lo hi : N) (ws : list N) : list N :=
  let cs := map (clamp lo hi) ws in map (fun w => ndiv w (sum_ cs)) cs.

(** the last part of compute_seg_width_based_on_input_slope for one phase, mpopt.py:2764-2804 *)
Definition widths_by_slope (old : list N) (t : list N) (du : list (list N)) (threshold t0 tf lo hi : N) (n : nat) : res (list N) :=
  match time_at_max t du threshold with
  | [] => Ok old
  | times => ws <- widths_at_times times n t0 tf ;; Ok (clamp_widths lo hi ws)
  end.

End Hadapt.
