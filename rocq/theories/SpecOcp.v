(** Specification vocabulary for optimal control problems: what a well-formed problem is,
    trajectories in the user's units, and the discretised problem they must satisfy.
    Uses the input types of the model (records [ocp], [mpo], [con], [nlp]) but none of its
    functions. *)
From Coq Require Import Reals String Bool.
From Coquelicot Require Import Coquelicot.
From Coq Require Import List.
From Verif Require Import Num PyList Mat Poly Roots Colloc Ocp Transcribe Spec.
Import ListNotations.
Open Scope R_scope.

(** * Bounds *)

Definition above (lo : ext R) (x : R) : Prop :=
  match lo with NInf => True | Fin a => a <= x | _ => False end.
Definition below (hi : ext R) (x : R) : Prop :=
  match hi with PInf => True | Fin b => x <= b | _ => False end.
Definition within (lo hi : ext R) (x : R) : Prop := above lo x /\ below hi x.
(** lo <= hi for bounds *)
Definition ext_le (lo hi : ext R) : Prop :=
  match lo, hi with
  | NaN, _ | _, NaN => False
  | NInf, _ | _, PInf => True
  | Fin a, Fin b => a <= b
  | _, _ => False
  end.

(** every value of a block of constraints is within its bounds *)
Definition sat (c : con Rnum) : Prop :=
  forall i, (i < length (c_g c))%nat ->
    within (nth i (c_lo c) NaN) (nth i (c_hi c) NaN) (nth i (c_g c) 0).
(** the point satisfies all constraints of the nonlinear program *)
Definition feasible (n : nlp Rnum) : Prop := sat (n_x n) /\ sat (n_g n).
(** as many lower and upper bounds as values *)
Definition balanced (c : con Rnum) : Prop :=
  length (c_lo c) = length (c_g c) /\ length (c_hi c) = length (c_g c).

(** * Well-formed problems *)

Definition shaped {T} (m : list (list T)) (r c : nat) : Prop :=
  length m = r /\ forall row, In row m -> length row = c.
Definition ordered (lo hi : list (list (ext R))) (r c : nat) : Prop :=
  forall i j, (i < r)%nat -> (j < c)%nat -> ext_le (nth j (nth i lo []) NaN) (nth j (nth i hi []) NaN).

(** dimensions of all data *)
Record shapes_ok (o : ocp Rnum) : Prop := {
  sh_nph : (1 <= o_nph o)%nat;
  sh_dyn : length (o_dyn o) = o_nph o;
  sh_run : length (o_run o) = o_nph o;
  sh_mayer : length (o_mayer o) = o_nph o;
  sh_path : length (o_path o) = o_nph o;
  sh_term : length (o_term o) = o_nph o;
  sh_sx : length (o_scale_x o) = o_nx o;
  sh_su : length (o_scale_u o) = o_nu o;
  sh_sa : length (o_scale_a o) = o_na o;
  sh_x00 : shaped (o_x00 o) (o_nph o) (o_nx o);
  sh_xf0 : shaped (o_xf0 o) (o_nph o) (o_nx o);
  sh_u00 : shaped (o_u00 o) (o_nph o) (o_nu o);
  sh_uf0 : shaped (o_uf0 o) (o_nph o) (o_nu o);
  sh_a0 : shaped (o_a0 o) (o_nph o) (o_na o);
  sh_t00 : shaped (o_t00 o) (o_nph o) 1;
  sh_tf0 : shaped (o_tf0 o) (o_nph o) 1;
  sh_lbx : shaped (o_lbx o) (o_nph o) (o_nx o);
  sh_ubx : shaped (o_ubx o) (o_nph o) (o_nx o);
  sh_lbu : shaped (o_lbu o) (o_nph o) (o_nu o);
  sh_ubu : shaped (o_ubu o) (o_nph o) (o_nu o);
  sh_lba : shaped (o_lba o) (o_nph o) (o_na o);
  sh_uba : shaped (o_uba o) (o_nph o) (o_na o);
  sh_lbt0 : shaped (o_lbt0 o) (o_nph o) 1;
  sh_ubt0 : shaped (o_ubt0 o) (o_nph o) 1;
  sh_lbtf : shaped (o_lbtf o) (o_nph o) 1;
  sh_ubtf : shaped (o_ubtf o) (o_nph o) 1;
  sh_lbe : length (o_lbe o) = (o_nph o - 1)%nat /\ ((1 < o_nph o)%nat -> shaped (o_lbe o) (o_nph o - 1) (o_nx o));
  sh_ube : length (o_ube o) = (o_nph o - 1)%nat /\ ((1 < o_nph o)%nat -> shaped (o_ube o) (o_nph o - 1) (o_nx o));
  sh_x : ordered (o_lbx o) (o_ubx o) (o_nph o) (o_nx o);
  sh_u : ordered (o_lbu o) (o_ubu o) (o_nph o) (o_nu o);
  sh_a : ordered (o_lba o) (o_uba o) (o_nph o) (o_na o);
  sh_t0 : ordered (o_lbt0 o) (o_ubt0 o) (o_nph o) 1;
  sh_tf : ordered (o_lbtf o) (o_ubtf o) (o_nph o) 1;
  sh_e : ordered (o_lbe o) (o_ube o) (o_nph o - 1) (o_nx o)
}.

(** the user functions can be evaluated at the initial guess of phase ph: the dynamics has nx
    components, costs are not None, constraints are None or not empty *)
Definition guess_ok (o : ocp Rnum) (ph : nat) : Prop :=
  let x := nth ph (o_x00 o) [] in let u := nth ph (o_u00 o) [] in
  let t := nth 0 (nth ph (o_t00 o) []) 0 in
  let a := if Nat.eqb (o_na o) 0 then None else Some (nth ph (o_a0 o) []) in
  (exists f d, nth_error (o_dyn o) ph = Some f /\ f x u t a = Ok d /\ length d = o_nx o) /\
  (exists f c, nth_error (o_mayer o) ph = Some f /\ f x t x t a = Ok (Some c)) /\
  (exists f c, nth_error (o_run o) ph = Some f /\ f x u t a = Ok (Some c)) /\
  (exists f r, nth_error (o_path o) ph = Some f /\ f x u t a = Ok r /\ r <> Some []) /\
  (exists f r, nth_error (o_term o) ph = Some f /\ f x t x t a = Ok r /\ r <> Some []).
(** the parameter argument of user functions: absent when there are no parameters *)
Definition arg_ok (o : ocp Rnum) (a : option (list R)) : Prop :=
  if Nat.eqb (o_na o) 0 then a = None else exists l, a = Some l /\ length l = o_na o.

(** [npath ph] / [nterm ph]: number of path / terminal constraints, None when the function
    returns None *)
Record ocp_ok (o : ocp Rnum) (npath nterm : nat -> option nat) : Prop := {
  ok_shapes : shapes_ok o;
  ok_nx : (1 <= o_nx o)%nat;
  ok_dyn : forall ph f x u t a, nth_error (o_dyn o) ph = Some f ->
    length x = o_nx o -> length u = o_nu o -> arg_ok o a ->
    exists d, f x u t a = Ok d /\ length d = o_nx o;
  ok_run : forall ph f x u t a, nth_error (o_run o) ph = Some f ->
    length x = o_nx o -> length u = o_nu o -> arg_ok o a -> exists l, f x u t a = Ok (Some l);
  ok_mayer : forall ph f xf tf x0 t0 a, nth_error (o_mayer o) ph = Some f ->
    length xf = o_nx o -> length x0 = o_nx o -> arg_ok o a -> exists l, f xf tf x0 t0 a = Ok (Some l);
  ok_path : forall ph f x u t a, nth_error (o_path o) ph = Some f ->
    length x = o_nx o -> length u = o_nu o -> arg_ok o a ->
    match npath ph with
    | None => f x u t a = Ok None
    | Some n => exists l, f x u t a = Ok (Some l) /\ length l = n
    end;
  ok_term : forall ph f xf tf x0 t0 a, nth_error (o_term o) ph = Some f ->
    length xf = o_nx o -> length x0 = o_nx o -> arg_ok o a ->
    match nterm ph with
    | None => f xf tf x0 t0 a = Ok None
    | Some n => exists l, f xf tf x0 t0 a = Ok (Some l) /\ length l = n
    end;
  ok_diff_u : length (o_diff_u o) = o_nph o;
  ok_lbdu : length (o_lbdu o) = o_nph o;
  ok_ubdu : length (o_ubdu o) = o_nph o;
  ok_midu : length (o_midu o) = o_nph o;
  ok_ducont : length (o_ducont o) = o_nph o;
  ok_nu : forall ph, nth ph (o_diff_u o) false = true \/ nth ph (o_ducont o) false = true -> (1 <= o_nu o)%nat;
  ok_links : forall i j, In (i, j) (o_links o) -> (i < o_nph o)%nat /\ (j < o_nph o)%nat;
  ok_links_len : (length (o_links o) <= o_nph o - 1)%nat;
  ok_links_some : (1 < o_nph o)%nat -> o_links o <> []
}.

(** some control bound of the phase is not infinite *)
Definition some_finite (o : ocp Rnum) (ph : nat) : bool :=
  existsb (fun b : ext R => match b with NInf | NaN => false | _ => true end) (nth ph (o_lbu o) []) ||
  existsb (fun b : ext R => match b with PInf | NaN => false | _ => true end) (nth ph (o_ubu o) []).

Record scales_pos (o : ocp Rnum) : Prop := {
  sp_x : forall s, In s (o_scale_x o) -> 0 < s;
  sp_u : forall s, In s (o_scale_u o) -> 0 < s;
  sp_a : forall s, In s (o_scale_a o) -> 0 < s;
  sp_t : 0 < o_scale_t o
}.

(** an optimizer with a usable mesh *)
Record mpo_ok (mp : mpo Rnum) : Prop := {
  mo_cfg : cfg_ok (mp_cf mp);
  mo_len : length (mp_orders mp) = mp_nseg mp;
  mo_nseg : (1 <= mp_nseg mp)%nat;
  mo_pos : forall p, In p (mp_orders mp) -> (1 <= p)%nat
}.

(** number of entries of g that a phase contributes: dynamics, path, slope, mid-point,
    slope continuity and terminal constraints *)
Definition phase_rows (mp : mpo Rnum) (npath nterm : nat -> option nat) (ph : nat) : nat :=
  let o := mp_ocp mp in
  let n := total_nodes (mp_orders mp) in
  (o_nx o * n
   + match npath ph with None => 0 | Some c => c * n end
   + (if nth ph (o_diff_u o) false then o_nu o * n else 0)
   + (if nth ph (o_midu o) false && some_finite o ph then o_nu o * (n - 1) else 0)
   + (if nth ph (o_ducont o) false then o_nu o * (mp_nseg mp - 1) else 0)
   + match nterm ph with None => 0 | Some c => c end)%nat.
(** sizes of the six blocks of a phase, in the order they are stacked in g *)
Definition block_rows (mp : mpo Rnum) (npath nterm : nat -> option nat) (ph : nat) : list nat :=
  let o := mp_ocp mp in
  let n := total_nodes (mp_orders mp) in
  ([ o_nx o * n;
     match npath ph with None => 0 | Some c => c * n end;
     if nth ph (o_diff_u o) false then o_nu o * n else 0;
     if nth ph (o_midu o) false && some_finite o ph then o_nu o * (n - 1) else 0;
     if nth ph (o_ducont o) false then o_nu o * (mp_nseg mp - 1) else 0;
     match nterm ph with None => 0 | Some c => c end ])%nat.
Definition Nsum (l : list nat) : nat := fold_right Nat.add 0%nat l.
(** rows a, ..., a+l-1 of a block of constraints *)
Definition sub_con (c : con Rnum) (a l : nat) : con Rnum :=
  Con (N := Rnum) (firstn l (skipn a (c_g c))) (firstn l (skipn a (c_lo c))) (firstn l (skipn a (c_hi c))).
(** block b of phase ph within g *)
Definition g_block (mp : mpo Rnum) (npath nterm : nat -> option nat) (n : nlp Rnum) (ph b : nat) : con Rnum :=
  let rows q := Nsum (block_rows mp npath nterm q) in
  sub_con (n_g n) (Nsum (map rows (seq 0 ph)) + Nsum (firstn b (block_rows mp npath nterm ph)))
    (nth b (block_rows mp npath nterm ph) 0%nat).
(** the rows of g after those of all phases *)
Definition g_links (mp : mpo Rnum) (npath nterm : nat -> option nat) (n : nlp Rnum) : con Rnum :=
  let rows q := Nsum (block_rows mp npath nterm q) in
  let a := Nsum (map rows (seq 0 (o_nph (mp_ocp mp)))) in
  sub_con (n_g n) a (length (c_g (n_g n)) - a).
(** entries of g for the links between phases *)
Definition link_rows (o : ocp Rnum) : nat :=
  if Nat.ltb 1 (o_nph o) then (length (o_links o) * (o_nx o + o_nu o + 1))%nat else 0%nat.

(** node i of the phase is point j of segment k; a boundary node belongs to the segment it ends *)
Definition owned (orders : list nat) (i k j : nat) : Prop :=
  exists p, nth_error orders k = Some p /\ (j <= p)%nat /\ (k = 0 \/ 1 <= j)%nat /\
    i = (offset orders k + j)%nat.

(** * Trajectories in the user's units: values at the nodes of one phase *)

Record utraj := Utraj {
  y_x : nat -> nat -> R;   (* node, state *)
  y_u : nat -> nat -> R;   (* node, control *)
  y_t0 : R;
  y_tf : R;
  y_a : nat -> R
}.
Definition vec (n : nat) (f : nat -> R) : list R := map f (seq 0 n).

(** the trajectory that a decision vector stands for *)
Definition nvars (mp : mpo Rnum) : nat :=
  let n := total_nodes (mp_orders mp) in
  (n * o_nx (mp_ocp mp) + n * o_nu (mp_ocp mp) + 2 + o_na (mp_ocp mp))%nat.
Definition user_traj (mp : mpo Rnum) (z : list R) (ph : nat) : utraj :=
  let o := mp_ocp mp in
  let n := total_nodes (mp_orders mp) in
  let x0 := (ph * nvars mp)%nat in
  let u0 := (x0 + n * o_nx o)%nat in
  let tt := (u0 + n * o_nu o)%nat in
  Utraj (fun i s => nth (x0 + s * n + i) z 0 / nth s (o_scale_x o) 0)
        (fun i c => nth (u0 + c * n + i) z 0 / nth c (o_scale_u o) 0)
        (nth tt z 0 / o_scale_t o)
        (nth (tt + 1) z 0 / o_scale_t o)
        (fun i => nth (tt + 2 + i) z 0 / nth i (o_scale_a o) 0).
(** width of segment k of a phase: widths are grouped by phase *)
Definition width (mp : mpo Rnum) (p : list R) (ph k : nat) : R := nth (ph * mp_nseg mp + k) p 0.

(** * Values of the user functions along a trajectory *)

Definition a_of (o : ocp Rnum) (y : utraj) : option (list R) :=
  if Nat.eqb (o_na o) 0 then None else Some (vec (o_na o) (y_a y)).
Definition dyn_val (o : ocp Rnum) (ph : nat) (y : utraj) (i : nat) (t : R) : list R :=
  match nth_error (o_dyn o) ph with
  | Some f => match f (vec (o_nx o) (y_x y i)) (vec (o_nu o) (y_u y i)) t (a_of o y) with
              | Ok d => d | Raise _ => [] end
  | None => []
  end.
Definition path_val (o : ocp Rnum) (ph : nat) (y : utraj) (i : nat) (t : R) : list R :=
  match nth_error (o_path o) ph with
  | Some f => match f (vec (o_nx o) (y_x y i)) (vec (o_nu o) (y_u y i)) t (a_of o y) with
              | Ok (Some l) => l | _ => [] end
  | None => []
  end.
Definition run_val (o : ocp Rnum) (ph : nat) (y : utraj) (i : nat) (t : R) : R :=
  match nth_error (o_run o) ph with
  | Some f => match f (vec (o_nx o) (y_x y i)) (vec (o_nu o) (y_u y i)) t (a_of o y) with
              | Ok (Some l) => l | _ => 0 end
  | None => 0
  end.
(** [last] is the last node *)
Definition term_val (o : ocp Rnum) (ph : nat) (y : utraj) (last : nat) : list R :=
  match nth_error (o_term o) ph with
  | Some f => match f (vec (o_nx o) (y_x y last)) (y_tf y) (vec (o_nx o) (y_x y 0)) (y_t0 y) (a_of o y) with
              | Ok (Some l) => l | _ => [] end
  | None => []
  end.
Definition mayer_val (o : ocp Rnum) (ph : nat) (y : utraj) (last : nat) : R :=
  match nth_error (o_mayer o) ph with
  | Some f => match f (vec (o_nx o) (y_x y last)) (y_tf y) (vec (o_nx o) (y_x y 0)) (y_t0 y) (a_of o y) with
              | Ok (Some l) => l | _ => 0 end
  | None => 0
  end.

(** * The discretised problem, in the user's units *)

(** [w k] is the width of segment k *)
Definition seg_start (w : nat -> R) (y : utraj) (k : nat) : R :=
  y_t0 y + (y_tf y - y_t0 y) * Rsum k w.
(** d(time)/d(tau) inside segment k *)
Definition seg_h (cf : ccfg Rnum) (w : nat -> R) (y : utraj) (k : nat) : R :=
  (y_tf y - y_t0 y) * w k / (cf_tau1 cf - cf_tau0 cf).
(** time of point tau of segment k *)
Definition seg_time (cf : ccfg Rnum) (w : nat -> R) (y : utraj) (k : nat) (tau : R) : R :=
  seg_start w y k + seg_h cf w y k * (tau - cf_tau0 cf).

Section Discretised.
Variables (mp : mpo Rnum) (rs : list (list R)) (w : nat -> R) (ph : nat) (y : utraj).
Let o := mp_ocp mp.
Let cf := mp_cf mp.
Let orders := mp_orders mp.
Let tau (k j : nat) : R := nth j (nth k rs []) 0.
Let last := (total_nodes orders - 1)%nat.
Definition bnd (m : list (list (ext R))) (i : nat) : ext R := nth i (nth ph m []) NaN.

(** user bounds; the first node of phase 0 is fixed to x00[0] instead *)
Definition bounds_ok : Prop :=
  (forall i s, (i < total_nodes orders)%nat -> (s < o_nx o)%nat ->
     if Nat.eqb ph 0 && Nat.eqb i 0 then y_x y i s = nth s (nth 0 (o_x00 o) []) 0
     else within (bnd (o_lbx o) s) (bnd (o_ubx o) s) (y_x y i s)) /\
  (forall i c, (i < total_nodes orders)%nat -> (c < o_nu o)%nat ->
     within (bnd (o_lbu o) c) (bnd (o_ubu o) c) (y_u y i c)) /\
  within (bnd (o_lbt0 o) 0) (bnd (o_ubt0 o) 0) (y_t0 y) /\
  within (bnd (o_lbtf o) 0) (bnd (o_ubtf o) 0) (y_tf y) /\
  (forall i, (i < o_na o)%nat -> within (bnd (o_lba o) i) (bnd (o_uba o) i) (y_a y i)).

(** the polynomial through the values of state s on segment k satisfies the differential
    equation at every collocation point owned by the segment *)
Definition dynamics_ok : Prop :=
  forall i k j s c, owned orders i k j -> (s < o_nx o)%nat ->
    seg_interp orders k (nth k rs []) (fun i => y_x y i s) c ->
    is_derive (peval c) (tau k j)
      (seg_h cf w y k * nth s (dyn_val o ph y i (seg_time cf w y k (tau k j))) 0).

Definition path_ok : Prop :=
  forall i k j c, owned orders i k j ->
    In c (path_val o ph y i (seg_time cf w y k (tau k j))) -> c <= 0.
Definition terminal_ok : Prop := forall c, In c (term_val o ph y last) -> c = 0.

(** optional constraints on the control polynomials *)
Definition slope_ok : Prop :=
  nth ph (o_diff_u o) false = true ->
  forall i k j q c, owned orders i k j -> (q < o_nu o)%nat ->
    seg_interp orders k (nth k rs []) (fun i => y_u y i q) c ->
    within (nth ph (o_lbdu o) NaN) (nth ph (o_ubdu o) NaN)
      (nth q (o_scale_u o) 0 * Derive (peval c) (tau k j)).
Definition midu_ok : Prop :=
  nth ph (o_midu o) false = true ->
  forall k p j q c, nth_error orders k = Some p -> (j < p)%nat -> (q < o_nu o)%nat ->
    seg_interp orders k (nth k rs []) (fun i => y_u y i q) c ->
    within (bnd (o_lbu o) q) (bnd (o_ubu o) q) (peval c ((tau k j + tau k (S j)) / 2)).
Definition ducont_ok : Prop :=
  nth ph (o_ducont o) false = true ->
  forall k q c c', (S k < length orders)%nat -> (q < o_nu o)%nat ->
    seg_interp orders k (nth k rs []) (fun i => y_u y i q) c ->
    seg_interp orders (S k) (nth (S k) rs []) (fun i => y_u y i q) c' ->
    Derive (peval c) (cf_tau1 cf) = Derive (peval c') (cf_tau0 cf).

Definition phase_ok : Prop :=
  dynamics_ok /\ path_ok /\ slope_ok /\ midu_ok /\ ducont_ok /\ terminal_ok.

(** running cost at point j of segment k *)
Definition run_at (k j : nat) : R :=
  run_val o ph y (offset orders k + j) (seg_time cf w y k (tau k j)).
(** [C] is, on every segment, the polynomial through the running cost at the segment's nodes *)
Definition cost_interp (C : nat -> list R) : Prop :=
  forall k, (k < length orders)%nat -> interpolates (C k) (nth k rs []) (run_at k).
(** terminal cost plus the integral of the running cost (dt = seg_h dtau on each segment) *)
Definition phase_cost (C : nat -> list R) : R :=
  mayer_val o ph y last +
  Rsum (length orders) (fun k => seg_h cf w y k * RInt (peval (C k)) (cf_tau0 cf) (cf_tau1 cf)).
(** [B] is, on every segment, the polynomial that is 1 at the segment's first node and 0 at
    its other nodes *)
Definition start_basis (B : nat -> list R) : Prop :=
  forall k, (k < length orders)%nat ->
    interpolates (B k) (nth k rs []) (fun j => if Nat.eqb j 0 then 1 else 0).
(** the part of the running cost carried by the first nodes of all segments but the first *)
Definition start_cost (B : nat -> list R) : R :=
  Rsum (length orders - 1) (fun k =>
    seg_h cf w y (S k) * RInt (peval (B (S k))) (cf_tau0 cf) (cf_tau1 cf) * run_at (S k) 0).
End Discretised.

(** the k-th link (i, j): jumps of the states within the event bounds, controls and time continuous *)
Definition link_ok (mp : mpo Rnum) (ys : nat -> utraj) (k i j : nat) : Prop :=
  let o := mp_ocp mp in
  let last := (total_nodes (mp_orders mp) - 1)%nat in
  (forall s, (s < o_nx o)%nat ->
     within (nth s (nth k (o_lbe o) []) NaN) (nth s (nth k (o_ube o) []) NaN)
       (y_x (ys j) 0 s - y_x (ys i) last s)) /\
  (forall c, (c < o_nu o)%nat -> y_u (ys j) 0 c = y_u (ys i) last c) /\
  y_t0 (ys j) = y_tf (ys i).
Definition links_ok (mp : mpo Rnum) (ys : nat -> utraj) : Prop :=
  (1 < o_nph (mp_ocp mp))%nat ->
  forall k i j, nth_error (o_links (mp_ocp mp)) k = Some (i, j) -> link_ok mp ys k i j.

(** * The same conditions in physical time *)

(** time of the point with reference coordinate tau of segment k *)
Definition node_time (cf : ccfg Rnum) (w : nat -> R) (y : utraj) (k : nat) (tau : R) : R :=
  y_t0 y + (y_tf y - y_t0 y) * (Rsum k w + w k * ((tau - cf_tau0 cf) / (cf_tau1 cf - cf_tau0 cf))).
(** [q] is the polynomial in time through the values [ys] at the nodes of segment k *)
Definition time_interp (mp : mpo Rnum) (rs : list (list R)) (w : nat -> R) (y : utraj) (k : nat)
    (ys : nat -> R) (q : list R) : Prop :=
  interpolates q (map (node_time (mp_cf mp) w y k) (nth k rs []))
    (fun j => ys (offset (mp_orders mp) k + j)%nat).
(** state polynomials satisfy the differential equation at the collocation points *)
Definition dynamics_time_ok (mp : mpo Rnum) (rs : list (list R)) (w : nat -> R) (ph : nat) (y : utraj) : Prop :=
  forall i k j s q, owned (mp_orders mp) i k j -> (s < o_nx (mp_ocp mp))%nat ->
    time_interp mp rs w y k (fun i => y_x y i s) q ->
    let t := node_time (mp_cf mp) w y k (nth j (nth k rs []) 0) in
    is_derive (peval q) t (nth s (dyn_val (mp_ocp mp) ph y i t) 0).
(** slopes of the control polynomials at the collocation points are within lbdu, ubdu *)
Definition slope_time_ok (mp : mpo Rnum) (rs : list (list R)) (w : nat -> R) (ph : nat) (y : utraj) : Prop :=
  let o := mp_ocp mp in
  forall i k j c q, owned (mp_orders mp) i k j -> (c < o_nu o)%nat ->
    time_interp mp rs w y k (fun i => y_u y i c) q ->
    within (nth ph (o_lbdu o) NaN) (nth ph (o_ubdu o) NaN)
      (Derive (peval q) (node_time (mp_cf mp) w y k (nth j (nth k rs []) 0))).
(** slopes of the control polynomials agree at interior segment boundaries *)
Definition ducont_time_ok (mp : mpo Rnum) (rs : list (list R)) (w : nat -> R) (y : utraj) : Prop :=
  let cf := mp_cf mp in
  forall k c q q', (S k < length (mp_orders mp))%nat -> (c < o_nu (mp_ocp mp))%nat ->
    time_interp mp rs w y k (fun i => y_u y i c) q ->
    time_interp mp rs w y (S k) (fun i => y_u y i c) q' ->
    Derive (peval q) (node_time cf w y k (cf_tau1 cf)) = Derive (peval q') (node_time cf w y (S k) (cf_tau0 cf)).
(** no segment has zero duration *)
Definition nondegenerate (mp : mpo Rnum) (w : nat -> R) (y : utraj) : Prop :=
  y_t0 y <> y_tf y /\ forall k, (k < length (mp_orders mp))%nat -> w k <> 0.

(** * Inputs of the nonlinear program *)
Record input_ok (mp : mpo Rnum) (npath nterm : nat -> option nat) (z p : list R) : Prop := {
  in_mpo : mpo_ok mp;
  in_ocp : ocp_ok (mp_ocp mp) npath nterm;
  in_sc : scales_pos (mp_ocp mp);
  in_z : length z = (o_nph (mp_ocp mp) * nvars mp)%nat;
  in_p : length p = (o_nph (mp_ocp mp) * mp_nseg mp)%nat
}.
(** variables of one phase with the dimensions of the problem *)
Definition vars_ok (mp : mpo Rnum) (v : pvars Rnum) : Prop :=
  nr (v_X v) = total_nodes (mp_orders mp) /\ nc (v_X v) = o_nx (mp_ocp mp) /\
  nr (v_U v) = total_nodes (mp_orders mp) /\ nc (v_U v) = o_nu (mp_ocp mp) /\
  length (v_A v) = o_na (mp_ocp mp).
(** the matrices and vector of a trajectory, in scaled units *)
Definition traj_scaled (mp : mpo Rnum) (tr : traj Rnum) (y : utraj) : Prop :=
  let o := mp_ocp mp in let n := total_nodes (mp_orders mp) in
  nr (tr_x tr) = n /\ nc (tr_x tr) = o_nx o /\ nr (tr_u tr) = n /\ nc (tr_u tr) = o_nu o /\ length (tr_a tr) = o_na o /\
  (forall i s, (i < n)%nat -> (s < o_nx o)%nat -> mget (tr_x tr) i s = nth s (o_scale_x o) 0 * y_x y i s) /\
  (forall i c, (i < n)%nat -> (c < o_nu o)%nat -> mget (tr_u tr) i c = nth c (o_scale_u o) 0 * y_u y i c) /\
  (forall i, (i < o_na o)%nat -> nth i (tr_a tr) 0 = nth i (o_scale_a o) 0 * y_a y i).
(** equal variables of one phase *)
Definition vars_eq (v v' : pvars Rnum) : Prop :=
  mat_eq (v_X v) (v_X v') /\ mat_eq (v_U v) (v_U v') /\ v_t0 v = v_t0 v' /\ v_tf v = v_tf v' /\ v_A v = v_A v'.
(** trajectories with the same values *)
Definition same_traj (mp : mpo Rnum) (y y' : utraj) : Prop :=
  let n := total_nodes (mp_orders mp) in
  (forall i s, (i < n)%nat -> (s < o_nx (mp_ocp mp))%nat -> y_x y i s = y_x y' i s) /\
  (forall i c, (i < n)%nat -> (c < o_nu (mp_ocp mp))%nat -> y_u y i c = y_u y' i c) /\
  y_t0 y = y_t0 y' /\ y_tf y = y_tf y' /\
  (forall i, (i < o_na (mp_ocp mp))%nat -> y_a y i = y_a y' i).
(** the same problem with other scales *)
Definition rescale (o : ocp Rnum) (sx su sa : list R) (st : R) : ocp Rnum :=
  Ocp (o_nx o) (o_nu o) (o_na o) (o_nph o) (o_dyn o) (o_path o) (o_mayer o) (o_run o) (o_term o) (o_links o)
    sx su sa st (o_x00 o) (o_xf0 o) (o_u00 o) (o_uf0 o) (o_t00 o) (o_tf0 o) (o_a0 o)
    (o_lbx o) (o_ubx o) (o_lbu o) (o_ubu o) (o_lba o) (o_uba o) (o_lbt0 o) (o_ubt0 o) (o_lbtf o) (o_ubtf o)
    (o_lbe o) (o_ube o) (o_diff_u o) (o_lbdu o) (o_ubdu o) (o_midu o) (o_ducont o).
Definition with_ocp (mp : mpo Rnum) (o : ocp Rnum) : mpo Rnum := Mpo o (mp_nseg mp) (mp_orders mp) (mp_cf mp).
(** scales of the right dimensions, all positive *)
Record scales_for (o : ocp Rnum) (sx su sa : list R) (st : R) : Prop := {
  sf_x : length sx = o_nx o; sf_u : length su = o_nu o; sf_a : length sa = o_na o;
  sf_px : forall s, In s sx -> 0 < s; sf_pu : forall s, In s su -> 0 < s; sf_pa : forall s, In s sa -> 0 < s; sf_pt : 0 < st
}.
(** * Initial guesses *)

(** value at node i of the straight line from a to b over n nodes *)
Definition line (n : nat) (a b : R) (i : nat) : R := a + (b - a) * (INR i / INR (n - 1)).
(** every phase has a guessed duration *)
Definition guess_times_differ (o : ocp Rnum) : Prop :=
  forall ph, (ph < o_nph o)%nat -> nth 0 (nth ph (o_t00 o) []) 0 <> nth 0 (nth ph (o_tf0 o) []) 0.
