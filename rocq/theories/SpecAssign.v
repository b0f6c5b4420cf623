(** What a problem that was filled in entry by entry should contain: for every attribute and phase
    the value given last, or the default.  Uses the types of the model (attributes, assignments),
    none of its functions. *)
From Coq Require Import Reals ZArith Bool.
From Coq Require Import List.
From Verif Require Import Num PyList Mat Roots Colloc Ocp Transcribe Objects Assign SpecOcp.
Import ListNotations.
Open Scope R_scope.

(** the attributes *)
Definition guess (o : ocp Rnum) (a : gattr) : list (list R) :=
  match a with
  | Gx00 => o_x00 o | Gxf0 => o_xf0 o | Gu00 => o_u00 o | Guf0 => o_uf0 o | Gt00 => o_t00 o | Gtf0 => o_tf0 o | Ga0 => o_a0 o
  end.
Definition bound (o : ocp Rnum) (a : battr) : list (list (ext R)) :=
  match a with
  | Blbx => o_lbx o | Bubx => o_ubx o | Blbu => o_lbu o | Bubu => o_ubu o | Blba => o_lba o | Buba => o_uba o
  | Blbt0 => o_lbt0 o | Bubt0 => o_ubt0 o | Blbtf => o_lbtf o | Bubtf => o_ubtf o | Blbe => o_lbe o | Bube => o_ube o
  end.
Definition switch (o : ocp Rnum) (a : iattr) : list bool :=
  match a with Idiff_u => o_diff_u o | Imidu => o_midu o | Idu_continuity => o_ducont o end.
Definition slope (o : ocp Rnum) (a : dattr) : list (ext R) :=
  match a with Dlbdu => o_lbdu o | Dubdu => o_ubdu o end.

Section Dim.
Variables (nx nu nph na : nat).
(** length of a row, number of rows, default values *)
Definition gwidth (a : gattr) : nat :=
  match a with Gx00 | Gxf0 => nx | Gu00 | Guf0 => nu | Gt00 | Gtf0 => 1 | Ga0 => na end.
Definition gdefault (a : gattr) : R := match a with Gtf0 => 1 | _ => 0 end.
Definition bwidth (a : battr) : nat :=
  match a with
  | Blbx | Bubx | Blbe | Bube => nx | Blbu | Bubu => nu | Blba | Buba => na
  | Blbt0 | Bubt0 | Blbtf | Bubtf => 1
  end.
Definition brows (a : battr) : nat := match a with Blbe | Bube => nph - 1 | _ => nph end.
Definition bdefault (a : battr) (ph : nat) : ext R :=
  match a with
  | Blbx | Blbu | Blba => NInf
  | Bubx | Bubu | Buba | Bubtf => PInf
  | Blbt0 | Blbtf | Blbe | Bube => Fin 0
  | Bubt0 => if Nat.eqb ph 0 then Fin 0 else PInf
  end.
Definition idefault (a : iattr) : bool := match a with Imidu => true | _ => false end.
Definition ddefault (a : dattr) : R := match a with Dlbdu => -15 | Dubdu => 15 end.

(** index [i] means entry [k] of [n]: counted from the start or from the end *)
Definition means (n : nat) (i : Z) (k : nat) : Prop :=
  (k < n)%nat /\ (i = Z.of_nat k \/ i = (Z.of_nat k - Z.of_nat n)%Z).
(** the last of the assignments [l] that [P] relates to a value gives [v] *)
Definition last_given {V} (P : assign Rnum -> V -> Prop) (l : list (assign Rnum)) (v : V) : Prop :=
  exists l1 x l2, l = l1 ++ x :: l2 /\ P x v /\ forall y w, In y l2 -> ~ P y w.
Definition never_given {V} (P : assign Rnum -> V -> Prop) (l : list (assign Rnum)) : Prop :=
  forall y w, In y l -> ~ P y w.
(** the value found in the end: the last one given or else the default *)
Definition comes_to {V A} (P : assign Rnum -> V -> Prop) (l : list (assign Rnum)) (R : V -> A -> Prop) (dft found : A) : Prop :=
  (exists v, last_given P l v /\ R v found) \/ (never_given P l /\ found = dft).

(** what is assigned to a row of [w] entries gives its entry [c] the value [e] *)
Definition row_gives {T} (w : nat) (v : rowval T) (c : nat) (e : T) : Prop :=
  match v with
  | One a => a = e
  | Row l => (length l = w /\ nth_error l c = Some e) \/ l = [e]
  | Entry j a => means w j c /\ a = e
  end.
Definition gives_guess (a : gattr) (k c : nat) (x : assign Rnum) (e : R) : Prop :=
  exists i v, x = SetGuess a i v /\ means nph i k /\ row_gives (gwidth a) v c e.
Definition gives_bound (a : battr) (k c : nat) (x : assign Rnum) (e : ext R) : Prop :=
  exists i v, x = SetBound a i v /\ means (brows a) i k /\ row_gives (bwidth a) v c e.
Definition gives_switch (a : iattr) (k : nat) (x : assign Rnum) (v : ext R) : Prop :=
  exists i, x = SetSwitch a i v /\ means nph i k.
Definition gives_slope (a : dattr) (k : nat) (x : assign Rnum) (v : ext R) : Prop :=
  exists i, x = SetSlope a i v /\ means nph i k.
Definition gives_dynamics (k : nat) (x : assign Rnum) f : Prop := exists i, x = SetDynamics i f /\ means nph i k.
Definition gives_path (k : nat) (x : assign Rnum) f : Prop := exists i, x = SetPath i f /\ means nph i k.
Definition gives_mayer (k : nat) (x : assign Rnum) f : Prop := exists i, x = SetMayer i f /\ means nph i k.
Definition gives_running (k : nat) (x : assign Rnum) f : Prop := exists i, x = SetRunning i f /\ means nph i k.
Definition gives_terminal (k : nat) (x : assign Rnum) f : Prop := exists i, x = SetTerminal i f /\ means nph i k.

(** [k] is [x] cut to an integer *)
Definition cut (x : R) (k : Z) : Prop := Rabs (IZR k) <= Rabs x /\ Rabs (x - IZR k) < 1 /\ 0 <= x * IZR k.
(** a slope bound or switch as it is kept *)
Definition kept_slope (v : ext R) (found : ext R) : Prop := exists x k, v = Fin x /\ cut x k /\ found = Fin (IZR k).
Definition kept_switch (v : ext R) (found : bool) : Prop := exists x k, v = Fin x /\ cut x k /\ found = negb (k =? 0)%Z.

(** the assignment can be made *)
Definition fits_row {T} (n w : nat) (i : Z) (v : rowval T) : Prop :=
  (exists k, means n i k) /\ match v with One _ => True | Row l => length l = w \/ length l = 1%nat | Entry j _ => exists c, means w j c end.
Definition fits_int (v : ext R) : Prop := exists x k, v = Fin x /\ cut x k /\ (- 2 ^ 63 <= k < 2 ^ 63)%Z.
Definition fits (x : assign Rnum) : Prop :=
  match x with
  | SetGuess a i v => fits_row nph (gwidth a) i v
  | SetBound a i v => fits_row (brows a) (bwidth a) i v
  | SetSwitch _ i v | SetSlope _ i v => (exists k, means nph i k) /\ fits_int v
  | SetDynamics i _ | SetPath i _ | SetMayer i _ | SetRunning i _ | SetTerminal i _ => exists k, means nph i k
  | _ => True
  end.
End Dim.

(** all lower bounds are below the upper bounds *)
Definition bounds_ordered (o : ocp Rnum) : Prop :=
  ordered (o_lbx o) (o_ubx o) (o_nph o) (o_nx o) /\ ordered (o_lbu o) (o_ubu o) (o_nph o) (o_nu o) /\
  ordered (o_lba o) (o_uba o) (o_nph o) (o_na o) /\ ordered (o_lbt0 o) (o_ubt0 o) (o_nph o) 1 /\
  ordered (o_lbtf o) (o_ubtf o) (o_nph o) 1 /\ ordered (o_lbe o) (o_ube o) (o_nph o - 1) (o_nx o).
(** the scaling arrays have as many entries as there are variables *)
Definition scales_fit (o : ocp Rnum) : Prop :=
  length (o_scale_x o) = o_nx o /\ length (o_scale_u o) = o_nu o /\ length (o_scale_a o) = o_na o.

(** the user functions accept their arguments and return what their names say *)
Definition functions_ok (o : ocp Rnum) (npath nterm : nat -> option nat) : Prop :=
  (forall ph f x u t a, nth_error (o_dyn o) ph = Some f -> length x = o_nx o -> length u = o_nu o -> arg_ok o a ->
    exists d, f x u t a = Ok d /\ length d = o_nx o) /\
  (forall ph f x u t a, nth_error (o_run o) ph = Some f -> length x = o_nx o -> length u = o_nu o -> arg_ok o a ->
    exists c, f x u t a = Ok (Some c)) /\
  (forall ph f xf tf x0 t0 a, nth_error (o_mayer o) ph = Some f -> length xf = o_nx o -> length x0 = o_nx o -> arg_ok o a ->
    exists c, f xf tf x0 t0 a = Ok (Some c)) /\
  (forall ph f x u t a, nth_error (o_path o) ph = Some f -> length x = o_nx o -> length u = o_nu o -> arg_ok o a ->
    match npath ph with None => f x u t a = Ok None | Some n => exists c, f x u t a = Ok (Some c) /\ length c = n end) /\
  (forall ph f xf tf x0 t0 a, nth_error (o_term o) ph = Some f -> length xf = o_nx o -> length x0 = o_nx o -> arg_ok o a ->
    match nterm ph with None => f xf tf x0 t0 a = Ok None | Some n => exists c, f xf tf x0 t0 a = Ok (Some c) /\ length c = n end).
(** the problem with other bounds on the slopes of the controls *)
Definition with_slopes (o : ocp Rnum) (lo hi : list (ext R)) : ocp Rnum :=
  Ocp (o_nx o) (o_nu o) (o_na o) (o_nph o) (o_dyn o) (o_path o) (o_mayer o) (o_run o) (o_term o) (o_links o)
    (o_scale_x o) (o_scale_u o) (o_scale_a o) (o_scale_t o) (o_x00 o) (o_xf0 o) (o_u00 o) (o_uf0 o)
    (o_t00 o) (o_tf0 o) (o_a0 o) (o_lbx o) (o_ubx o) (o_lbu o) (o_ubu o) (o_lba o) (o_uba o)
    (o_lbt0 o) (o_ubt0 o) (o_lbtf o) (o_ubtf o) (o_lbe o) (o_ube o) (o_diff_u o) lo hi
    (o_midu o) (o_ducont o).
