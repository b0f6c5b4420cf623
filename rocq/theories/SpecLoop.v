(** Specification of when the refinement of segment widths ends: independent of the loop that
    carries it out. *)
From Coq Require Import String Reals List Arith.
From Verif Require Import Num PyList Ocp Transcribe Solve SpecSolve NumR.
Import ListNotations.
Open Scope R_scope.
Open Scope list_scope.

(** one round: the widths the program was solved with, the solution, and the widths and error
    the refinement rule computes from them *)
Record round := Round { rd_widths : list R; rd_sol : sdict (N := Rnum); rd_next : list R; rd_err : option R }.

(** the rule that [options] choose *)
Definition even (mp : mpo Rnum) : list R := repeat (1 / INR (mp_nseg mp)) (mp_nseg mp * o_nph (mp_ocp mp)).
Definition rule (mp : mpo Rnum) (H : hcfg (N := Rnum)) (options : odict (N := Rnum)) (w : list R) (sol : sdict (N := Rnum))
    : res (list R * option R) :=
  if Nat.eqb (mp_nseg mp) 1 then Ok (even mp, None)
  else match dget String.eqb options "method"%string with
  | Some (VStr m) =>
      if String.eqb m "control_slope" then h_slope H w sol
      else if String.eqb m "residual" then
        h_resid H (match dget String.eqb options "sub_method"%string with
                   | Some (VStr t) => t | Some _ => ""%string | None => "equal_area"%string end) w sol
      else Ok (even mp, None)
  | _ => Ok (even mp, None)
  end.

(** the widths a run starts from and the error known then: [stored] are the widths the object
    remembers, [init] the given solution *)
Definition start (mp : mpo Rnum) (H : hcfg (N := Rnum)) (options : odict (N := Rnum)) (stored : option (list R))
    (init : option (sdict (N := Rnum))) : res (list R * option R) :=
  match init with
  | None => Ok (even mp, None)
  | Some x => rule mp H options (match stored with Some w => w | None => even mp end) x
  end.

(** the error is known and below every tolerance *)
Definition converged (tols : list R) (e : option R) : Prop :=
  exists x, e = Some x /\ forall t, In t tols -> x < t.
(** five or more errors, the last one within 5% of the mean of the last four *)
Definition settled (es : list (option R)) : Prop :=
  exists pre a b c d, es = pre ++ [Some a; Some b; Some c; Some d] /\ pre <> [] /\
    Rabs (d - (a + b + c + d) / 4) < 5 / 100 * Rabs d.
(** no width changes by more than 5% *)
Definition same_widths (v w : list R) : Prop :=
  forall i, (i < List.length v)%nat -> Rabs (nth i v 0 - nth i w 0) / nth i v 0 <= 5 / 100.

(** the rounds so far end the refinement before the limit is reached *)
Definition over (tols : list R) (l : list round) : Prop :=
  exists pre x, l = pre ++ [x] /\
    (converged tols (rd_err x) \/ settled (map rd_err l) \/ same_widths (rd_next x) (rd_widths x)).

(** rounds of a refinement of at most [n] rounds that starts from the widths [w] *)
Record refinement (r : list R -> sdict (N := Rnum) -> res (list R * option R)) (tols : list R) (n : nat) (w : list R)
    (l : list round) : Prop := {
  rf_some : (1 <= List.length l <= n)%nat;
  rf_first : forall x l', l = x :: l' -> rd_widths x = w;
  rf_next : forall pre x y post, l = pre ++ x :: y :: post -> rd_widths y = rd_next x;
  rf_rule : forall x, In x l -> r (rd_widths x) (rd_sol x) = Ok (rd_next x, rd_err x);
  rf_go : forall pre post, l = pre ++ post -> post <> [] -> ~ over tols pre;
  rf_stop : List.length l = n \/ over tols l
}.
(** the options choose a rule that looks at residuals *)
Definition refines (options : odict (N := Rnum)) : Prop :=
  exists m, dget String.eqb options "method"%string = Some (VStr m) /\ (m = "control_slope" \/ m = "residual")%string.
