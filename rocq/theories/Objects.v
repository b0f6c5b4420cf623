(** Object identity at construction of an optimizer, mpopt.py:56-93.

    [OCP] objects and lists of orders live in a store; addresses are positions.  mpopt.__init__
    deep-copies the OCP ([copy.deepcopy(problem)], line 77).  deepcopy copies numpy arrays and
    lists but shares function objects, and the default dynamics of an OCP is a closure over
    that OCP: [lambda x, u, t, a=None: [0] * self.nx] (line 3426).  A list of orders is kept by
    reference (lines 72-74); an integer gives a new list. *)
From Coq Require Import List Arith.
From Verif Require Import Num PyList Mat Roots Colloc Ocp Transcribe.
Import ListNotations.
Set Implicit Arguments.
Unset Strict Implicit.

Section Objects.
Context {N : num}.

(** an entry of OCP.dynamics: a function given by the user, or the default of the OCP at an address *)
Inductive dynref := DUser (f : dyn_fn (N := N)) | DDefault (owner : nat).
(** an OCP object: all attributes but the dynamics, and the entries of the dynamics *)
Record ocp_obj := OcpObj { ob_data : ocp N; ob_dyn : list dynref }.
Record store := Store { s_ocps : list ocp_obj; s_lists : list (list nat) }.

(** what calling an entry does now *)
Definition call_dyn (s : store) (d : dynref) : dyn_fn (N := N) :=
  match d with
  | DUser f => f
  | DDefault a => fun _ _ _ _ =>
      match nth_error (s_ocps s) a with
      | Some ob => Ok (repeat n0 (o_nx (ob_data ob)))
      | None => Raise IndexError
      end
  end.
Definition with_dyn (o : ocp N) (d : list (dyn_fn (N := N))) : ocp N :=
  Ocp (o_nx o) (o_nu o) (o_na o) (o_nph o) d (o_path o) (o_mayer o) (o_run o) (o_term o) (o_links o)
    (o_scale_x o) (o_scale_u o) (o_scale_a o) (o_scale_t o) (o_x00 o) (o_xf0 o) (o_u00 o) (o_uf0 o)
    (o_t00 o) (o_tf0 o) (o_a0 o) (o_lbx o) (o_ubx o) (o_lbu o) (o_ubu o) (o_lba o) (o_uba o)
    (o_lbt0 o) (o_ubt0 o) (o_lbtf o) (o_ubtf o) (o_lbe o) (o_ube o) (o_diff_u o) (o_lbdu o) (o_ubdu o)
    (o_midu o) (o_ducont o).
(** the problem an object stands for at this moment *)
Definition ocp_now (s : store) (a : nat) : option (ocp N) :=
  match nth_error (s_ocps s) a with
  | Some ob => Some (with_dyn (ob_data ob) (map (call_dyn s) (ob_dyn ob)))
  | None => None
  end.

(** the optimizer object *)
Record mp_obj := MpObj { m_ocp : nat; m_nseg : nat; m_orders : nat; m_cf : ccfg N }.
Inductive orders_ref := RInt (p : nat) | RList (addr : nat).

(** OCP(n_states, n_controls, n_phases, n_params): a new object at the end of the store *)
Definition make_ocp (s : store) (nx nu nph na : nat) : res (store * nat) :=
  o <- new_ocp nx nu nph na ;;
  let a := length (s_ocps s) in
  Ok (Store (s_ocps s ++ [OcpObj o (repeat (DDefault a) nph)]) (s_lists s), a).

(** mpopt(problem, n_segments, poly_orders, scheme) *)
Definition make_mpo (s : store) (problem n_segments : nat) (po : orders_ref) (cf : ccfg N) : res (store * mp_obj) :=
  let '(lists, addr) := match po with
    | RInt p => (s_lists s ++ [repeat p n_segments], length (s_lists s))
    | RList a => (s_lists s, a)
    end in
  ob <- at_ (s_ocps s) problem ;;
  l <- at_ lists addr ;;
  _ <- assert_ (Nat.eqb (length l) n_segments) ;;
  Ok (Store (s_ocps s ++ [ob]) lists, MpObj (length (s_ocps s)) n_segments addr cf).

(** the optimizer as the transcription sees it *)
Definition mpo_now (s : store) (m : mp_obj) : option (mpo N) :=
  match ocp_now s (m_ocp m), nth_error (s_lists s) (m_orders m) with
  | Some o, Some l => Some (Mpo o (m_nseg m) l (m_cf m))
  | _, _ => None
  end.

(** the user changes an OCP or a list *)
Inductive ustep := USetOcp (a : nat) (ob : ocp_obj) | USetList (a : nat) (l : list nat).
Fixpoint set_nth {A} (l : list A) (i : nat) (x : A) : list A :=
  match l, i with
  | [], _ => []
  | _ :: t, 0 => x :: t
  | a :: t, S j => a :: set_nth t j x
  end.
Definition ustep_run (s : store) (u : ustep) : store :=
  match u with
  | USetOcp a ob => Store (set_nth (s_ocps s) a ob) (s_lists s)
  | USetList a l => Store (s_ocps s) (set_nth (s_lists s) a l)
  end.
Definition usteps (s : store) (us : list ustep) : store := fold_left ustep_run us s.
(** steps of a user who holds the OCP addresses below [a] and the list addresses below [b] *)
Definition holds (a b : nat) (u : ustep) : Prop :=
  match u with USetOcp i _ => i < a | USetList i _ => i < b end.
End Objects.
Arguments store N : clear implicits.
Arguments mp_obj N : clear implicits.
Arguments ocp_obj N : clear implicits.
Arguments ustep N : clear implicits.
