(** Properties of problems filled in by assigning to entries of the attributes. *)
From Coq Require Import Reals ZArith Bool.
From Coq Require Import List.
From Verif Require Import Num PyList Mat Roots Colloc Ocp Transcribe Objects Assign SpecOcp SpecAssign AssignR ExAssign.
Import ListNotations.
Open Scope R_scope.

(** ** C63 *)
(** a program of assignments runs to its end if and only if every assignment fits *)
Theorem C63_runs : forall nx nu nph na (l : list (assign Rnum)),
  (exists o, build nx nu nph na l = Ok o) <-> (1 <= nph)%nat /\ forall x, In x l -> fits nx nu nph na x.
Proof. exact build_ok. Qed.
Print Assumptions C63_runs.
(** every entry of a bound is the value given to it last, or the default *)
Theorem C63_bounds : forall nx nu nph na l o a, build nx nu nph na l = Ok o ->
  length (bound o a) = brows nph a /\ (forall row, In row (bound o a) -> length row = bwidth nx nu na a) /\
  forall k c, (k < brows nph a)%nat -> (c < bwidth nx nu na a)%nat ->
    comes_to (gives_bound nx nu nph na a k c) l eq (bdefault a k) (nth c (nth k (bound o a) []) NaN).
Proof. intros nx nu nph na l o a H. exact (built_bound nx nu nph na l o H a). Qed.
Print Assumptions C63_bounds.
(** ... of the initial guess *)
Theorem C63_guesses : forall nx nu nph na l o a, build nx nu nph na l = Ok o ->
  length (guess o a) = nph /\ (forall row, In row (guess o a) -> length row = gwidth nx nu na a) /\
  forall k c, (k < nph)%nat -> (c < gwidth nx nu na a)%nat ->
    comes_to (gives_guess nx nu nph na a k c) l eq (gdefault a) (nth c (nth k (guess o a) []) 0).
Proof. intros nx nu nph na l o a H. exact (built_guess nx nu nph na l o H a). Qed.
Print Assumptions C63_guesses.
(** ... so are the functions *)
Theorem C63_functions : forall nx nu nph na l o, build nx nu nph na l = Ok o -> forall k, (k < nph)%nat ->
  comes_to (gives_dynamics nph k) l eq (fun _ _ _ _ => Ok (repeat 0 nx)) (nth k (o_dyn o) (fun _ _ _ _ => Raise KeyError)) /\
  comes_to (gives_path nph k) l eq (fun _ _ _ _ => Ok None) (nth k (o_path o) (fun _ _ _ _ => Raise KeyError)) /\
  comes_to (gives_mayer nph k) l eq (fun _ _ _ _ _ => Ok (Some 0)) (nth k (o_mayer o) (fun _ _ _ _ _ => Raise KeyError)) /\
  comes_to (gives_running nph k) l eq (fun _ _ _ _ => Ok (Some 0)) (nth k (o_run o) (fun _ _ _ _ => Raise KeyError)) /\
  comes_to (gives_terminal nph k) l eq (fun _ _ _ _ _ => Ok None) (nth k (o_term o) (fun _ _ _ _ _ => Raise KeyError)).
Proof. exact built_functions. Qed.
Print Assumptions C63_functions.
(** ... and the scales *)
Theorem C63_scales : forall nx nu nph na l o, build nx nu nph na l = Ok o ->
  comes_to (fun x v => x = SetScaleX v) l eq (repeat 1 nx) (o_scale_x o) /\
  comes_to (fun x v => x = SetScaleU v) l eq (repeat 1 nu) (o_scale_u o) /\
  comes_to (fun x v => x = SetScaleA v) l eq (repeat 1 na) (o_scale_a o) /\
  comes_to (fun x v => x = SetScaleT v) l eq 1 (o_scale_t o).
Proof. exact built_scales. Qed.
Print Assumptions C63_scales.
(** the switches and the slope bounds are the values given last cut to integers, or the default *)
Theorem C63_switches : forall nx nu nph na l o, build nx nu nph na l = Ok o ->
  (forall a, length (switch o a) = nph /\ forall k, (k < nph)%nat ->
     comes_to (gives_switch nph a k) l kept_switch (idefault a) (nth k (switch o a) false)) /\
  (forall a, length (slope o a) = nph /\ forall k, (k < nph)%nat ->
     comes_to (gives_slope nph a k) l kept_slope (Fin (ddefault a)) (nth k (slope o a) NaN)).
Proof. intros nx nu nph na l o H. split; intros a; [exact (built_switch nx nu nph na l o H a)|exact (built_slope nx nu nph na l o H a)]. Qed.
Print Assumptions C63_switches.
(** the program made of a problem built this way exists if and only if its bounds are in order and
    its functions return what they should *)
Theorem C63_well_formed : forall nx nu nph na l o npath nterm, build nx nu nph na l = Ok o -> scales_fit o ->
  (shapes_ok o <-> bounds_ordered o) /\
  (ocp_ok o npath nterm <-> (1 <= nx)%nat /\ bounds_ordered o /\ functions_ok o npath nterm /\
     (nu = 0%nat -> forall ph, nth ph (o_diff_u o) false = false /\ nth ph (o_ducont o) false = false)).
Proof.
  intros nx nu nph na l o npath nterm H Hs. split; [exact (built_shapes nx nu nph na l o H Hs)|exact (built_ok nx nu nph na l o H npath nterm Hs)].
Qed.
Print Assumptions C63_well_formed.
(** PARTIAL: the bounds on the slopes should be the ones given, as all other bounds are; they are
    for integers only *)
Theorem C63_slopes_partial : forall x f, kept_slope (Fin x) f -> (f = Fin x <-> exists k, x = IZR k).
Proof. exact kept_exact. Qed.
Print Assumptions C63_slopes_partial.
(** the full property is false: with slopes bounded by 1/2 a control of slope 1/16 is infeasible *)
Theorem C63_slopes_refuted : exists nx nu nph na l o mp z p n n',
  build nx nu nph na l = Ok o /\ last_given (gives_slope nph Dlbdu 0) l (Fin (-1 / 2)) /\ last_given (gives_slope nph Dubdu 0) l (Fin (1 / 2)) /\
  mp_ocp mp = o /\ input_ok mp (fun _ => None) (fun _ => None) z p /\
  nlp_at mp z p = Ok n /\ nlp_at (with_ocp mp (with_slopes o [Fin (-1 / 2)] [Fin (1 / 2)])) z p = Ok n' /\ feasible n' /\ ~ feasible n.
Proof. exact half_wrong. Qed.
Print Assumptions C63_slopes_refuted.
(** ... and the slopes cannot be left unbounded on one side *)
Theorem C63_unbounded_refuted : forall nx nu nph na l1 l2 a i (v : ext R), v = PInf \/ v = NInf \/ v = NaN ->
  ~ exists o, build nx nu nph na (l1 ++ SetSlope a i v :: l2) = Ok o.
Proof. exact no_infinite. Qed.
Print Assumptions C63_unbounded_refuted.

Example C63_example : exists o, build 2 1 1 0 lander = Ok o /\ nth 0 (nth 0 (o_lbu o) []) NaN = Fin 0 /\
  nth 1 (nth 0 (o_lbx o) []) NaN = Fin (-20) /\ ocp_ok o (fun _ => None) (fun _ => Some 2%nat).
Proof. exact lander_built. Qed.
Example C63_example_fits : forall x, In x lander -> fits 2 1 1 0 x.
Proof. exact lander_fits. Qed.
Example C63_example_slopes : build 1 1 1 0 half_list = Ok (sloped (Fin 0) (Fin 0)).
Proof. exact half_built. Qed.
Example C63_example_cut : kept_slope (Fin 7) (Fin 7).
Proof. exists 7, 7%Z. split; [reflexivity|]. split; [exact (cut_int 7)|reflexivity]. Qed.
