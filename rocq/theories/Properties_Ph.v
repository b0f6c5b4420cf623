(** Properties of class mpopt_ph_adaptive. *)
From Coq Require Import String.
From Coq Require Import Reals.
From Coq Require Import List Lia Lra Bool Arith.
From Verif Require Import Num PyList Mat Colloc Ocp Transcribe Solve Hadapt Resid Ph
  Spec SpecOcp SpecHadapt SpecResid SpecPh NumR ExOcp PhR PhRough ExPh.
Import ListNotations.
Open Scope R_scope.
Open Scope list_scope.

(** * C41 *)
(** solve_ph never returns and never calls the solver: it reads a local variable that has no value *)
Theorem C41_solve_raises : forall (N : num) (pc : phcfg (N := N)) run user_sw mp k h, solve_ph pc run user_sw mp k h = (h, Raise UnboundLocalError).
Proof. reflexivity. Qed.
Print Assumptions C41_solve_raises.
Theorem C41_solve_refuted : exists mp pc npath nterm z, mpo_ok mp /\ ocp_ok (mp_ocp mp) npath nterm /\ length z = (o_nph (mp_ocp mp) * nvars mp)%nat /\
  new_ph (mp_ocp mp) (mp_nseg mp) (OList (mp_orders mp)) (mp_cf mp) "spectral" 1 3 16 1 20 9 1 = Ok (mp, pc) /\
  forall k h, snd (solve_ph pc (fun _ _ _ => Ok z) None mp k h) = Raise UnboundLocalError.
Proof.
  exists rich_mp, (Phcfg (N := Rnum) 1 16 1 20 1 1 rich_rc), rich_npath, rich_nterm, rich_z.
  split; [exact rich_mp_ok|]. split; [exact rich_ok|]. split; [apply repeat_length|]. split; reflexivity.
Qed.
Print Assumptions C41_solve_refuted.

(** the limits of the orders contain the initial orders and the limits asked for *)
Theorem C41_limits : forall o n po cf g tol pmin pmax smin smax ng thr, length (orders_of n po) = n -> (1 <= n)%nat ->
  exists mp pc, new_ph (N := Rnum) o n po cf g tol pmin pmax smin smax ng thr = Ok (mp, pc) /\
  mp = Mpo o n (orders_of n po) cf /\ within_limits (ph_min pc) (ph_max pc) (mp_orders mp) /\
  (ph_min pc <= pmin)%nat /\ (pmax <= ph_max pc)%nat /\ (ph_min_seg pc <= n <= ph_max_seg pc)%nat /\
  (ph_min pc = pmin \/ In (ph_min pc) (mp_orders mp)) /\ (ph_max pc = pmax \/ In (ph_max pc) (mp_orders mp)) /\
  ph_tol pc = tol /\ ph_smooth pc = thr /\ ph_rc pc = Rcfg ng (repeat g (o_nph o)).
Proof. exact new_ph_ok. Qed.
Print Assumptions C41_limits.
Theorem C41_limits_raises : forall o n po cf g tol pmin pmax smin smax ng thr, length (orders_of n po) <> n \/ n = 0%nat ->
  exists e, new_ph (N := Rnum) o n po cf g tol pmin pmax smin smax ng thr = Raise e.
Proof. exact new_ph_raises. Qed.
Print Assumptions C41_limits_raises.
Example C41_limits_case : new_ph (N := Rnum) rich 3 (OList [3; 1; 2]%nat) (demo_cf "LGR") "spectral" 1 2 2 1 2 9 1 =
  Ok (rich_mp, Phcfg (N := Rnum) 1 3 1 3 1 1 (Rcfg 9 ["spectral"; "spectral"]%string)).
Proof. reflexivity. Qed.

(** orders are moved to the nearest limit *)
Theorem C41_limited : forall (pc : phcfg (N := Rnum)) orders, (ph_min pc <= ph_max pc)%nat ->
  within_limits (ph_min pc) (ph_max pc) (limit_poly_orders pc orders) /\ length (limit_poly_orders pc orders) = length orders /\
  forall i p, nth_error orders i = Some p -> nth_error (limit_poly_orders pc orders) i =
    Some (if p <? ph_min pc then ph_min pc else if ph_max pc <? p then ph_max pc else p)%nat.
Proof. exact limited_ok. Qed.
Print Assumptions C41_limited.
Example C41_limited_case : limit_poly_orders (Phcfg (N := Rnum) 3 16 1 20 1 1 rich_rc) [1; 5; 18]%nat = [3; 5; 16]%nat.
Proof. reflexivity. Qed.

(** a mesh update halves the marked segments: widths that partition the phase still do *)
Theorem C41_mesh_update : forall orders (sw : list R) marks, length orders = length marks -> partition (length marks) sw ->
  exists os ws, split_mesh (N := Rnum) orders sw marks = Ok (os, ws) /\ partition (length os) ws /\
    combine os ws = refined (combine orders sw) marks /\ forall p, In p os <-> In p orders.
Proof. exact split_partition. Qed.
Print Assumptions C41_mesh_update.
(** any widths, of which there are enough *)
Theorem C41_mesh_total : forall orders (sw : list R) marks, length orders = length marks -> (length marks <= length sw)%nat ->
  exists os ws, split_mesh (N := Rnum) orders sw marks = Ok (os, ws) /\
    combine os ws = refined (combine orders sw) marks /\ length os = length ws /\ total ws = total (firstn (length marks) sw) /\
    (forall p, In p os <-> In p orders) /\ ((forall w, In w sw -> 0 < w) -> forall w, In w ws -> 0 < w).
Proof. exact split_ok. Qed.
Print Assumptions C41_mesh_total.
Example C41_mesh_case : partition 2 [1 / 4; 3 / 4] /\
  refined (combine [3; 5]%nat [1 / 4; 3 / 4]) [true; false] = [(3%nat, 1 / 4 / 2); (3%nat, 1 / 4 / 2); (5%nat, 3 / 4)].
Proof. split; [|reflexivity]. split; [reflexivity|]. split; [intros w [<-|[<-|[]]]; lra|cbn; lra]. Qed.

(** the residual of a segment is the largest magnitude among its points and states *)
Theorem C41_residual : forall nx (s : segstate (N := Rnum)), (0 < nx)%nat -> ss_r s <> [] ->
  exists m, seg_residual (N := Rnum) nx (Some s) = Ok m /\ (forall row j, In row (ss_r s) -> (j < nx)%nat -> Rabs (nth j row 0) <= m) /\
    exists row j, In row (ss_r s) /\ (j < nx)%nat /\ m = Rabs (nth j row 0).
Proof. exact residual_thm. Qed.
Print Assumptions C41_residual.
(** the last phase with a segment above the tolerance decides: the orders of these segments grow by three *)
Theorem C41_raised : forall orders sts,
  ((forall st, In st sts -> ~ In true st) -> raise_orders orders sts = orders) /\
  forall pre st post, sts = pre ++ st :: post -> In true st -> (forall st', In st' post -> ~ In true st') -> length st = length orders ->
    length (raise_orders orders sts) = length orders /\
    forall i p b, nth_error orders i = Some p -> nth_error st i = Some b -> nth_error (raise_orders orders sts) i = Some (if b then p + 3 else p)%nat.
Proof. exact raised_thm. Qed.
Print Assumptions C41_raised.
(** a segment is not smooth iff a second derivative exceeds, in magnitude, the threshold times the largest of the old ones of its state *)
Theorem C41_rough : forall (pc : phcfg (N := Rnum)) nx (new old : segdd (N := Rnum)), sd_x old <> [] ->
  exists (m : nat -> R) b, rough pc nx (Some new) (Some old) = Ok b /\
    (forall j, (j < nx)%nat -> (forall row, In row (sd_x old) -> Rabs (nth j row 0) <= m j) /\ exists row, In row (sd_x old) /\ m j = Rabs (nth j row 0)) /\
    (b = true <-> exists j row, (j < nx)%nat /\ In row (sd_x new) /\ ph_smooth pc < Rabs (nth j row 0) / m j).
Proof. exact rough_thm. Qed.
Print Assumptions C41_rough.
Example C41_raised_case : raise_orders [3; 4; 5]%nat [[true; true; true]; [false; true; false]; [false; false; false]] = [3; 7; 5]%nat.
Proof. reflexivity. Qed.

(** what solve_ph would do with a value for grid_type.  Missing from C41: it is not reached; widths of
    the updated mesh never get to the solver (every call has equal widths, or the widths of
    mpopt_options); a solution is returned when one phase, not every phase, meets the tolerance *)
Theorem C41_rest_partial : forall (pc : phcfg (N := Rnum)) run user_sw (mp : mpo Rnum) k h h' r,
  length (mp_orders mp) = mp_nseg mp -> (ph_min pc <= ph_max pc)%nat -> within_limits (ph_min pc) (ph_max pc) (mp_orders mp) ->
  ph_rest pc run user_sw mp k h = (h', r) ->
  exists runs, h' = h ++ runs /\ Forall (run_ok (mp_ocp mp) (mp_cf mp) (ph_min pc) (ph_max pc) user_sw) runs /\ (length runs <= 2 * k)%nat /\
  match r with
  | Raise _ => True
  | Ok z => exists h0 m w rs, h' = h0 ++ [(m, w)] /\ run h0 m w = Ok z /\ states_residuals (ph_rc pc) m w z None None true = Ok rs /\
      map fst rs = seq 0 (o_nph (mp_ocp mp)) /\
      ((exists ph segs, In (ph, segs) rs /\ phase_met (o_nx (mp_ocp mp)) (ph_tol pc) segs) \/ length runs = (2 * k)%nat)
  end.
Proof. exact rest_ok. Qed.
Print Assumptions C41_rest_partial.
Example C41_rest_case : length (mp_orders rich_mp) = mp_nseg rich_mp /\ within_limits 1 16 (mp_orders rich_mp) /\
  exists tol, forall k, ph_rest (Phcfg (N := Rnum) 1 16 1 20 tol 1 rich_rc) (same_run rich_z) None rich_mp (S k) [] =
    ([(rich_mp, equal_widths rich_mp)], Ok rich_z).
Proof. split; [reflexivity|]. split; [|exact rich_returns]. intros p [<-|[<-|[<-|[]]]]; lia. Qed.
