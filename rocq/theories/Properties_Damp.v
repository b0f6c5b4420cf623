(** Property C93: feasible points are damped on every Radau mesh. *)
From Coq Require Import Reals Arith Lia Lra String List.
From Verif Require Import Num PyList Mat Poly Roots Colloc Ocp Transcribe Spec SpecOcp SpecHadapt SpecTrack SpecDamp NumR DampR ExOcp ExDeterm ExContract ExDamp.
Import ListNotations.
Open Scope R_scope.
Open Scope list_scope.

(** * C93 *)
(** if the right sides within the bounds do not point away from [e], no feasible point moves away from [e] from one end of a segment to a later one;
    Radau nodes or segments of degree one of any length *)
Theorem C93_damped : forall (mp : mpo Rnum) npath nterm (z p : list R) n ph e, input_ok mp npath nterm z p -> widths_ok (mp_nseg mp) (o_nph (mp_ocp mp)) p -> nlp_at mp z p = Ok n -> feasible n -> (ph < o_nph (mp_ocp mp))%nat ->
  (forall q, In q (mp_orders mp) -> cf_scheme (mp_cf mp) = "LGR"%string \/ q = 1%nat) -> let o := mp_ocp mp in let y := user_traj mp z ph in y_t0 y < y_tf y -> damped o ph (a_of o y) (y_t0 y) (y_tf y) e ->
  (forall k k', (k <= k')%nat -> (k' <= length (mp_orders mp))%nat -> energy o e (y_x y (offset (mp_orders mp) k')) <= energy o e (y_x y (offset (mp_orders mp) k))) /\
  (ph = 0%nat -> forall k, (k <= length (mp_orders mp))%nat -> energy o e (y_x y (offset (mp_orders mp) k)) <= energy o e (fun s => nth s (nth 0 (o_x00 o) []) 0)).
Proof. exact damp_thm. Qed.
Print Assumptions C93_damped.
(** a distance that the state equations keep need not be kept by feasible points *)
Theorem C93_kept_refuted : exists (mp : mpo Rnum) npath nterm (z p : list R) n, input_ok mp npath nterm z p /\ widths_ok (mp_nseg mp) (o_nph (mp_ocp mp)) p /\ nlp_at mp z p = Ok n /\ feasible n /\
  (forall q, In q (mp_orders mp) -> cf_scheme (mp_cf mp) = "LGR"%string \/ q = 1%nat) /\ let o := mp_ocp mp in let y := user_traj mp z 0 in y_t0 y < y_tf y /\
  (forall t u x, Rsum (o_nx o) (fun s => (x s - 0) * nth s (rhs o 0 (a_of o y) x u t) 0) = 0) /\
  energy o (fun _ => 0) (y_x y (offset (mp_orders mp) 1)) = 4 /\ energy o (fun _ => 0) (y_x y (offset (mp_orders mp) 2)) = 2.
Proof.
  destruct swerved_point as (z & n & Lz & (X & U & T0 & TF & _) & En & F). exists (orbit_mp 2 0 [1; 1]%nat "LGR"), (fun _ => None), (fun _ => None), z, [1 / 2; 1 / 2], n.
  split; [exact (orbit_in 2 0 [1; 1]%nat "LGR" z eq_refl ones_pos ltac:(cbn; auto) Lz)|]. split; [exact halves|]. split; [exact En|]. split; [exact F|]. split; [intros q _; left; reflexivity|].
  intros o y. fold y in X, U, T0, TF. split; [rewrite T0, TF; cbn; lra|]. split; [intros t u x; exact (orbit_kept 2 0 (a_of o y) t u x)|].
  split; (unfold energy; cbn [o_nx o mp_ocp orbit_mp orbit Rsum]; rewrite !X by (cbn; lia); cbn; ring).
Qed.
Print Assumptions C93_kept_refuted.
(** C93_damped does not hold for the Chebyshev nodes of degree two *)
Theorem C93_scheme_refuted : exists (mp : mpo Rnum) npath nterm (z p : list R) n, input_ok mp npath nterm z p /\ widths_ok (mp_nseg mp) (o_nph (mp_ocp mp)) p /\ nlp_at mp z p = Ok n /\ feasible n /\
  cf_scheme (mp_cf mp) = "CGL"%string /\ mp_orders mp = [1; 2]%nat /\ let o := mp_ocp mp in let y := user_traj mp z 0 in y_t0 y < y_tf y /\ damped o 0 (a_of o y) (y_t0 y) (y_tf y) (fun _ => 0) /\
  energy o (fun _ => 0) (fun s => nth s (nth 0 (o_x00 o) []) 0) = 37 /\ energy o (fun _ => 0) (y_x y (offset (mp_orders mp) 2)) = 45.
Proof.
  destruct flung_point as (z & n & Lz & (X & U & T0 & TF & _) & En & F). exists (orbit_mp (-1) (-6) [1; 2]%nat "CGL"), (fun _ => None), (fun _ => None), z, [1 / 2; 1 / 2], n.
  split; [exact (orbit_in (-1) (-6) [1; 2]%nat "CGL" z eq_refl wide_pos ltac:(cbn; auto) Lz)|]. split; [exact halves|]. split; [exact En|]. split; [exact F|]. split; [reflexivity|]. split; [reflexivity|].
  intros o y. fold y in X, U, T0, TF. split; [rewrite T0, TF; cbn; lra|]. split; [apply orbit_damped|].
  split; [unfold energy; cbn; ring|]. unfold energy; cbn [o_nx o mp_ocp orbit_mp orbit Rsum]; rewrite !X by (cbn; lia); cbn; ring.
Qed.
Print Assumptions C93_scheme_refuted.
(** turning on Radau nodes meets the hypotheses of C93_damped *)
Example C93_case : exists (z : list R) n, let mp := orbit_mp 2 0 [1; 1]%nat "LGR" in let p := [1 / 2; 1 / 2] in
  input_ok mp (fun _ => None) (fun _ => None) z p /\ widths_ok (mp_nseg mp) (o_nph (mp_ocp mp)) p /\ nlp_at mp z p = Ok n /\ feasible n /\ (0 < o_nph (mp_ocp mp))%nat /\ cf_scheme (mp_cf mp) = "LGR"%string /\
  let o := mp_ocp mp in let y := user_traj mp z 0 in y_t0 y < y_tf y /\ damped o 0 (a_of o y) (y_t0 y) (y_tf y) (fun _ => 0) /\ y_x y 1 1 = 0 /\ y_x y 2 1 = 1.
Proof.
  destruct swerved_point as (z & n & Lz & (X & U & T0 & TF & _) & En & F). exists z, n. intros mp p.
  split; [exact (orbit_in 2 0 [1; 1]%nat "LGR" z eq_refl ones_pos ltac:(cbn; auto) Lz)|]. split; [exact halves|]. split; [exact En|]. split; [exact F|]. split; [cbn; lia|]. split; [reflexivity|].
  intros o y. fold mp y in X, U, T0, TF. split; [rewrite T0, TF; cbn; lra|]. split; [apply orbit_damped|].
  split; [exact (X 1%nat 1%nat ltac:(cbn; lia) ltac:(cbn; lia))|exact (X 2%nat 1%nat ltac:(cbn; lia) ltac:(cbn; lia))].
Qed.
