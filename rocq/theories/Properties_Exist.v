(** C71: limits of feasible points; programs that have solutions *)
From Coq Require Import Reals Arith String.
From Coquelicot Require Import Coquelicot.
From Coq Require Import List.
From Verif Require Import Num PyList Mat Poly Roots Colloc Ocp Transcribe Spec SpecOcp SpecHadapt SpecCoord SpecExist NumR ExOcp ExGlide ExTrack ExistR ExExist.
Import ListNotations.
Open Scope R_scope.

(** with continuous functions the objective is continuous in the point and the widths, and limits of feasible
    points are feasible *)
Theorem C71_closed : forall (mp : mpo Rnum) npath nterm (zs : nat -> list R) z (ps : nat -> list R) p,
  (forall k, input_ok mp npath nterm (zs k) (ps k)) -> input_ok mp npath nterm z p ->
  (forall ph, (ph < o_nph (mp_ocp mp))%nat -> continuous_phase (mp_ocp mp) ph) ->
  points_to zs z -> points_to ps p ->
  exists (ns : nat -> nlp Rnum) n, (forall k, nlp_at mp (zs k) (ps k) = Ok (ns k)) /\ nlp_at mp z p = Ok n /\
    is_lim_seq (fun k => n_f (ns k)) (n_f n) /\ ((forall k, feasible (ns k)) -> feasible n).
Proof. exact closed_thm. Qed.
Print Assumptions C71_closed.
(** if moreover all bounds are numbers: points that are feasible for widths that tend to [p] have a subsequence that
    tends to a feasible point for [p] *)
Theorem C71_compact : forall (mp : mpo Rnum) npath nterm (zs : nat -> list R) ns (ps : nat -> list R) (p : list R),
  (forall k, input_ok mp npath nterm (zs k) (ps k)) -> length p = (o_nph (mp_ocp mp) * mp_nseg mp)%nat ->
  (forall ph, (ph < o_nph (mp_ocp mp))%nat -> continuous_phase (mp_ocp mp) ph) -> (forall ph, (ph < o_nph (mp_ocp mp))%nat -> bounded_phase (mp_ocp mp) ph) ->
  points_to ps p -> (forall k, nlp_at mp (zs k) (ps k) = Ok (ns k)) -> (forall k, feasible (ns k)) ->
  exists (phi : nat -> nat) z n, (forall k, (phi k < phi (S k))%nat) /\ input_ok mp npath nterm z p /\ points_to (fun k => zs (phi k)) z /\
    nlp_at mp z p = Ok n /\ feasible n /\ is_lim_seq (fun k => n_f (ns (phi k))) (n_f n).
Proof. exact compact_thm. Qed.
Print Assumptions C71_compact.
(** so a program that has a feasible point has a best one *)
Theorem C71_exists : forall (mp : mpo Rnum) npath nterm z0 n0 p,
  input_ok mp npath nterm z0 p -> nlp_at mp z0 p = Ok n0 -> feasible n0 ->
  (forall ph, (ph < o_nph (mp_ocp mp))%nat -> continuous_phase (mp_ocp mp) ph) -> (forall ph, (ph < o_nph (mp_ocp mp))%nat -> bounded_phase (mp_ocp mp) ph) ->
  exists z, input_ok mp npath nterm z p /\ best mp p z.
Proof. exact exists_thm. Qed.
Print Assumptions C71_exists.
(** false with the infinite bounds that are the default: x' = u, cost exp(x) at the end *)
Theorem C71_unbounded_refuted : forall K, (1 <= K)%nat -> exists (o : ocp Rnum), let mp := Mpo o K (repeat 1%nat K) (demo_cf "LGR") in
  (forall z, length z = nvars mp -> input_ok mp (fun _ => None) (fun _ => None) z (swing_p K)) /\ o_nph o = 1%nat /\ continuous_phase o 0 /\
  (exists z n, length z = nvars mp /\ nlp_at mp z (swing_p K) = Ok n /\ feasible n) /\
  (forall (z : list R) n, length z = nvars mp -> nlp_at mp z (swing_p K) = Ok n -> feasible n -> 0 < n_f n) /\
  ~ exists z, length z = nvars mp /\ best mp (swing_p K) z.
Proof. exact unbounded_thm. Qed.
Print Assumptions C71_unbounded_refuted.
(** and false with finite bounds and a final cost that jumps *)
Theorem C71_jumping_refuted : forall K, (1 <= K)%nat -> exists (o : ocp Rnum), let mp := Mpo o K (repeat 1%nat K) (demo_cf "LGR") in
  (forall z, length z = nvars mp -> input_ok mp (fun _ => None) (fun _ => None) z (swing_p K)) /\ o_nph o = 1%nat /\ bounded_phase o 0 /\
  (exists z n, length z = nvars mp /\ nlp_at mp z (swing_p K) = Ok n /\ feasible n) /\
  (forall (z : list R) n, length z = nvars mp -> nlp_at mp z (swing_p K) = Ok n -> feasible n -> 0 < n_f n) /\
  ~ exists z, length z = nvars mp /\ best mp (swing_p K) z.
Proof. exact jumping_thm. Qed.
Print Assumptions C71_jumping_refuted.

(** moving a cart with least effort: continuous functions, finite bounds *)
Example C71_case : (forall ph, (ph < o_nph glide)%nat -> continuous_phase glide ph) /\ (forall ph, (ph < o_nph glide)%nat -> bounded_phase glide ph).
Proof. exact (conj glide_continuous glide_bounded). Qed.
(** so on any mesh with orders at least 4, where it has feasible points, its program has a best one *)
Example C71_best_case : forall cf K orders (p : list R), cfg_ok cf -> (1 <= K)%nat -> length orders = K -> (forall q, In q orders -> (4 <= q)%nat) -> widths_ok K 1 p ->
  exists z, length z = nvars (Mpo glide K orders cf) /\ best (Mpo glide K orders cf) p z.
Proof. exact glide_best. Qed.
