(** Property C69: feasible points follow the differential equation between the nodes, with a known order. *)
From Coq Require Import String Reals List Arith Lra Lia.
From Coquelicot Require Import Coquelicot.
From Coq Require Import List.
From Verif Require Import Num PyList Ocp Colloc Transcribe Spec SpecOcp SpecHadapt SpecResid SpecSmooth SpecTrack NumR ListR ExOcp TrackR ExTrack.
Import ListNotations.
Open Scope R_scope.
Open Scope list_scope.

(** any point: the distance between the state polynomials and the trajectory of the differential equation under the control polynomials,
    from the distance at the start and the size of the defects *)
Theorem C69_distance : forall (mp : mpo Rnum) npath nterm (z p : list R) ph, input_ok mp npath nterm z p -> widths_ok (mp_nseg mp) (o_nph (mp_ocp mp)) p -> (ph < o_nph (mp_ocp mp))%nat ->
  let o := mp_ocp mp in let cf := mp_cf mp in let w := width mp p ph in let y := user_traj mp z ph in y_t0 y < y_tf y ->
  exists rs, mapM (c_roots cf) (mp_orders mp) = Ok rs /\
  (exists cx cu, forall k, (k < length (mp_orders mp))%nat -> SpecResid.seg_polys mp rs y k (cx k) (cu k)) /\
  forall cx cu x D L eps, (forall k, (k < length (mp_orders mp))%nat -> SpecResid.seg_polys mp rs y k (cx k) (cu k)) ->
    follows mp w ph y cu x -> 0 <= L -> one_sided o ph (a_of o y) D L -> stays mp w y cx cu x D ->
    (forall k tau s, (k < length (mp_orders mp))%nat -> cf_tau0 cf < tau < cf_tau1 cf -> (s < o_nx o)%nat ->
       Rabs (defect mp w ph y k (cx k) (cu k) s tau) <= seg_h cf w y k * eps) ->
    forall k tau, (k < length (mp_orders mp))%nat -> cf_tau0 cf <= tau <= cf_tau1 cf ->
      let t := seg_time cf w y k tau in let c := INR (o_nx o) * eps ^ 2 / (2 * L + 1) in
      dist2 (o_nx o) (fun s => peval (cx k s) tau) (fun s => x s t) + c <=
        (dist2 (o_nx o) (y_x y 0) (fun s => x s (y_t0 y)) + c) * exp ((2 * L + 1) * (t - y_t0 y)).
Proof. exact distance_thm. Qed.
Print Assumptions C69_distance.
(** feasible points: defects are zero at the nodes, hence of the order of the segments where the right side is smooth along the solution;
    the constant depends on the scheme and the largest order only *)
Theorem C69_feasible_order : forall (cf : ccfg Rnum) Q, cfg_ok cf -> exists C, 0 <= C /\ forall mp npath nterm z p n ph,
  mp_cf mp = cf -> (forall q, In q (mp_orders mp) -> (q <= Q)%nat) -> input_ok mp npath nterm z p -> widths_ok (mp_nseg mp) (o_nph (mp_ocp mp)) p ->
  nlp_at mp z p = Ok n -> feasible n -> (ph < o_nph (mp_ocp mp))%nat ->
  let o := mp_ocp mp in let w := width mp p ph in let y := user_traj mp z ph in y_t0 y < y_tf y ->
  exists rs, mapM (c_roots cf) (mp_orders mp) = Ok rs /\
  (exists cx cu, forall k, (k < length (mp_orders mp))%nat -> SpecResid.seg_polys mp rs y k (cx k) (cu k)) /\
  forall cx cu M, (forall k, (k < length (mp_orders mp))%nat -> SpecResid.seg_polys mp rs y k (cx k) (cu k)) ->
    (forall k q s, nth_error (mp_orders mp) k = Some q -> (s < o_nx o)%nat ->
       smooth (dyn_time mp w ph y cx cu k s) (seg_start w y k) (seg_start w y (S k)) q M) ->
    (forall k q tau s, nth_error (mp_orders mp) k = Some q -> cf_tau0 cf <= tau <= cf_tau1 cf -> (s < o_nx o)%nat ->
       Rabs (defect mp w ph y k (cx k) (cu k) s tau) <= seg_h cf w y k * (C * M * lasts w y k ^ q)) /\
    forall x D L eta, follows mp w ph y cu x -> (forall s, (s < o_nx o)%nat -> x s (y_t0 y) = y_x y 0 s) ->
      0 <= L -> one_sided o ph (a_of o y) D L -> stays mp w y cx cu x D ->
      (forall k q, nth_error (mp_orders mp) k = Some q -> lasts w y k ^ q <= eta) ->
      forall k tau s, (k < length (mp_orders mp))%nat -> cf_tau0 cf <= tau <= cf_tau1 cf -> (s < o_nx o)%nat ->
        Rabs (peval (cx k s) tau - x s (seg_time cf w y k tau)) <=
          C * M * eta * sqrt (INR (o_nx o) * (exp ((2 * L + 1) * (y_tf y - y_t0 y)) - 1) / (2 * L + 1)).
Proof. exact order_thm. Qed.
Print Assumptions C69_feasible_order.
(** between the nodes the path constraints and the bounds hold up to the distance in time to any node of the segment *)
Theorem C69_between_nodes : forall (mp : mpo Rnum) npath nterm (z p : list R) n ph, input_ok mp npath nterm z p -> widths_ok (mp_nseg mp) (o_nph (mp_ocp mp)) p ->
  nlp_at mp z p = Ok n -> feasible n -> (ph < o_nph (mp_ocp mp))%nat ->
  let o := mp_ocp mp in let cf := mp_cf mp in let w := width mp p ph in let y := user_traj mp z ph in y_t0 y < y_tf y ->
  exists rs, mapM (c_roots cf) (mp_orders mp) = Ok rs /\
  forall cx cu k q j tau, SpecResid.seg_polys mp rs y k cx cu -> nth_error (mp_orders mp) k = Some q -> (j <= q)%nat -> cf_tau0 cf <= tau <= cf_tau1 cf ->
    let d := Rabs (seg_time cf w y k tau - seg_time cf w y k (nth j (nth k rs []) 0)) in
    (forall m M, rate_within mp w y k (fun u => nth m (path_along o ph y cx cu u (seg_time cf w y k u)) 0) M ->
       nth m (path_along o ph y cx cu tau (seg_time cf w y k tau)) 0 <= M * d) /\
    (forall s M, (s < o_nx o)%nat -> (ph, k, j) <> (0, 0, 0)%nat -> rate_within mp w y k (peval (cx s)) M ->
       above (bnd ph (o_lbx o) s) (peval (cx s) tau + M * d) /\ below (bnd ph (o_ubx o) s) (peval (cx s) tau - M * d)) /\
    (forall c M, (c < o_nu o)%nat -> rate_within mp w y k (peval (cu c)) M ->
       above (bnd ph (o_lbu o) c) (peval (cu c) tau + M * d) /\ below (bnd ph (o_ubu o) c) (peval (cu c) tau - M * d)).
Proof. exact between_thm. Qed.
Print Assumptions C69_between_nodes.
(** the smoothness cannot be dropped: a problem with feasible points on meshes of any number of segments whose last state stays 2/3 away
    from where the differential equation leads under their controls, although its right side does not even depend on the state *)
Theorem C69_fine_mesh_refuted : exists o npath nterm, ocp_ok o npath nterm /\ scales_pos o /\ forall K, (1 <= K)%nat ->
  let mp := Mpo o K (repeat 1%nat K) (demo_cf "LGR") in let p := repeat (1 / INR K) K in
  exists z n rs cx cu x, let w := width mp p 0 in let y := user_traj mp z 0 in
    input_ok mp npath nterm z p /\ widths_ok (mp_nseg mp) (o_nph o) p /\ nlp_at mp z p = Ok n /\ feasible n /\ y_t0 y < y_tf y /\
    mapM (c_roots (mp_cf mp)) (mp_orders mp) = Ok rs /\
    (forall k, (k < length (mp_orders mp))%nat -> SpecResid.seg_polys mp rs y k (cx k) (cu k)) /\
    follows mp w 0 y cu x /\ x 0%nat (y_t0 y) = y_x y 0 0 /\ one_sided o 0 (a_of o y) (fun _ _ _ => True) 0 /\
    y_x y K 0 = 1 /\ x 0%nat (y_tf y) = 1 / 3.
Proof. exact swing_apart. Qed.
Print Assumptions C69_fine_mesh_refuted.

(** the same problem meets the conditions of the three theorems, with constants that grow with the number of segments *)
Example C69_case : forall K cx cu, (1 <= K)%nat -> let mp := swing_mp K in let y := user_traj mp (swing_z K) 0 in let w := width mp (swing_p K) 0 in
  input_ok mp (fun _ => None) (fun _ => None) (swing_z K) (swing_p K) /\ (exists n, nlp_at mp (swing_z K) (swing_p K) = Ok n /\ feasible n) /\
  mapM (c_roots (mp_cf mp)) (mp_orders mp) = Ok (repeat [-1; 1] K) /\
  ((forall k, (k < length (mp_orders mp))%nat -> SpecResid.seg_polys mp (repeat [-1; 1] K) y k (cx k) (cu k)) ->
     follows mp w 0 y cu (fun _ => swung K) /\ stays mp w y cx cu (fun _ => swung K) (fun _ _ _ => True) /\
     (forall k s, (k < K)%nat -> (s < 1)%nat -> smooth (dyn_time mp w 0 y cx cu k s) (seg_start w y k) (seg_start w y (S k)) 1 (4 * INR K)) /\
     (forall k tau s, (k < K)%nat -> (s < 1)%nat -> -1 < tau < 1 -> Rabs (defect mp w 0 y k (cx k) (cu k) s tau) <= seg_h (mp_cf mp) w y k * 1) /\
     (forall k, (k < K)%nat -> rate_within mp w y k (peval (cx k 0%nat)) 1 /\ rate_within mp w y k (peval (cu k 0%nat)) (2 * INR K))).
Proof.
  intros K cx cu HK mp y w. split; [exact (swing_input K HK)|]. split; [exact (swing_feasible K HK)|]. split; [exact (swing_roots K)|]. intros Hc.
  assert (Hl : length (mp_orders mp) = K) by (cbn; apply repeat_length).
  split; [exact (swing_follows K cx cu HK Hc)|]. split; [intros k tau _ _; split; exact I|].
  split; [intros k s Hk Hs; exact (swing_smooth K cx cu k s HK Hc Hk Hs)|].
  split; [intros k tau s Hk Hs Ht; exact (swing_defect K (cx k) (cu k) k tau s HK (Hc k ltac:(rewrite Hl; exact Hk)) Hk Hs Ht)|].
  intros k Hk. exact (swing_rates K (cx k) (cu k) k HK (Hc k ltac:(rewrite Hl; exact Hk)) Hk).
Qed.
