(** Property C78: the objective and the cost of the trajectory that the controls really lead to. *)
From Coq Require Import String Reals List Arith.
From Coquelicot Require Import Coquelicot.
From Coq Require Import List.
From Verif Require Import Num PyList Ocp Colloc Transcribe Spec SpecOcp SpecHadapt SpecResid SpecSmooth SpecTrack SpecReal RealR ExOcp ExLander ExReal.
Import ListNotations.
Open Scope R_scope.
Open Scope list_scope.

(** * C78 *)
(** any point of the program, feasible or not, and any trajectories [x] within [e ph] of its state polynomials: the objective is the
    terminal cost plus the integral of the running cost along [x], up to the Lipschitz constants of the costs times [e ph] and the
    error of the weights; on LGR meshes of orders at least 2, and on one segment *)
Theorem C78_any_point : forall (cf : ccfg Rnum) Q, cfg_ok cf -> exists C, 0 <= C /\ forall mp npath nterm z p,
  mp_cf mp = cf -> (forall q, In q (mp_orders mp) -> (q <= Q)%nat) -> input_ok mp npath nterm z p -> widths_ok (mp_nseg mp) (o_nph (mp_ocp mp)) p ->
  let o := mp_ocp mp in let orders := mp_orders mp in let w := width mp p in let y := user_traj mp z in
  (forall ph, (ph < o_nph o)%nat -> y_t0 (y ph) < y_tf (y ph)) ->
  exists rs n, mapM (c_roots cf) orders = Ok rs /\ nlp_at mp z p = Ok n /\
  forall cx cu x D E Lr Lm m ML e,
    (forall ph k, (ph < o_nph o)%nat -> (k < length orders)%nat -> SpecResid.seg_polys mp rs (y ph) k (cx ph k) (cu ph k)) ->
    cf_scheme cf = "LGR"%string /\ (forall k q, nth_error orders k = Some q -> (2 <= q)%nat /\ m k = (2 * q)%nat) \/
      length orders = 1%nat /\ (forall k q, nth_error orders k = Some q -> m k = (q + 2)%nat) ->
    (forall ph, (ph < o_nph o)%nat -> comparable mp (w ph) ph (y ph) (cx ph) (cu ph) (x ph) (D ph) (E ph) Lr Lm m ML) ->
    (forall ph k tau s, (ph < o_nph o)%nat -> (k < length orders)%nat -> cf_tau0 cf <= tau <= cf_tau1 cf -> (s < o_nx o)%nat ->
       Rabs (peval (cx ph k s) tau - x ph s (seg_time cf (w ph) (y ph) k tau)) <= e ph) ->
    Rabs (n_f n - Rsum (o_nph o) (fun ph => real_cost mp (w ph) ph (y ph) (cu ph) (x ph))) <=
      Rsum (o_nph o) (fun ph => (Lm + Lr * (y_tf (y ph) - y_t0 (y ph))) * e ph + C * ML * Rsum (length orders) (fun k => lasts (w ph) (y ph) k ^ m k)).
Proof. exact real_thm. Qed.
Print Assumptions C78_any_point.
(** feasible points: for the trajectories of the differential equation under the control polynomials the difference is of the order of
    the segments; the constants depend on the scheme and the largest order only *)
Theorem C78_feasible_order : forall (cf : ccfg Rnum) Q, cfg_ok cf -> exists C1 C2, 0 <= C1 /\ 0 <= C2 /\ forall mp npath nterm z p n,
  mp_cf mp = cf -> (forall q, In q (mp_orders mp) -> (q <= Q)%nat) -> input_ok mp npath nterm z p -> widths_ok (mp_nseg mp) (o_nph (mp_ocp mp)) p ->
  nlp_at mp z p = Ok n -> feasible n ->
  let o := mp_ocp mp in let orders := mp_orders mp in let w := width mp p in let y := user_traj mp z in
  (forall ph, (ph < o_nph o)%nat -> y_t0 (y ph) < y_tf (y ph)) ->
  exists rs, mapM (c_roots cf) orders = Ok rs /\
  forall cx cu x D E L Lr Lm M m ML eta,
    (forall ph k, (ph < o_nph o)%nat -> (k < length orders)%nat -> SpecResid.seg_polys mp rs (y ph) k (cx ph k) (cu ph k)) ->
    cf_scheme cf = "LGR"%string /\ (forall k q, nth_error orders k = Some q -> (2 <= q)%nat /\ m k = (2 * q)%nat) \/
      length orders = 1%nat /\ (forall k q, nth_error orders k = Some q -> m k = (q + 2)%nat) ->
    0 <= L ->
    (forall ph, (ph < o_nph o)%nat -> follows mp (w ph) ph (y ph) (cu ph) (x ph) /\ one_sided o ph (a_of o (y ph)) (D ph) L /\
       comparable mp (w ph) ph (y ph) (cx ph) (cu ph) (x ph) (D ph) (E ph) Lr Lm m ML /\
       forall k q s, nth_error orders k = Some q -> (s < o_nx o)%nat ->
         smooth (dyn_time mp (w ph) ph (y ph) (cx ph) (cu ph) k s) (seg_start (w ph) (y ph) k) (seg_start (w ph) (y ph) (S k)) q M) ->
    (forall ph k q, (ph < o_nph o)%nat -> nth_error orders k = Some q -> lasts (w ph) (y ph) k ^ q <= eta) ->
    Rabs (n_f n - Rsum (o_nph o) (fun ph => real_cost mp (w ph) ph (y ph) (cu ph) (x ph))) <=
      Rsum (o_nph o) (fun ph => let T := y_tf (y ph) - y_t0 (y ph) in
        (Lm + Lr * T) * (C2 * M * eta * sqrt (INR (o_nx o) * (exp ((2 * L + 1) * T) - 1) / (2 * L + 1))) +
        C1 * ML * Rsum (length orders) (fun k => lasts (w ph) (y ph) k ^ m k)).
Proof. exact real_order. Qed.
Print Assumptions C78_feasible_order.
(** not with several segments of order 1, whatever the scheme: cost 1 and objective 1/2 + 1/(2 K) on [K] equal segments, although dynamics and
    costs are constant *)
Theorem C78_order_one_refuted : exists o npath nterm, ocp_ok o npath nterm /\ scales_pos o /\ o_nph o = 1%nat /\ forall cf K, cfg_ok cf -> (1 <= K)%nat ->
  let mp := Mpo o K (repeat 1%nat K) cf in let p := repeat (1 / INR K) K in
  exists z n rs cx cu x, let w := width mp p 0 in let y := user_traj mp z 0 in
    input_ok mp npath nterm z p /\ widths_ok K 1 p /\ nlp_at mp z p = Ok n /\ feasible n /\ y_t0 y < y_tf y /\
    mapM (c_roots cf) (mp_orders mp) = Ok rs /\ (forall k, (k < K)%nat -> SpecResid.seg_polys mp rs y k (cx k) (cu k)) /\
    follows mp w 0 y cu x /\ one_sided o 0 (a_of o y) (fun _ _ _ => True) 0 /\
    comparable mp w 0 y cx cu x (fun _ _ _ => True) (fun _ => True) 0 0 (fun _ => 3%nat) 0 /\
    (forall k s, (k < K)%nat -> (s < o_nx o)%nat -> smooth (dyn_time mp w 0 y cx cu k s) (seg_start w y k) (seg_start w y (S k)) 1 0) /\
    n_f n = 1 / 2 + 1 / (2 * INR K) /\ real_cost mp w 0 y cu x = 1.
Proof. exact stay_real. Qed.
Print Assumptions C78_order_one_refuted.

(** two phases with a jump between them, terminal cost and the square of the state as running cost, orders 2 and 3, unequal widths *)
Example C78_case : exists rs z n, mapM (c_roots (mp_cf hop_mp)) (mp_orders hop_mp) = Ok rs /\
  input_ok hop_mp hop_npath hop_nterm z hop_p /\ widths_ok (mp_nseg hop_mp) 2 hop_p /\ nlp_at hop_mp z hop_p = Ok n /\ feasible n /\
  forall ph cx cu, (ph < 2)%nat -> let w := width hop_mp hop_p ph in let y := user_traj hop_mp z ph in let x := fun _ t => hop_b ph + t in
    y_t0 y < y_tf y /\
    ((forall k, (k < 2)%nat -> SpecResid.seg_polys hop_mp rs y k (cx k) (cu k)) ->
       follows hop_mp w ph y cu x /\ one_sided hop ph (a_of hop y) hop_D 0 /\
       comparable hop_mp w ph y cx cu x hop_D (fun _ => True) 4 1 (fun k => 2 * nth k [2; 3] 0)%nat 0 /\
       forall k q s, nth_error [2; 3]%nat k = Some q -> (s < 1)%nat -> smooth (dyn_time hop_mp w ph y cx cu k s) (seg_start w y k) (seg_start w y (S k)) q 0).
Proof. exact hop_real. Qed.
