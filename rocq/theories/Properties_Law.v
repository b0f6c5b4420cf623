(** Property C82: linear laws of the state equations hold at the points that meet the constraints. *)
From Coq Require Import String Reals List Arith Lia Lra.
From Verif Require Import Num PyList Mat Poly Roots Ocp Colloc Transcribe Spec SpecOcp SpecHadapt SpecLaw NumR LawR ExOcp ExTail ExLaw.
Import ListNotations.
Open Scope R_scope.
Open Scope list_scope.

(** * C82 *)
(** a combination of the states whose rate is always [beta] has exactly the value it should have, at all nodes and between them *)
Theorem C82_exact : forall (mp : mpo Rnum) npath nterm (z p : list R), input_ok mp npath nterm z p ->
  let o := mp_ocp mp in let cf := mp_cf mp in let orders := mp_orders mp in
  exists rs n, mapM (c_roots cf) orders = Ok rs /\ nlp_at mp z p = Ok n /\
  (feasible n -> forall ph alpha beta D, (ph < o_nph o)%nat -> law eq o ph alpha beta D ->
   let y := user_traj mp z ph in let w := width mp p ph in nodes_in mp y D ->
   (forall i k j, owned orders i k j ->
      amount (o_nx o) alpha (y_x y i) = amount (o_nx o) alpha (y_x y 0) + beta * (node_time cf w y k (nth j (nth k rs []) 0) - y_t0 y)) /\
   (forall k c tau, (k < length orders)%nat -> (forall s, (s < o_nx o)%nat -> seg_interp orders k (nth k rs []) (fun i => y_x y i s) (c s)) ->
      amount (o_nx o) alpha (fun s => peval (c s) tau) = amount (o_nx o) alpha (y_x y 0) + beta * (node_time cf w y k tau - y_t0 y))).
Proof. exact law_thm. Qed.
Print Assumptions C82_exact.
(** with LGR nodes, or LGL nodes on one segment, and orders of at least 2: a rate of at most [beta] is kept from segment to segment *)
Theorem C82_at_most : forall (mp : mpo Rnum) npath nterm (z p : list R), input_ok mp npath nterm z p ->
  let o := mp_ocp mp in let cf := mp_cf mp in let orders := mp_orders mp in
  widths_ok (mp_nseg mp) (o_nph o) p -> cf_scheme cf = "LGR"%string \/ cf_scheme cf = "LGL"%string /\ length orders = 1%nat -> (forall q, In q orders -> (2 <= q)%nat) ->
  exists n, nlp_at mp z p = Ok n /\
  (feasible n -> forall ph alpha beta D, (ph < o_nph o)%nat -> law Rle o ph alpha beta D ->
   let y := user_traj mp z ph in let w := width mp p ph in y_t0 y <= y_tf y -> nodes_in mp y D ->
   forall k k', (k <= k' <= length orders)%nat ->
      amount (o_nx o) alpha (y_x y (offset orders k')) <= amount (o_nx o) alpha (y_x y (offset orders k)) + beta * (seg_start w y k' - seg_start w y k)).
Proof. exact less_thm. Qed.
Print Assumptions C82_at_most.
(** a sum of squares that the state equations keep is not kept *)
Theorem C82_squares_refuted : exists (mp : mpo Rnum) npath nterm (z p : list R) n, input_ok mp npath nterm z p /\ nlp_at mp z p = Ok n /\ feasible n /\
  (forall f x u t a d, nth_error (o_dyn (mp_ocp mp)) 0 = Some f -> f x u t a = Ok d -> nth 0 x 0 * nth 0 d 0 + nth 1 x 0 * nth 1 d 0 = 0) /\
  squares (y_x (user_traj mp z 0) 2) <> squares (y_x (user_traj mp z 0) 0).
Proof.
  destruct turn_point as (z & n & Hz & En & Hf & HN). exists (pair_mp turn), (fun _ => None), (fun _ => None), z, pair_p, n.
  split; [exact (pair_in turn z Hz)|]. split; [exact En|]. split; [exact Hf|]. split; [|exact HN].
  intros f x u t a d E Ed. injection E as <-. injection Ed as <-. cbn. nred. ring.
Qed.
Print Assumptions C82_squares_refuted.
(** two states whose sum is kept, and a point that moves all of one into the other *)
Example C82_case : exists (z : list R) n, input_ok (pair_mp swap) (fun _ => None) (fun _ => None) z pair_p /\ nlp_at (pair_mp swap) z pair_p = Ok n /\ feasible n /\
  law eq (pair swap) 0 (fun _ => 1) 0 (fun _ _ => True) /\ same_traj (pair_mp swap) (user_traj (pair_mp swap) z 0) (jump 0 1 (-1)).
Proof.
  destruct (jump_point swap 0 1 (-1)) as (z & n & Hz & En & Hf & HS); [unfold swap; f_equal; ring|unfold swap; f_equal; ring|].
  exists z, n. split; [exact (pair_in swap z Hz)|]. split; [exact En|]. split; [exact Hf|]. split; [exact swap_law|exact HS].
Qed.
(** a run at a speed of at most 1 takes as long as its length on every LGR mesh, and no less *)
Example C82_mesh : forall (cf : ccfg Rnum) K orders (p : list R), cfg_ok cf -> (1 <= K)%nat -> length orders = K -> cf_scheme cf = "LGR"%string -> widths_ok K 1 p ->
  (forall q, In q orders -> (2 <= q)%nat) -> let mp : mpo Rnum := Mpo dash K orders cf in
  (exists (z : list R) n, length z = nvars mp /\ nlp_at mp z p = Ok n /\ feasible n /\ y_tf (user_traj mp z 0) = 1) /\
  forall (z : list R) n, length z = nvars mp -> nlp_at mp z p = Ok n -> feasible n -> 1 <= y_tf (user_traj mp z 0).
Proof. exact dash_time. Qed.
