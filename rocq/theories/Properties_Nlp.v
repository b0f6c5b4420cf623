(** Properties of the transcription (C10-C21), of OCP validation (C42) and of construction (C43).

    [input_ok mp npath nterm z p]: a well-formed problem and mesh, a decision vector z and a
    vector p of segment widths of the right lengths.  [user_traj mp z ph]: the trajectory of
    phase ph that z stands for, in the user's units. *)
From Coq Require Import Reals Lra Lia Bool.
From Coquelicot Require Import Coquelicot.
From Coq Require Import String List.
From Verif Require Import Num PyList Mat Poly Roots Colloc Ocp Transcribe Spec SpecOcp Objects SpecHist HistR
  NumR NlpThm GuessR CostR ScaleR OcpR NlpMain ObjectsR ExOcp ExNlp.
Import ListNotations.
Open Scope R_scope.

(** two phases with parameters, path and terminal constraints, scales and jumps; three segments *)
Example input_case : input_ok rich_mp rich_npath rich_nterm (repeat 1 (2 * nvars rich_mp)) rich_p.
Proof. exact rich_input. Qed.

(** * C10 *)
Theorem C10_lengths : forall mp npath nterm z p, input_ok mp npath nterm z p ->
  let o := mp_ocp mp in
  exists n z0, nlp_at mp z p = Ok n /\ initialize_solution mp = Ok z0 /\
    balanced (n_x n) /\ balanced (n_g n) /\
    length (c_g (n_x n)) = (o_nph o * nvars mp)%nat /\ length z0 = length (c_g (n_x n)) /\
    length (c_g (n_g n)) = (Nsum (map (fun ph => Nsum (block_rows mp npath nterm ph)) (seq 0 (o_nph o))) + link_rows o)%nat.
Proof. exact nlp_lengths. Qed.
Print Assumptions C10_lengths.
(** the attribute _optimization_vars_per_phase *)
Theorem C10_counter_partial : forall mp npath nterm z p, input_ok mp npath nterm z p ->
  (optimization_vars_per_phase mp = nvars mp <-> o_nph (mp_ocp mp) = 1%nat \/ o_na (mp_ocp mp) = 0%nat).
Proof. exact counter_iff. Qed.
Print Assumptions C10_counter_partial.
Theorem C10_counter_refuted : exists mp npath nterm z p, input_ok mp npath nterm z p /\
  optimization_vars_per_phase mp <> nvars mp.
Proof. do 5 eexists. split; [exact rich_input|]. rewrite (counter_iff _ _ _ _ _ rich_input). cbn. lia. Qed.
Print Assumptions C10_counter_refuted.

(** * C11 *)
Theorem C11_roundtrip : forall mp vs p n ph v, mpo_ok mp -> scales_pos (mp_ocp mp) -> (forall v, In v vs -> vars_ok mp v) ->
  length vs = o_nph (mp_ocp mp) -> length p = (o_nph (mp_ocp mp) * mp_nseg mp)%nat ->
  create_nlp mp vs p = Ok n -> nth_error vs ph = Some v ->
  length (c_g (n_x n)) = (o_nph (mp_ocp mp) * nvars mp)%nat /\
  exists tr, trajectories mp ph (c_g (n_x n)) p = Ok tr /\
    mat_eq (tr_x tr) (v_X v) /\ mat_eq (tr_u tr) (v_U v) /\ tr_a tr = v_A v /\
    tr_t0 tr = v_t0 v / o_scale_t (mp_ocp mp) /\ tr_tf tr = v_tf v / o_scale_t (mp_ocp mp).
Proof. exact layout_roundtrip. Qed.
Print Assumptions C11_roundtrip.
Theorem C11_onto : forall mp npath nterm z p, input_ok mp npath nterm z p ->
  exists vs n, (forall v, In v vs -> vars_ok mp v) /\ length vs = o_nph (mp_ocp mp) /\
    create_nlp mp vs p = Ok n /\ c_g (n_x n) = z.
Proof. exact layout_onto. Qed.
Print Assumptions C11_onto.
Theorem C11_injective : forall mp vs vs' p n n', (forall v, In v vs -> vars_ok mp v) -> (forall v, In v vs' -> vars_ok mp v) ->
  length vs = o_nph (mp_ocp mp) -> length vs' = o_nph (mp_ocp mp) ->
  create_nlp mp vs p = Ok n -> create_nlp mp vs' p = Ok n' -> c_g (n_x n) = c_g (n_x n') ->
  forall ph v v', nth_error vs ph = Some v -> nth_error vs' ph = Some v' -> vars_eq v v'.
Proof.
  intros mp vs vs' p n n' H H' L L' E E' Ex. apply (layout_injective mp vs vs' H H').
  rewrite <- (create_nlp_vars _ _ _ _ E L), <- (create_nlp_vars _ _ _ _ E' L'). exact Ex.
Qed.
Print Assumptions C11_injective.
(** the hypotheses are met: by [C11_onto] every z comes from suitable [vs] *)
Example C11_case : exists vs n, (forall v, In v vs -> vars_ok rich_mp v) /\ length vs = 2%nat /\
  create_nlp rich_mp vs rich_p = Ok n /\ c_g (n_x n) = repeat 1 (2 * nvars rich_mp).
Proof. exact (layout_onto _ _ _ _ _ rich_input). Qed.

(** * C12 *)
Theorem C12_bounds : forall mp npath nterm z p, input_ok mp npath nterm z p ->
  exists n, nlp_at mp z p = Ok n /\ c_g (n_x n) = z /\
  (sat (n_x n) <-> forall ph, (ph < o_nph (mp_ocp mp))%nat -> bounds_ok mp ph (user_traj mp z ph)).
Proof. exact bounds_iff. Qed.
Print Assumptions C12_bounds.

(** * C13 *)
(** block 0 of every phase; nondegenerate: the phase has a non-zero duration and no segment is empty *)
Theorem C13_dynamics : forall mp npath nterm z p, input_ok mp npath nterm z p ->
  exists rs n, mapM (c_roots (mp_cf mp)) (mp_orders mp) = Ok rs /\ nlp_at mp z p = Ok n /\
  forall ph, (ph < o_nph (mp_ocp mp))%nat -> nondegenerate mp (width mp p ph) (user_traj mp z ph) ->
    (sat (g_block mp npath nterm n ph 0) <-> dynamics_time_ok mp rs (width mp p ph) ph (user_traj mp z ph)).
Proof. exact dynamics_blocks. Qed.
Print Assumptions C13_dynamics.
(** without that hypothesis: in the reference coordinate of each segment *)
Theorem C13_whole_program : forall mp npath nterm z p, input_ok mp npath nterm z p ->
  exists rs n, mapM (c_roots (mp_cf mp)) (mp_orders mp) = Ok rs /\ nlp_at mp z p = Ok n /\
  (forall ph, (ph < o_nph (mp_ocp mp))%nat ->
    let B := g_block mp npath nterm n ph in let w := width mp p ph in let y := user_traj mp z ph in
    (sat (B 0%nat) <-> dynamics_ok mp rs w ph y) /\
    (sat (B 1%nat) <-> path_ok mp rs w ph y) /\
    (sat (B 2%nat) <-> slope_ok mp rs ph y) /\
    (sat (B 3%nat) <-> midu_ok mp rs ph y) /\
    (sat (B 4%nat) <-> ducont_ok mp rs ph y) /\
    (sat (B 5%nat) <-> terminal_ok mp ph y)) /\
  (sat (g_links mp npath nterm n) <-> links_ok mp (user_traj mp z)).
Proof. exact nlp_blocks. Qed.
Print Assumptions C13_whole_program.
Example C13_case : exists z, input_ok rich_mp rich_npath rich_nterm z rich_p /\
  nondegenerate rich_mp (width rich_mp rich_p 0) (user_traj rich_mp z 0).
Proof.
  set (ys := fun _ : nat => Utraj (fun _ _ => 0) (fun _ _ => 0) 0 1 (fun _ => 0)).
  exists (pack rich_mp ys). split.
  - constructor; [exact rich_mp_ok|exact rich_ok|exact rich_scales|apply length_pack|reflexivity].
  - destruct (pack_traj rich_mp ys 0 rich_shapes rich_scales ltac:(cbn; lia)) as (_ & _ & E1 & E2 & _). split.
    + rewrite E1, E2. cbn. lra.
    + intros k Hk. destruct k as [|[|[|k]]]; cbn in Hk |- *; [lra|lra|lra|lia].
Qed.

(** * C14 *)
Theorem C14_node_times : forall mp npath nterm z p ph, input_ok mp npath nterm z p -> (ph < o_nph (mp_ocp mp))%nat ->
  exists rs tr, mapM (c_roots (mp_cf mp)) (mp_orders mp) = Ok rs /\ trajectories mp ph z p = Ok tr /\
    tr_t0 tr = y_t0 (user_traj mp z ph) /\ tr_tf tr = y_tf (user_traj mp z ph) /\
    length (tr_t tr) = total_nodes (mp_orders mp) /\
    (forall i k j, owned (mp_orders mp) i k j -> nth i (tr_t tr) 0 =
       node_time (mp_cf mp) (width mp p ph) (user_traj mp z ph) k (nth j (nth k rs []) 0)).
Proof.
  intros mp npath nterm z p ph H H'. destruct (trajectories_ok mp npath nterm z p ph H H') as (rs & tr & E & Et & _ & _ & _ & T). exists rs, tr. auto.
Qed.
Print Assumptions C14_node_times.
Theorem C14_values : forall mp npath nterm z p ph, input_ok mp npath nterm z p -> (ph < o_nph (mp_ocp mp))%nat ->
  exists tr, trajectories mp ph z p = Ok tr /\ traj_scaled mp tr (user_traj mp z ph).
Proof. exact trajectories_scaled. Qed.
Print Assumptions C14_values.
Theorem C14_ends_and_order : forall mp npath nterm z p ph, input_ok mp npath nterm z p -> (ph < o_nph (mp_ocp mp))%nat ->
  exists tr, trajectories mp ph z p = Ok tr /\
    length (tr_t tr) = total_nodes (mp_orders mp) /\
    nth 0 (tr_t tr) 0 = tr_t0 tr /\
    (Rsum (length (mp_orders mp)) (width mp p ph) = 1 -> nth (total_nodes (mp_orders mp) - 1) (tr_t tr) 0 = tr_tf tr) /\
    (tr_t0 tr < tr_tf tr -> (forall k, (k < length (mp_orders mp))%nat -> 0 < width mp p ph k) -> increasing (tr_t tr)).
Proof. exact times_ok. Qed.
Print Assumptions C14_ends_and_order.
Example C14_case : Rsum (length (mp_orders rich_mp)) (width rich_mp rich_p 0) = 1 /\
  (forall k, (k < length (mp_orders rich_mp))%nat -> 0 < width rich_mp rich_p 0 k).
Proof. split; [cbn; lra|]. intros k Hk. destruct k as [|[|[|k]]]; cbn in Hk |- *; [lra|lra|lra|lia]. Qed.

(** * C15 *)
Theorem C15_path_terminal : forall mp npath nterm z p, input_ok mp npath nterm z p ->
  let o := mp_ocp mp in
  exists rs n, mapM (c_roots (mp_cf mp)) (mp_orders mp) = Ok rs /\ nlp_at mp z p = Ok n /\
  forall ph, (ph < o_nph o)%nat -> let y := user_traj mp z ph in
    (sat (g_block mp npath nterm n ph 1) <->
       forall i k j c, owned (mp_orders mp) i k j ->
         In c (path_val o ph y i (node_time (mp_cf mp) (width mp p ph) y k (nth j (nth k rs []) 0))) -> c <= 0) /\
    (sat (g_block mp npath nterm n ph 5) <-> forall c, In c (term_val o ph y (total_nodes (mp_orders mp) - 1)) -> c = 0) /\
    (npath ph = None -> c_g (g_block mp npath nterm n ph 1) = []) /\
    (nterm ph = None -> c_g (g_block mp npath nterm n ph 5) = []).
Proof. exact path_terminal_blocks. Qed.
Print Assumptions C15_path_terminal.

(** * C16 *)
(** what the objective is: the property's value minus the weights of the first nodes of segments
    after the first; equal to the property's value for LGR points when those segments have order
    2 or more, and for one segment *)
Theorem C16_objective_partial : forall mp npath nterm z p, input_ok mp npath nterm z p ->
  let o := mp_ocp mp in let orders := mp_orders mp in
  exists rs n, mapM (c_roots (mp_cf mp)) orders = Ok rs /\ nlp_at mp z p = Ok n /\
  (exists C B, (forall ph, (ph < o_nph o)%nat -> cost_interp mp rs (width mp p ph) ph (user_traj mp z ph) (C ph)) /\ start_basis mp rs B) /\
  (forall C B, (forall ph, (ph < o_nph o)%nat -> cost_interp mp rs (width mp p ph) ph (user_traj mp z ph) (C ph)) ->
    start_basis mp rs B ->
    n_f n = Rsum (o_nph o) (fun ph => phase_cost mp (width mp p ph) ph (user_traj mp z ph) (C ph) -
                                      start_cost mp rs (width mp p ph) ph (user_traj mp z ph) B)) /\
  (cf_scheme (mp_cf mp) = "LGR"%string -> (forall q, In q (tl orders) -> (2 <= q)%nat) ->
   forall C, (forall ph, (ph < o_nph o)%nat -> cost_interp mp rs (width mp p ph) ph (user_traj mp z ph) (C ph)) ->
    n_f n = Rsum (o_nph o) (fun ph => phase_cost mp (width mp p ph) ph (user_traj mp z ph) (C ph))) /\
  (length orders = 1%nat ->
   forall C, (forall ph, (ph < o_nph o)%nat -> cost_interp mp rs (width mp p ph) ph (user_traj mp z ph) (C ph)) ->
    n_f n = Rsum (o_nph o) (fun ph => phase_cost mp (width mp p ph) ph (user_traj mp z ph) (C ph))).
Proof. exact objective. Qed.
Print Assumptions C16_objective_partial.
(** two segments of order 1, running cost 1 over one unit of time *)
Theorem C16_objective_refuted : exists mp npath nterm z p rs n C,
  input_ok mp npath nterm z p /\ mapM (c_roots (mp_cf mp)) (mp_orders mp) = Ok rs /\ nlp_at mp z p = Ok n /\ feasible n /\
  o_nph (mp_ocp mp) = 1%nat /\ cost_interp mp rs (width mp p 0) 0 (user_traj mp z 0) C /\
  phase_cost mp (width mp p 0) 0 (user_traj mp z 0) C = 1 /\ n_f n = 3 / 4.
Proof. exact objective_wrong. Qed.
Print Assumptions C16_objective_refuted.

(** * C17 *)
Theorem C17_links : forall mp npath nterm z p, input_ok mp npath nterm z p ->
  let o := mp_ocp mp in
  exists n, nlp_at mp z p = Ok n /\
  ((1 < o_nph o)%nat -> (sat (g_links mp npath nterm n) <->
     forall k i j, nth_error (o_links o) k = Some (i, j) -> link_ok mp (user_traj mp z) k i j)).
Proof. exact link_block. Qed.
Print Assumptions C17_links.
Example C17_case : (1 < o_nph (mp_ocp rich_mp))%nat /\ nth_error (o_links (mp_ocp rich_mp)) 0 = Some (0, 1)%nat.
Proof. split; [cbn; lia|reflexivity]. Qed.

(** * C18 *)
Theorem C18_scaling_partial : forall mp npath nterm z p sx su sa st z1, input_ok mp npath nterm z p ->
  scales_for (mp_ocp mp) sx su sa st ->
  (forall ph, nth ph (o_diff_u (mp_ocp mp)) false = false) ->
  let mp1 := with_ocp mp (rescale (mp_ocp mp) sx su sa st) in
  length z1 = length z -> (forall ph, (ph < o_nph (mp_ocp mp))%nat -> same_traj mp (user_traj mp z ph) (user_traj mp1 z1 ph)) ->
  exists n n1, nlp_at mp z p = Ok n /\ nlp_at mp1 z1 p = Ok n1 /\ (feasible n <-> feasible n1) /\ n_f n = n_f n1.
Proof. exact scale_thm. Qed.
Print Assumptions C18_scaling_partial.
(** every point has a counterpart under other scales *)
Theorem C18_partner : forall mp npath nterm z p sx su sa st, input_ok mp npath nterm z p -> scales_for (mp_ocp mp) sx su sa st ->
  let mp1 := with_ocp mp (rescale (mp_ocp mp) sx su sa st) in
  exists z1, length z1 = length z /\
    forall ph, (ph < o_nph (mp_ocp mp))%nat -> same_traj mp (user_traj mp z ph) (user_traj mp1 z1 ph).
Proof. exact scale_partner. Qed.
Print Assumptions C18_partner.
Example C18_case : scales_for (mp_ocp rich_mp) [1; 1] [1] [1] 1 /\
  (forall ph, nth ph (o_diff_u (mp_ocp (demo_mp 1 0 [1] false true [0] [0] 2))) false = false).
Proof.
  split.
  - constructor; try reflexivity; try lra; intros s Hs; cbn in Hs; intuition lra.
  - intros [|[|ph]]; reflexivity.
Qed.
(** diff_u compares scaled slopes with unscaled limits *)
Theorem C18_slope_refuted : exists mp npath nterm z p sx su sa st z1 n n1,
  let mp1 := with_ocp mp (rescale (mp_ocp mp) sx su sa st) in
  input_ok mp npath nterm z p /\ scales_for (mp_ocp mp) sx su sa st /\ length z1 = length z /\
  (forall ph, (ph < o_nph (mp_ocp mp))%nat -> same_traj mp (user_traj mp z ph) (user_traj mp1 z1 ph)) /\
  nlp_at mp z p = Ok n /\ nlp_at mp1 z1 p = Ok n1 /\ feasible n /\ ~ feasible n1.
Proof. exact scale_wrong. Qed.
Print Assumptions C18_slope_refuted.

(** * C19 *)
Theorem C19_midu : forall mp npath nterm z p, input_ok mp npath nterm z p ->
  exists rs n, mapM (c_roots (mp_cf mp)) (mp_orders mp) = Ok rs /\ nlp_at mp z p = Ok n /\
  forall ph, (ph < o_nph (mp_ocp mp))%nat -> (sat (g_block mp npath nterm n ph 3) <-> midu_ok mp rs ph (user_traj mp z ph)).
Proof. exact midu_block. Qed.
Print Assumptions C19_midu.
(** diff_u bounds scale * (segment half-width in time) * slope, not the slope *)
Theorem C19_slope_partial : forall mp npath nterm z p, input_ok mp npath nterm z p ->
  let o := mp_ocp mp in
  exists rs n, mapM (c_roots (mp_cf mp)) (mp_orders mp) = Ok rs /\ nlp_at mp z p = Ok n /\
  forall ph, (ph < o_nph o)%nat -> let y := user_traj mp z ph in let w := width mp p ph in
    nondegenerate mp w y -> nth ph (o_diff_u o) false = true ->
    (sat (g_block mp npath nterm n ph 2) <->
     forall i k j c q, owned (mp_orders mp) i k j -> (c < o_nu o)%nat -> time_interp mp rs w y k (fun i => y_u y i c) q ->
       within (nth ph (o_lbdu o) NaN) (nth ph (o_ubdu o) NaN)
         (nth c (o_scale_u o) 0 * (seg_h (mp_cf mp) w y k * Derive (peval q) (node_time (mp_cf mp) w y k (nth j (nth k rs []) 0))))).
Proof. exact slope_block. Qed.
Print Assumptions C19_slope_partial.
Theorem C19_slope_refuted : exists mp npath nterm z p rs n,
  input_ok mp npath nterm z p /\ mapM (c_roots (mp_cf mp)) (mp_orders mp) = Ok rs /\ nlp_at mp z p = Ok n /\ feasible n /\
  nth 0 (o_diff_u (mp_ocp mp)) false = true /\ o_scale_u (mp_ocp mp) = [1] /\
  nondegenerate mp (width mp p 0) (user_traj mp z 0) /\
  ~ slope_time_ok mp rs (width mp p 0) 0 (user_traj mp z 0).
Proof. exact slope_wrong. Qed.
Print Assumptions C19_slope_refuted.
(** du_continuity: right on equidistant meshes *)
Theorem C19_continuity_partial : forall mp npath nterm z p, input_ok mp npath nterm z p ->
  let o := mp_ocp mp in
  exists rs n, mapM (c_roots (mp_cf mp)) (mp_orders mp) = Ok rs /\ nlp_at mp z p = Ok n /\
  forall ph, (ph < o_nph o)%nat -> let y := user_traj mp z ph in let w := width mp p ph in
    nondegenerate mp w y -> nth ph (o_ducont o) false = true ->
    (forall k, (S k < length (mp_orders mp))%nat -> w k = w (S k)) ->
    (sat (g_block mp npath nterm n ph 4) <-> ducont_time_ok mp rs w y).
Proof. exact ducont_block. Qed.
Print Assumptions C19_continuity_partial.
Theorem C19_continuity_refuted : exists mp npath nterm z p rs n,
  input_ok mp npath nterm z p /\ mapM (c_roots (mp_cf mp)) (mp_orders mp) = Ok rs /\ nlp_at mp z p = Ok n /\ feasible n /\
  nth 0 (o_ducont (mp_ocp mp)) false = true /\ Rsum (mp_nseg mp) (width mp p 0) = 1 /\
  nondegenerate mp (width mp p 0) (user_traj mp z 0) /\
  ~ ducont_time_ok mp rs (width mp p 0) (user_traj mp z 0).
Proof. exact ducont_wrong. Qed.
Print Assumptions C19_continuity_refuted.
(** equal widths, du_continuity and diff_u on *)
Example C19_case : exists z n, input_ok (demo_mp 1 0 [2] true true [0] [0] 3) (fun _ => None) (fun _ => None) z [1 / 3; 1 / 3; 1 / 3] /\
  nlp_at (demo_mp 1 0 [2] true true [0] [0] 3) z [1 / 3; 1 / 3; 1 / 3] = Ok n.
Proof.
  destruct (demo_z 1 0 [2] true true [0] [0] eq_refl eq_refl eq_refl ltac:(intros s [<-|[]]; lra) ltac:(lia) 3 ltac:(lia)
    (fun _ _ => 0) 1 [1 / 3; 1 / 3; 1 / 3] ltac:(lra) eq_refl) as (z & n & H1 & H2 & _). exists z, n. auto.
Qed.

(** * C20 *)
Theorem C20_guess_partial : forall mp, mpo_ok mp -> shapes_ok (mp_ocp mp) -> scales_pos (mp_ocp mp) -> guess_times_differ (mp_ocp mp) ->
  exists z, initialize_solution mp = Ok z /\
  forall ph, (ph < o_nph (mp_ocp mp))%nat ->
    let o := mp_ocp mp in let n := total_nodes (mp_orders mp) in let y := user_traj mp z ph in
    (forall i s, (i < n)%nat -> (s < o_nx o)%nat ->
       y_x y i s = line n (nth s (nth ph (o_x00 o) []) 0) (nth s (nth ph (o_xf0 o) []) 0) i) /\
    ((o_nu o <= 1)%nat -> forall i c, (i < n)%nat -> (c < o_nu o)%nat ->
       y_u y i c = line n (nth c (nth ph (o_u00 o) []) 0) (nth c (nth ph (o_uf0 o) []) 0) i) /\
    y_t0 y = nth 0 (nth ph (o_t00 o) []) 0 /\ y_tf y = nth 0 (nth ph (o_tf0 o) []) 0 /\
    (forall i, (i < o_na o)%nat -> y_a y i = nth i (nth ph (o_a0 o) []) 0).
Proof. exact guess_user. Qed.
Print Assumptions C20_guess_partial.
Example C20_case : mpo_ok rich_mp /\ shapes_ok (mp_ocp rich_mp) /\ scales_pos (mp_ocp rich_mp) /\ guess_times_differ (mp_ocp rich_mp).
Proof.
  split; [exact rich_mp_ok|]. split; [exact rich_shapes|]. split; [exact rich_scales|].
  intros [|[|ph]] Hph; cbn in Hph |- *; [lra|lra|lia].
Qed.
(** with two controls the guess of one control is written where the other lives *)
Theorem C20_controls_refuted : exists mp z, mpo_ok mp /\ validate (mp_ocp mp) = Ok tt /\ scales_pos (mp_ocp mp) /\ guess_times_differ (mp_ocp mp) /\
  initialize_solution mp = Ok z /\
  exists i c, (i < total_nodes (mp_orders mp))%nat /\ (c < o_nu (mp_ocp mp))%nat /\
    y_u (user_traj mp z 0) i c <>
    line (total_nodes (mp_orders mp)) (nth c (nth 0 (o_u00 (mp_ocp mp)) []) 0) (nth c (nth 0 (o_uf0 (mp_ocp mp)) []) 0) i.
Proof. exact guess_wrong. Qed.
Print Assumptions C20_controls_refuted.

(** * C21 *)
Theorem C21_forward_partial : forall mp npath nterm z p, input_ok mp npath nterm z p ->
  forall n ph, nlp_at mp z p = Ok n -> feasible n -> (ph < o_nph (mp_ocp mp))%nat ->
  ext_le (bnd ph (o_ubt0 (mp_ocp mp)) 0) (bnd ph (o_lbtf (mp_ocp mp)) 0) ->
  y_t0 (user_traj mp z ph) <= y_tf (user_traj mp z ph).
Proof. exact forward_time. Qed.
Print Assumptions C21_forward_partial.
(** a default two-phase problem: the second phase runs backwards *)
Theorem C21_forward_refuted : exists mp z p n, validate (mp_ocp mp) = Ok tt /\ new_ocp 1 1 2 0 = Ok (mp_ocp mp) /\
  input_ok mp (fun _ => None) (fun _ => None) z p /\ nlp_at mp z p = Ok n /\ feasible n /\
  y_tf (user_traj mp z 1) < y_t0 (user_traj mp z 1).
Proof. exact time_wrong. Qed.
Print Assumptions C21_forward_refuted.
(** phase 0 of that problem meets the hypotheses of [C21_forward_partial] *)
Example C21_case : exists mp z p n, input_ok mp (fun _ => None) (fun _ => None) z p /\ nlp_at mp z p = Ok n /\ feasible n /\
  (0 < o_nph (mp_ocp mp))%nat /\ ext_le (bnd 0 (o_ubt0 (mp_ocp mp)) 0) (bnd 0 (o_lbtf (mp_ocp mp)) 0).
Proof.
  destruct time_wrong as (mp & z & p & n & _ & E & H1 & H2 & H3 & _). exists mp, z, p, n.
  split; [exact H1|]. split; [exact H2|]. split; [exact H3|]. injection E as <-. cbn. split; [lia|nred; lra].
Qed.

(** * C42 *)
Theorem C42_validate_iff : forall o : ocp Rnum,
  (validate o = Ok tt <-> shapes_ok o /\ forall ph, (ph < o_nph o)%nat -> guess_ok o ph) /\
  (validate o = Ok tt \/ exists e, validate o = Raise e).
Proof. intros o. split; [exact (validate_spec o)|exact (validate_total o)]. Qed.
Print Assumptions C42_validate_iff.
Theorem C42_defaults : forall nx nu nph na, (1 <= nph)%nat -> exists o : ocp Rnum,
  new_ocp nx nu nph na = Ok o /\ validate o = Ok tt /\ scales_pos o /\
  ((1 <= nx)%nat -> ocp_ok o (fun _ => None) (fun _ => None)).
Proof.
  intros nx nu nph na H. destruct nph as [|m]; [lia|]. destruct (new_ocp (N := Rnum) nx nu (S m) na) as [o|] eqn:E; [|discriminate].
  exists o. split; [reflexivity|]. split; [eapply new_ocp_validates; eauto|]. split; [eapply new_ocp_scales; eauto|].
  intros Hx. eapply new_ocp_ok; eauto.
Qed.
Print Assumptions C42_defaults.
(** switches are not validated: without diff_u the problem is accepted and never transcribed *)
Theorem C42_switches_refuted : exists o : ocp Rnum, validate o = Ok tt /\
  forall mp z p n, mp_ocp mp = o -> nlp_at mp z p <> Ok n.
Proof. exact validate_switches. Qed.
Print Assumptions C42_switches_refuted.

(** * C43 *)
Theorem C43_construct : forall (N : num) (o : ocp N) n a cf,
  ((exists mp, new_mpo o n a cf = Ok mp) <-> length (orders_of n a) = n) /\
  (forall mp, new_mpo o n a cf = Ok mp ->
     mp_ocp mp = o /\ mp_nseg mp = n /\ mp_orders mp = match a with OInt p => repeat p n | OList l => l end /\ mp_cf mp = cf).
Proof. intros N o n a cf. split; [exact (new_mpo_ok o n a cf)|exact (new_mpo_val o n a cf)]. Qed.
Print Assumptions C43_construct.
(** a new problem in a store of objects: a new object that stands for the default problem, whose dynamics are zero;
    nothing else changes *)
Theorem C43_new_problem : forall (N : num) (s : store N) nx nu nph na s' a, make_ocp s nx nu nph na = Ok (s', a) ->
  nth_error (s_ocps s) a = None /\ (forall b, b <> a -> nth_error (s_ocps s') b = nth_error (s_ocps s) b) /\ s_lists s' = s_lists s /\
  exists o, new_ocp nx nu nph na = Ok o /\ ocp_now s' a = Some o /\
    forall ph f x u t p, nth_error (o_dyn o) ph = Some f -> f x u t p = Ok (repeat n0 nx).
Proof. intros N. exact make_ocp_thm. Qed.
Print Assumptions C43_new_problem.
(** in a store of objects: whatever the user does to the objects they hold *)
Theorem C43_copy_partial : forall (N : num) (s : store N) prob n po cf s' m us ob o0,
  make_mpo s prob n po cf = Ok (s', m) ->
  nth_error (s_ocps s) prob = Some ob -> ocp_now s prob = Some o0 ->
  (forall u, In u us -> holds (length (s_ocps s)) (length (s_lists s)) u) ->
  (exists d, ocp_now (usteps s' us) (m_ocp m) = Some (with_dyn o0 d)) /\
  ((forall d, In d (ob_dyn ob) -> exists f, d = DUser f) -> ocp_now (usteps s' us) (m_ocp m) = Some o0).
Proof. intros N. exact copy_thm. Qed.
Print Assumptions C43_copy_partial.
Theorem C43_int_orders : forall (N : num) (s : store N) prob n p cf s' m us, make_mpo s prob n (RInt p) cf = Ok (s', m) ->
  (forall u, In u us -> holds (length (s_ocps s)) (length (s_lists s)) u) ->
  exists o, mpo_now (usteps s' us) m = Some (Mpo o n (repeat p n) cf).
Proof. intros N. exact int_orders_thm. Qed.
Print Assumptions C43_int_orders.
(** what the user's own objects hold: what they wrote last *)
Theorem C43_writes : forall (N : num) us (s : store N) a,
  (forall ob, nth_error (s_ocps s) a = Some ob -> nth_error (s_ocps (usteps s us)) a = Some (ocp_written a ob us)) /\
  (forall l, nth_error (s_lists s) a = Some l -> nth_error (s_lists (usteps s us)) a = Some (list_written a l us)).
Proof. intros N. exact written_thm. Qed.
Print Assumptions C43_writes.
(** given a list, the optimizer has the orders that the user wrote last, the number of segments stays *)
Theorem C43_list_orders : forall (N : num) (s : store N) prob n a cf s' m us, make_mpo s prob n (RList a) cf = Ok (s', m) ->
  (forall u, In u us -> holds (length (s_ocps s)) (length (s_lists s)) u) ->
  exists o l, nth_error (s_lists s) a = Some l /\ length l = n /\ mpo_now (usteps s' us) m = Some (Mpo o n (list_written a l us) cf).
Proof. intros N. exact list_orders_thm. Qed.
Print Assumptions C43_list_orders.
Example C43_case : exists s' m, make_mpo (N := Rnum) (Store [OcpObj rich (map DUser (o_dyn rich))] []) 0 3 (RInt 2) (demo_cf "LGL") = Ok (s', m).
Proof. do 2 eexists. reflexivity. Qed.
(** the default dynamics of the copy belongs to the user's OCP *)
Theorem C43_default_dynamics_refuted : forall cf : ccfg Rnum, exists s prob s' m ob,
  make_ocp (Store [] []) 1 1 1 0 = Ok (s, prob) /\ make_mpo s prob 1 (RInt 1) cf = Ok (s', m) /\
  nth_error (s_ocps s) prob = Some ob /\
  let s2 := usteps s' [USetOcp prob (OcpObj (nx_to (ob_data ob) 2) (ob_dyn ob))] in
  exists o1 o2 f1 f2, ocp_now s' (m_ocp m) = Some o1 /\ ocp_now s2 (m_ocp m) = Some o2 /\
    nth_error (o_dyn o1) 0 = Some f1 /\ nth_error (o_dyn o2) 0 = Some f2 /\ o_nx o1 = 1%nat /\ o_nx o2 = 1%nat /\
    f1 [] [] 0 None = Ok [0] /\ f2 [] [] 0 None = Ok [0; 0].
Proof. exact default_shared. Qed.
Print Assumptions C43_default_dynamics_refuted.
(** a list of orders stays the user's list *)
Theorem C43_orders_list_refuted : forall cf : ccfg Rnum, exists s prob s' m mp1 mp2,
  make_ocp (Store [] [[3%nat]]) 1 1 1 0 = Ok (s, prob) /\ make_mpo s prob 1 (RList 0) cf = Ok (s', m) /\
  mpo_now s' m = Some mp1 /\ mpo_now (usteps s' [USetList 0 [4; 4]%nat]) m = Some mp2 /\
  mp_orders mp1 = [3%nat] /\ mp_orders mp2 = [4; 4]%nat /\ mp_nseg mp2 = 1%nat.
Proof. exact orders_shared. Qed.
Print Assumptions C43_orders_list_refuted.
