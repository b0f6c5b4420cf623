(** Property C83: nodes are determined by their scheme; problems on one segment of LGL or CGL nodes can be run backwards. *)
From Coq Require Import Reals Arith Lia Lra String List.
From Verif Require Import Num PyList Mat Poly Roots Colloc Ocp Transcribe Spec SpecOcp SpecHadapt SpecReverse NumR NodesR ReverseR ExOcp ExReverse.
Import ListNotations.
Open Scope R_scope.
Open Scope list_scope.

(** * C83 *)
(** any numerical library that behaves as documented gives the same nodes *)
Theorem C83_nodes_unique : forall (cf cf' : ccfg Rnum) p, cfg_ok cf -> cfg_ok cf' -> cf_scheme cf = cf_scheme cf' -> cf_tau0 cf = cf_tau0 cf' -> cf_tau1 cf = cf_tau1 cf' ->
  c_roots cf p = c_roots cf' p.
Proof. exact roots_unique. Qed.
Print Assumptions C83_nodes_unique.
(** LGL and CGL nodes are symmetric about the middle of the interval *)
Theorem C83_symmetric : forall (cf : ccfg Rnum) p (r : list R), cfg_ok cf -> In (cf_scheme cf) ["LGL"; "CGL"]%string -> (1 <= p)%nat -> c_roots cf p = Ok r ->
  symmetric (cf_tau0 cf) (cf_tau1 cf) p r.
Proof. exact nodes_symmetric. Qed.
Print Assumptions C83_symmetric.
(** and so are their weights *)
Theorem C83_weights : forall (cf : ccfg Rnum) q, cfg_ok cf -> In (cf_scheme cf) ["LGL"; "CGL"]%string -> (1 <= q)%nat ->
  exists w : list R, quad_weights cf q (cf_tau0 cf) (cf_tau1 cf) = Ok w /\ length w = S q /\ forall j, (j <= q)%nat -> nth (q - j) w 0 = nth j w 0.
Proof. exact weights_thm. Qed.
Print Assumptions C83_weights.
(** LGR nodes are not, for any order from 2 on *)
Theorem C83_radau : forall (cf : ccfg Rnum) p (r : list R), cfg_ok cf -> cf_scheme cf = "LGR"%string -> (2 <= p)%nat -> c_roots cf p = Ok r ->
  ~ symmetric (cf_tau0 cf) (cf_tau1 cf) p r.
Proof. exact radau_nodes. Qed.
Print Assumptions C83_radau.
(** on one segment of LGL or CGL nodes a point meets the constraints, and ends at the start of the reversed problem,
    exactly when the reversed point does so for the reversed problem; the costs are the same *)
Theorem C83_reverse : forall (o o' : ocp Rnum) (cf : ccfg Rnum) q npath nterm npath' nterm' (z z' p : list R),
  let mp : mpo Rnum := Mpo o 1 [q] cf in let mp' : mpo Rnum := Mpo o' 1 [q] cf in
  input_ok mp npath nterm z p -> input_ok mp' npath' nterm' z' p -> reverse o o' -> In (cf_scheme cf) ["LGL"; "CGL"]%string -> widths_ok 1 1 p -> start_within o -> start_within o' ->
  same_traj mp' (user_traj mp' z' 0) (backwards q (user_traj mp z 0)) ->
  exists n n', nlp_at mp z p = Ok n /\ nlp_at mp' z' p = Ok n' /\ n_f n' = n_f n /\
    (feasible n /\ arrives mp o' (user_traj mp z 0) <-> feasible n' /\ arrives mp' o (user_traj mp' z' 0)).
Proof. exact reverse_thm. Qed.
Print Assumptions C83_reverse.
(** not so on two segments: between them only the segment that ends there has to meet the state equations *)
Theorem C83_segments_refuted : exists (mp mp' : mpo Rnum) npath nterm npath' nterm' (z z' p : list R) n n',
  input_ok mp npath nterm z p /\ input_ok mp' npath' nterm' z' p /\ mp_orders mp' = mp_orders mp /\ mp_cf mp' = mp_cf mp /\ cf_scheme (mp_cf mp) = "LGL"%string /\
  reverse (mp_ocp mp) (mp_ocp mp') /\ start_within (mp_ocp mp) /\ start_within (mp_ocp mp') /\ p = [1 / 2; 1 / 2] /\ mp_orders mp = [1; 1]%nat /\
  same_traj mp' (user_traj mp' z' 0) (backwards 2 (user_traj mp z 0)) /\
  nlp_at mp z p = Ok n /\ nlp_at mp' z' p = Ok n' /\ feasible n /\ arrives mp (mp_ocp mp') (user_traj mp z 0) /\ ~ feasible n'.
Proof.
  destruct bend_case as (z & z' & n & n' & Lz & Lz' & En & En' & Hf & Ha & HS & HN).
  exists (slide_mp 1 0 0 2 2), (slide_mp (-1) 1 (-2) 0 2), (fun _ => None), (fun _ => None), (fun _ => None), (fun _ => None), z, z', [1 / 2; 1 / 2], n, n'.
  split; [exact (slide_in 1 0 0 2 2 [1 / 2; 1 / 2] (Nat.lt_0_succ 1) eq_refl z Lz)|]. split; [exact (slide_in (-1) 1 (-2) 0 2 [1 / 2; 1 / 2] (Nat.lt_0_succ 1) eq_refl z' Lz')|].
  split; [reflexivity|]. split; [reflexivity|]. split; [reflexivity|]. split; [exact slide_reverse|]. split; [apply slide_start|]. split; [apply slide_start|]. split; [reflexivity|]. split; [reflexivity|].
  split; [exact HS|]. split; [exact En|]. split; [exact En'|]. split; [exact Hf|]. split; [exact Ha|exact HN].
Qed.
Print Assumptions C83_segments_refuted.
(** a problem, the reversed one, and a point that meets the hypotheses of C83_reverse *)
Example C83_case : exists (z z' : list R) n, let mp := slide_mp 1 0 0 2 1 in let mp' := slide_mp (-1) 1 (-2) 0 1 in
  input_ok mp (fun _ => None) (fun _ => None) z [1] /\ input_ok mp' (fun _ => None) (fun _ => None) z' [1] /\ reverse (mp_ocp mp) (mp_ocp mp') /\ widths_ok 1 1 [1] /\
  start_within (mp_ocp mp) /\ start_within (mp_ocp mp') /\ same_traj mp' (user_traj mp' z' 0) (backwards 1 (user_traj mp z 0)) /\
  nlp_at mp z [1] = Ok n /\ feasible n /\ arrives mp (mp_ocp mp') (user_traj mp z 0).
Proof.
  destruct straight_case as (z & z' & n & Lz & Lz' & En & Hf & Ha & HS). exists z, z', n. intros mp mp'.
  split; [exact (slide_in 1 0 0 2 1 [1] (le_n 1) eq_refl z Lz)|]. split; [exact (slide_in (-1) 1 (-2) 0 1 [1] (le_n 1) eq_refl z' Lz')|]. split; [exact slide_reverse|].
  split; [split; [reflexivity|]; intros [|ph] Hph; [|lia]; split; [reflexivity|split; [intros w [<-|[]]; lra|cbn; lra]]|].
  split; [apply slide_start|]. split; [apply slide_start|]. split; [exact HS|]. split; [exact En|]. split; [exact Hf|exact Ha].
Qed.
