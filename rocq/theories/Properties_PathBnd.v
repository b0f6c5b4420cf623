(** Property C75: bounds of states and controls written as path constraints. *)
From Coq Require Import String Reals List Arith Lia Lra.
From Verif Require Import Num PyList Ocp Colloc Transcribe Spec SpecOcp SpecHadapt SpecPathBnd NumR ExOcp ExTrack PathBndR ExPathBnd.
Import ListNotations.
Open Scope R_scope.
Open Scope list_scope.

(** * C75 *)
(** replace the bounds of states and controls by rows of path constraints: the objective is the same; points that are feasible
    and start inside of the bounds stay feasible, and conversely where the midpoint controls meet the bounds *)
Theorem C75_paths : forall (o : ocp Rnum) K orders cf npath nterm (p : list R),
  let mp := Mpo o K orders cf in let mp' := Mpo (paths_of_bounds o) K orders cf in
  mpo_ok mp -> ocp_ok o npath nterm -> scales_pos o -> length p = (o_nph o * K)%nat ->
  forall z : list R, length z = (o_nph o * nvars mp)%nat ->
  exists rs n n', mapM (c_roots cf) orders = Ok rs /\ nlp_at mp z p = Ok n /\ nlp_at mp' z p = Ok n' /\ n_f n' = n_f n /\
    (feasible n -> start_inside o -> feasible n') /\
    (feasible n' -> (forall ph, (ph < o_nph o)%nat -> midu_ok mp rs ph (user_traj mp z ph)) -> feasible n /\ start_inside o).
Proof. exact paths_thm. Qed.
Print Assumptions C75_paths.
(** the initial state is fixed without a look at its bounds: a point that starts outside of them can be feasible, with path
    constraints in their place it is not *)
Theorem C75_start_refuted : exists (z p : list R) n n', let o := box 1 (Fin 1) (Fin 2) false in
  length z = nvars outside_mp /\ length p = 1%nat /\ nlp_at outside_mp z p = Ok n /\ feasible n /\
  nlp_at (Mpo (paths_of_bounds o) 1 [1%nat] (demo_cf "LGR")) z p = Ok n' /\ ~ feasible n' /\ ~ start_inside o.
Proof. exact start_outside. Qed.
Print Assumptions C75_start_refuted.
(** path constraints hold at the nodes only: between them the control can leave bounds that midpoints were held to, for every scheme *)
Theorem C75_midpoints_refuted : forall (cf : ccfg Rnum) (p : list R), cfg_ok cf -> length p = 1%nat ->
  let o := box 0 NInf PInf true in let mp := Mpo o 1 [2%nat] cf in
  exists (z : list R) n n', length z = nvars mp /\ nlp_at mp z p = Ok n /\ ~ feasible n /\
    nlp_at (Mpo (paths_of_bounds o) 1 [2%nat] cf) z p = Ok n' /\ feasible n' /\ start_inside o.
Proof. exact between_outside. Qed.
Print Assumptions C75_midpoints_refuted.
(** a problem that meets the hypotheses: x' = d u from 0 between lo <= 0 and hi >= 0; two rows for the state, two for the control *)
Example C75_case : forall d lo hi K, (1 <= K)%nat -> lo <= 0 <= hi -> let o := box d (Fin lo) (Fin hi) false in
  mpo_ok (Mpo o K (repeat 1%nat K) (demo_cf "LGR")) /\ ocp_ok o (fun _ => None) (fun _ => None) /\ scales_pos o /\ start_inside o /\
  more_paths o (fun _ => None) 0 = Some 4%nat /\ forall x u, bound_rows o 0 [x] [u] = [lo - x; x - hi; -1 - u; u - 1].
Proof.
  intros d lo hi K HK H o. split.
  { constructor; cbn; auto using repeat_length; [apply demo_cf_ok; cbn; auto|intros q Hq; rewrite (repeat_spec _ _ _ Hq); lia]. }
  split; [apply box_ok; cbn; lra|]. split; [apply box_scales|]. split; [|split; reflexivity].
  intros s Hs. cbn in Hs. assert (s = 0)%nat as -> by lia. split; cbn; apply H.
Qed.
