(** The conditions and the cost of one phase depend on the data of that phase only (used for C80, C81). *)
From Coq Require Import Reals Lia Lra Bool Arith String.
From Coquelicot Require Import Coquelicot.
From Coq Require Import List.
From Verif Require Import Num PyList Mat Poly Roots Colloc Ocp Transcribe Spec SpecOcp SpecTrans NumR ListR PolyR CollocR CompR CollocThm MeshR BlockR DiscR NlpR OcpR ScaleR NlpThm CostR ConvexR TransR.
Import ListNotations.
Open Scope R_scope.

(** phase [i'] of [o'] has the functions, switches and control bounds of phase [i] of [o] *)
Record phase_like (o o' : ocp Rnum) (i i' : nat) : Prop := {
  pl_dims : o_nx o' = o_nx o /\ o_nu o' = o_nu o /\ o_na o' = o_na o;
  pl_scale : o_scale_u o' = o_scale_u o;
  pl_fns : nth_error (o_dyn o') i' = nth_error (o_dyn o) i /\ nth_error (o_path o') i' = nth_error (o_path o) i /\
    nth_error (o_term o') i' = nth_error (o_term o) i /\ nth_error (o_run o') i' = nth_error (o_run o) i /\
    nth_error (o_mayer o') i' = nth_error (o_mayer o) i;
  pl_u : nth i' (o_lbu o') [] = nth i (o_lbu o) [] /\ nth i' (o_ubu o') [] = nth i (o_ubu o) [];
  pl_switches : nth i' (o_diff_u o') false = nth i (o_diff_u o) false /\ nth i' (o_lbdu o') NaN = nth i (o_lbdu o) NaN /\
    nth i' (o_ubdu o') NaN = nth i (o_ubdu o) NaN /\ nth i' (o_midu o') false = nth i (o_midu o) false /\
    nth i' (o_ducont o') false = nth i (o_ducont o) false
}.
Section Phase.
Variables (mp mp' : mpo Rnum) (i i' : nat).
Let o := mp_ocp mp.
Let o' := mp_ocp mp'.
Hypothesis Eo : mp_orders mp' = mp_orders mp.
Hypothesis Ec : mp_cf mp' = mp_cf mp.
Hypothesis Hr : phase_like o o' i i'.
Lemma a_same y : a_of o' y = a_of o y.
Proof. destruct (pl_dims _ _ _ _ Hr) as (_ & _ & E). unfold a_of. rewrite E. reflexivity. Qed.
Lemma nvars_same : nvars mp' = nvars mp.
Proof. destruct (pl_dims _ _ _ _ Hr) as (E1 & E2 & E3). unfold nvars. rewrite Eo. fold o o'. rewrite E1, E2, E3. reflexivity. Qed.
Lemma traj_same y y' : same_traj mp' y y' <-> same_traj mp y y'.
Proof. destruct (pl_dims _ _ _ _ Hr) as (E1 & E2 & E3). unfold same_traj. rewrite Eo. fold o o'. rewrite E1, E2, E3. reflexivity. Qed.
Section At.
Variables (y : utraj) (rs : list (list R)) (w w' : nat -> R).
Hypothesis Hw : forall k, (k < length (mp_orders mp))%nat -> w' k = w k.
Lemma start_move k : (k <= length (mp_orders mp))%nat -> seg_start w' y k = seg_start w y k.
Proof. intros Hk. unfold seg_start. f_equal. f_equal. apply Rsum_ext. intros j Hj. apply Hw. lia. Qed.
Lemma h_move k : (k < length (mp_orders mp))%nat -> seg_h (mp_cf mp') w' y k = seg_h (mp_cf mp) w y k.
Proof. intros Hk. unfold seg_h. rewrite Ec, Hw by exact Hk. reflexivity. Qed.
Lemma time_move k t : (k < length (mp_orders mp))%nat -> seg_time (mp_cf mp') w' y k t = seg_time (mp_cf mp) w y k t.
Proof. intros Hk. unfold seg_time. rewrite h_move, start_move, Ec by lia. reflexivity. Qed.
Lemma dyn_move j t : dyn_val o' i' y j t = dyn_val o i y j t.
Proof. destruct (pl_dims _ _ _ _ Hr) as (E1 & E2 & _). destruct (pl_fns _ _ _ _ Hr) as (F & _). unfold dyn_val. rewrite F, E1, E2, a_same. reflexivity. Qed.
Lemma path_move j t : path_val o' i' y j t = path_val o i y j t.
Proof. destruct (pl_dims _ _ _ _ Hr) as (E1 & E2 & _). destruct (pl_fns _ _ _ _ Hr) as (_ & F & _). unfold path_val. rewrite F, E1, E2, a_same. reflexivity. Qed.
Lemma run_move j t : run_val o' i' y j t = run_val o i y j t.
Proof. destruct (pl_dims _ _ _ _ Hr) as (E1 & E2 & _). destruct (pl_fns _ _ _ _ Hr) as (_ & _ & _ & F & _). unfold run_val. rewrite F, E1, E2, a_same. reflexivity. Qed.
Lemma term_move j : term_val o' i' y j = term_val o i y j.
Proof. destruct (pl_dims _ _ _ _ Hr) as (E1 & E2 & _). destruct (pl_fns _ _ _ _ Hr) as (_ & _ & F & _). unfold term_val. rewrite F, E1, a_same. reflexivity. Qed.
Lemma mayer_move j : mayer_val o' i' y j = mayer_val o i y j.
Proof. destruct (pl_dims _ _ _ _ Hr) as (E1 & E2 & _). destruct (pl_fns _ _ _ _ Hr) as (_ & _ & _ & _ & F). unfold mayer_val. rewrite F, E1, a_same. reflexivity. Qed.
Lemma owned_lt a k j : owned (mp_orders mp) a k j -> (k < length (mp_orders mp))%nat.
Proof. intros (q & E & _). apply nth_error_Some. congruence. Qed.
Lemma phase_move : phase_ok mp' rs w' i' y <-> phase_ok mp rs w i y.
Proof.
  destruct (pl_dims _ _ _ _ Hr) as (E1 & E2 & E3). destruct (pl_switches _ _ _ _ Hr) as (S1 & S2 & S3 & S4 & S5).
  destruct (pl_u _ _ _ _ Hr) as (B3 & B4).
  unfold phase_ok. unfold slope_ok, midu_ok, ducont_ok, terminal_ok, bnd. rewrite Eo. fold o o'. pose proof (pl_scale _ _ _ _ Hr) as Sc. rewrite E2, term_move, Ec. nred. rewrite S1, S2, S3, S4, S5, B3, B4, Sc.
  assert (D : dynamics_ok mp' rs w' i' y <-> dynamics_ok mp rs w i y).
  { unfold dynamics_ok. rewrite Eo. fold o o'. rewrite E1. split; intros H b k j s c Ho Hs Hc; pose proof (H b k j s c Ho Hs Hc) as X; pose proof (owned_lt b k j Ho) as Hk; rewrite dyn_move, h_move, time_move in * by exact Hk; exact X. }
  assert (P : path_ok mp' rs w' i' y <-> path_ok mp rs w i y).
  { unfold path_ok. rewrite Eo. fold o o'. split; intros H b k j c Ho Hc; pose proof (owned_lt b k j Ho) as Hk; apply (H b k j c Ho); rewrite path_move, time_move in * by exact Hk; exact Hc. }
  tauto.
Qed.
Lemma cost_move : node_cost mp' rs w' i' y = node_cost mp rs w i y.
Proof.
  unfold node_cost. rewrite Eo, Ec. fold o o'. rewrite mayer_move. f_equal. apply Rsum_ext. intros k Hk. unfold seg_cost. rewrite Eo, h_move by exact Hk. f_equal. apply Rsum_ext. intros j Hj. f_equal.
  unfold run_at. rewrite Eo. fold o o'. rewrite run_move, time_move by exact Hk. reflexivity.
Qed.
End At.
End Phase.
