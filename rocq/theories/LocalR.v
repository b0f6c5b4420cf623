(** The functions of a problem outside the bounds (proofs of C85). *)
From Coq Require Import Reals Lia Lra Bool Arith String.
From Coquelicot Require Import Coquelicot.
From Coq Require Import List.
From Verif Require Import Num PyList Mat Poly Roots Colloc Ocp Transcribe Spec SpecOcp SpecCoord SpecLocal NumR ListR PolyR CollocR CompR CollocThm MeshR BlockR DiscR NlpR OcpR NlpThm CostR ScaleR ConvexR TransR BesideR.
Import ListNotations.
Open Scope R_scope.

Lemma vec_nth n f s : (s < n)%nat -> nth s (vec n f) 0 = f s.
Proof. intros H. unfold vec. exact (nth_map_seq f n s 0 H). Qed.
Lemma vec_is n f (l : list R) : length l = n -> (forall s, (s < n)%nat -> f s = nth s l 0) -> vec n f = l.
Proof.
  intros L H. apply (nth_ext _ _ 0 0); rewrite len_vec; [now symmetry|]. intros s Hs. rewrite vec_nth by exact Hs. auto.
Qed.
Lemma total_last orders : (total_nodes orders - 1 < total_nodes orders)%nat.
Proof. unfold total_nodes. lia. Qed.
Lemma total_first orders : (0 < total_nodes orders)%nat.
Proof. unfold total_nodes. lia. Qed.
Lemma offset_total l k q : nth_error l k = Some q -> (offset l k + q <= offset l (length l))%nat.
Proof. intros E. rewrite <- (offset_S l k q E). apply offset_mono. exact (MeshR.nth_error_lt _ _ _ E). Qed.
Lemma node_in orders i k j : owned orders i k j -> (i < total_nodes orders)%nat.
Proof. intros (q & Eq & Hj & _ & ->). unfold total_nodes. pose proof (offset_total orders k q Eq). lia. Qed.
Lemma nth_same {F} (l l' : list F) n ph : (ph < n)%nat -> length l = n -> length l' = n -> exists f f', nth_error l ph = Some f /\ nth_error l' ph = Some f'.
Proof.
  intros H L L'. destruct (nth_error l ph) as [f|] eqn:E; [|apply nth_error_None in E; lia]. destruct (nth_error l' ph) as [f'|] eqn:E'; [|apply nth_error_None in E'; lia]. eauto.
Qed.

Section Local.
Variables (mp : mpo Rnum) (dyn : list (@dyn_fn Rnum)) (path : list (@path_fn Rnum)) (mayer : list (@mayer_fn Rnum)) (run : list (@run_fn Rnum)) (term : list (@term_fn Rnum)) (npath nterm np' nt' : nat -> option nat).
Let o := mp_ocp mp.
Let o' := with_functions o dyn path mayer run term.
Let N := total_nodes (mp_orders mp).
Hypothesis Ho : ocp_ok o npath nterm.
Hypothesis Ho' : ocp_ok o' np' nt'.
Hypothesis HA : alike_within o dyn path mayer run term.
Section Phase.
Variables (ph : nat) (y : utraj).
Hypothesis Hph : (ph < o_nph o)%nat.
Hypothesis HB : bounds_ok mp ph y.
Lemma in_x i : (i < N)%nat -> x_within o ph (vec (o_nx o) (y_x y i)).
Proof using Ho Hph HB.
  intros Hi. split; [apply len_vec|]. destruct HB as (X & _). fold o in X. destruct (Nat.eqb ph 0 && Nat.eqb i 0) eqn:E.
  - right. apply andb_true_iff in E. destruct E as (E1 & E2). apply Nat.eqb_eq in E1, E2. split; [exact E1|]. apply vec_is.
    + destruct (sh_x00 _ (ok_shapes _ _ _ Ho)) as (L & H). apply H. apply nth_In. rewrite L. pose proof (sh_nph _ (ok_shapes _ _ _ Ho)). lia.
    + intros s Hs. specialize (X i s Hi Hs). rewrite E1, E2 in X. cbn in X. rewrite E2. exact X.
  - left. intros s Hs. rewrite vec_nth by exact Hs. specialize (X i s Hi Hs). rewrite E in X. exact X.
Qed.
Lemma in_u i : (i < N)%nat -> u_within o ph (vec (o_nu o) (y_u y i)).
Proof using HB. intros Hi. split; [apply len_vec|]. intros s Hs. rewrite vec_nth by exact Hs. destruct HB as (_ & U & _). exact (U i s Hi Hs). Qed.
Lemma in_a : a_within o ph (a_of o y).
Proof using HB.
  split; [rewrite a_of_args; apply args_arg, len_vec|]. intros l E s Hs. rewrite a_of_args in E. destruct HB as (_ & _ & _ & _ & A). fold o in A.
  assert (l = vec (o_na o) (y_a y)) as -> by (destruct (vec (o_na o) (y_a y)); cbn in E; [discriminate E|now injection E as <-]). rewrite vec_nth by exact Hs. exact (A s Hs).
Qed.
Lemma path_alike i t : (i < N)%nat -> path_val o' ph y i t = path_val o ph y i t.
Proof using Ho Ho' HA Hph HB.
  intros Hi. destruct (nth_same (o_path o) path (o_nph o) ph Hph (sh_path _ (ok_shapes _ _ _ Ho)) (sh_path _ (ok_shapes _ _ _ Ho'))) as (f & g & Ef & Eg).
  unfold path_val. change (o_path o') with path. nred. rewrite Ef, Eg. change (a_of o' y) with (a_of o y). change (o_nx o') with (o_nx o). change (o_nu o') with (o_nu o).
  rewrite (al_path _ _ _ _ _ _ HA ph f g _ _ t _ Ef Eg (in_x i Hi) (in_u i Hi) in_a). reflexivity.
Qed.
Lemma run_alike i t : (i < N)%nat -> run_val o' ph y i t = run_val o ph y i t.
Proof using Ho Ho' HA Hph HB.
  intros Hi. destruct (nth_same (o_run o) run (o_nph o) ph Hph (sh_run _ (ok_shapes _ _ _ Ho)) (sh_run _ (ok_shapes _ _ _ Ho'))) as (f & g & Ef & Eg).
  unfold run_val. change (o_run o') with run. nred. rewrite Ef, Eg. change (a_of o' y) with (a_of o y). change (o_nx o') with (o_nx o). change (o_nu o') with (o_nu o).
  rewrite (al_run _ _ _ _ _ _ HA ph f g _ _ t _ Ef Eg (in_x i Hi) (in_u i Hi) in_a). reflexivity.
Qed.
Lemma term_alike : term_val o' ph y (N - 1) = term_val o ph y (N - 1).
Proof using Ho Ho' HA Hph HB.
  destruct (nth_same (o_term o) term (o_nph o) ph Hph (sh_term _ (ok_shapes _ _ _ Ho)) (sh_term _ (ok_shapes _ _ _ Ho'))) as (f & g & Ef & Eg).
  unfold term_val. change (o_term o') with term. nred. rewrite Ef, Eg. change (a_of o' y) with (a_of o y). change (o_nx o') with (o_nx o).
  rewrite (al_term _ _ _ _ _ _ HA ph f g _ (y_tf y) _ (y_t0 y) _ Ef Eg (in_x (N - 1) (total_last _)) (in_x 0 (total_first _)) in_a). reflexivity.
Qed.
Lemma mayer_alike : mayer_val o' ph y (N - 1) = mayer_val o ph y (N - 1).
Proof using Ho Ho' HA Hph HB.
  destruct (nth_same (o_mayer o) mayer (o_nph o) ph Hph (sh_mayer _ (ok_shapes _ _ _ Ho)) (sh_mayer _ (ok_shapes _ _ _ Ho'))) as (f & g & Ef & Eg).
  unfold mayer_val. change (o_mayer o') with mayer. nred. rewrite Ef, Eg. change (a_of o' y) with (a_of o y). change (o_nx o') with (o_nx o).
  rewrite (al_mayer _ _ _ _ _ _ HA ph f g _ (y_tf y) _ (y_t0 y) _ Ef Eg (in_x (N - 1) (total_last _)) (in_x 0 (total_first _)) in_a). reflexivity.
Qed.
Lemma dyn_alike i t : (i < N)%nat -> (forall c, In c (path_val o ph y i t) -> c <= 0) -> dyn_val o' ph y i t = dyn_val o ph y i t.
Proof using Ho Ho' HA Hph HB.
  intros Hi HP. destruct (nth_same (o_dyn o) dyn (o_nph o) ph Hph (sh_dyn _ (ok_shapes _ _ _ Ho)) (sh_dyn _ (ok_shapes _ _ _ Ho'))) as (f & g & Ef & Eg).
  destruct (nth_same (o_path o) path (o_nph o) ph Hph (sh_path _ (ok_shapes _ _ _ Ho)) (sh_path _ (ok_shapes _ _ _ Ho'))) as (c & c' & Ec & _).
  unfold dyn_val. change (o_dyn o') with dyn. nred. rewrite Ef, Eg. change (a_of o' y) with (a_of o y). change (o_nx o') with (o_nx o). change (o_nu o') with (o_nu o).
  rewrite (al_dyn _ _ _ _ _ _ HA ph f g c _ _ t _ Ef Eg Ec (in_x i Hi) (in_u i Hi) in_a); [reflexivity|].
  intros l v El Hv. apply HP. unfold path_val. nred. rewrite Ec, El. exact Hv.
Qed.
Lemma phase_alike rs w : phase_ok (with_ocp mp o') rs w ph y <-> phase_ok mp rs w ph y.
Proof using Ho Ho' HA Hph HB.
  unfold phase_ok.
  assert (P : path_ok (with_ocp mp o') rs w ph y <-> path_ok mp rs w ph y).
  { unfold path_ok. cbn [with_ocp mp_ocp mp_orders mp_cf]. split; intros H i k j c Hoo Hc; apply (H i k j c Hoo); [rewrite path_alike by exact (node_in _ _ _ _ Hoo)|rewrite <- path_alike by exact (node_in _ _ _ _ Hoo)]; exact Hc. }
  assert (D : path_ok mp rs w ph y -> (dynamics_ok (with_ocp mp o') rs w ph y <-> dynamics_ok mp rs w ph y)).
  { intros HP. unfold dynamics_ok. cbn [with_ocp mp_ocp mp_orders mp_cf]. fold o. split; intros H i k j s c Hoo Hs Hc; specialize (H i k j s c Hoo Hs Hc).
    - rewrite dyn_alike in H; [exact H|exact (node_in _ _ _ _ Hoo)|intros v Hv; exact (HP i k j v Hoo Hv)].
    - rewrite dyn_alike; [exact H|exact (node_in _ _ _ _ Hoo)|intros v Hv; exact (HP i k j v Hoo Hv)]. }
  assert (T : terminal_ok (with_ocp mp o') ph y <-> terminal_ok mp ph y).
  { unfold terminal_ok. cbn [with_ocp mp_ocp mp_orders]. fold N. rewrite term_alike. reflexivity. }
  change (slope_ok (with_ocp mp o') rs ph y) with (slope_ok mp rs ph y). change (midu_ok (with_ocp mp o') rs ph y) with (midu_ok mp rs ph y). change (ducont_ok (with_ocp mp o') rs ph y) with (ducont_ok mp rs ph y).
  tauto.
Qed.
Lemma cost_alike rs w : node_cost (with_ocp mp o') rs w ph y = node_cost mp rs w ph y.
Proof using Ho Ho' HA Hph HB.
  unfold node_cost. cbn [with_ocp mp_ocp mp_orders mp_cf]. fold N. rewrite mayer_alike. f_equal. apply Rsum_ext. intros k Hk. unfold seg_cost. cbn [with_ocp mp_orders mp_cf]. f_equal. apply Rsum_ext. intros j Hj. f_equal.
  unfold run_at. cbn [with_ocp mp_ocp mp_orders mp_cf]. apply run_alike. pose proof (offset_total (mp_orders mp) k _ (nth_error_nth' _ 0%nat Hk)). unfold N, total_nodes. lia.
Qed.
End Phase.
End Local.
Theorem local_thm mp dyn path mayer run term npath nterm np' nt' (z p : list R) : let o' := with_functions (mp_ocp mp) dyn path mayer run term in
  input_ok mp npath nterm z p -> ocp_ok o' np' nt' -> alike_within (mp_ocp mp) dyn path mayer run term ->
  exists n n', nlp_at mp z p = Ok n /\ nlp_at (with_ocp mp o') z p = Ok n' /\ (feasible n' <-> feasible n) /\ (feasible n -> n_f n' = n_f n).
Proof.
  intros o' Hi Ho' HA. pose proof (in_ocp _ _ _ _ _ Hi) as Ho.
  assert (Hi' : input_ok (with_ocp mp o') np' nt' z p) by (destruct Hi as [[A1 A2 A3 A4] B [C1 C2 C3 C4] D E]; constructor; [constructor; assumption|exact Ho'|constructor; assumption|exact D|exact E]).
  destruct (nlp_like mp _ _ z p (user_traj mp z) Hi (fun ph _ => same_refl _ _)) as (rs & n & Er & En & _ & HF & HC).
  destruct (nlp_like (with_ocp mp o') _ _ z p (user_traj mp z) Hi') as (rs' & n' & Er' & En' & _ & HF' & HC').
  { intros ph Hph. change (user_traj (with_ocp mp o') z ph) with (user_traj mp z ph). apply same_refl. }
  assert (rs' = rs) as -> by (pose proof (eq_trans (eq_sym Er') Er) as X; injection X as X; exact X).
  exists n, n'. split; [exact En|]. split; [exact En'|]. split.
  - rewrite HF, HF'. split; intros (B & P & L); (split; [exact B|split; [|exact L]]); intros ph Hph.
    + apply (phase_alike mp dyn path mayer run term npath nterm np' nt' Ho Ho' HA ph _ Hph (B ph Hph)). exact (P ph Hph).
    + apply (phase_alike mp dyn path mayer run term npath nterm np' nt' Ho Ho' HA ph _ Hph (B ph Hph)). exact (P ph Hph).
  - intros F. destruct (proj1 HF F) as (B & _). rewrite HC, HC'. apply Rsum_ext. intros ph Hph. exact (cost_alike mp dyn path mayer run term npath nterm np' nt' Ho Ho' HA ph _ Hph (B ph Hph) rs _).
Qed.
Theorem local_best mp dyn path mayer run term npath nterm np' nt' (z p : list R) : let o' := with_functions (mp_ocp mp) dyn path mayer run term in
  input_ok mp npath nterm z p -> ocp_ok o' np' nt' -> alike_within (mp_ocp mp) dyn path mayer run term -> (best (with_ocp mp o') p z <-> best mp p z).
Proof.
  intros o' Hi Ho' HA.
  assert (X : forall z1 : list R, length z1 = length z -> exists n n', nlp_at mp z1 p = Ok n /\ nlp_at (with_ocp mp o') z1 p = Ok n' /\ (feasible n' <-> feasible n) /\ (feasible n -> n_f n' = n_f n)).
  { intros z1 L1. apply (local_thm mp dyn path mayer run term npath nterm np' nt' z1 p); auto. exact (input_again _ _ _ _ z1 _ Hi (eq_trans L1 (in_z _ _ _ _ _ Hi))). }
  destruct (X z eq_refl) as (n & n' & En & En' & HF & HC). split; intros (m & Em & F & B).
  - rewrite <- (same_ok _ _ _ _ _ En' Em) in *. apply HF in F. exists n. split; [exact En|]. split; [exact F|]. intros z1 n1 L1 E1 F1. destruct (X z1 L1) as (n1' & m1 & En1 & Em1 & HF1 & HC1).
    rewrite <- (same_ok _ _ _ _ _ E1 En1) in *. pose proof (B z1 m1 L1 Em1 (proj2 HF1 F1)) as Y. rewrite (HC F), (HC1 F1) in Y. exact Y.
  - rewrite <- (same_ok _ _ _ _ _ En Em) in *. exists n'. split; [exact En'|]. split; [apply HF; exact F|]. intros z1 n1 L1 E1 F1. destruct (X z1 L1) as (m1 & n1' & Em1 & En1 & HF1 & HC1).
    rewrite <- (same_ok _ _ _ _ _ E1 En1) in *. apply HF1 in F1. pose proof (B z1 m1 L1 Em1 F1) as Y. rewrite (HC F), (HC1 F1). exact Y.
Qed.
