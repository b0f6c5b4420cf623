(** Costs measured on another scale (proofs of C88). *)
From Coq Require Import Reals Lia Lra Bool Arith String.
From Coquelicot Require Import Coquelicot.
From Coq Require Import List.
From Verif Require Import Num PyList Mat Poly Roots Colloc Ocp Transcribe Spec SpecOcp SpecCoord SpecLocal SpecScore NumR ListR PolyR CollocR MeshR BlockR DiscR NlpR OcpR ScaleR NlpThm CostR ConvexR TransR BesideR ExTail.
Import ListNotations.
Open Scope R_scope.

Lemma lengthvec n f : length (vec n f) = n.
Proof. unfold vec. rewrite map_length, seq_length. reflexivity. Qed.
Lemma a_of_is o y : arg_ok o (a_of o y).
Proof. unfold arg_ok, a_of. destruct (Nat.eqb (o_na o) 0); [reflexivity|]. eexists. split; [reflexivity|apply lengthvec]. Qed.
Lemma Rsum_only n k f : (k < n)%nat -> (forall i, (i < n)%nat -> i <> k -> f i = 0) -> Rsum n f = f k.
Proof.
  intros Hk H. induction n as [|n IH]; [lia|]. cbn [Rsum]. destruct (Nat.eq_dec k n) as [->|Hne].
  - replace (Rsum n f) with 0; [ring|]. symmetry. apply Rsum_0. intros i Hi. apply H; lia.
  - rewrite IH by (try lia; intros; apply H; lia). rewrite (H n) by lia. ring.
Qed.
Section Score.
Variables (mp : mpo Rnum) (npath nterm np' nt' : nat -> option nat) (ph0 : nat) (g : R -> R) (mayer : list (@mayer_fn Rnum)).
Let o := mp_ocp mp.
Let o' := with_functions o (o_dyn o) (o_path o) mayer (o_run o) (o_term o).
Hypothesis Ho : ocp_ok o npath nterm.
Hypothesis Ho' : ocp_ok o' np' nt'.
Hypothesis H1 : one_cost o ph0.
Hypothesis Hg : scored o (fun ph => Nat.eqb ph ph0) g mayer.
Lemma mayer_scored ph y l : (ph < o_nph o)%nat -> mayer_val o' ph y l = (if Nat.eqb ph ph0 then g (mayer_val o ph y l) else 0) /\ (ph <> ph0 -> mayer_val o ph y l = 0).
Proof.
  intros Hph. destruct (nth_error (o_mayer o) ph) as [f|] eqn:Ef; [|apply nth_error_None in Ef; rewrite (sh_mayer _ (ok_shapes _ _ _ Ho)) in Ef; clear - Ef Hph; lia].
  destruct (nth_error mayer ph) as [h|] eqn:Eh; [|apply nth_error_None in Eh; pose proof (sh_mayer _ (ok_shapes _ _ _ Ho')) as L; cbn in L; clear - Eh Hph L; unfold o in *; nred; lia].
  destruct (ok_mayer _ _ _ Ho ph f (vec (o_nx o) (y_x y l)) (y_tf y) (vec (o_nx o) (y_x y 0)) (y_t0 y) (a_of o y) Ef (lengthvec _ _) (lengthvec _ _) (a_of_is o y)) as (v & Ev).
  assert (E1 : mayer_val o ph y l = v) by (unfold mayer_val; rewrite Ef, Ev; reflexivity).
  pose proof (Hg ph f h _ _ _ _ _ v Ef Eh Ev) as Ew.
  assert (E2 : mayer_val o' ph y l = if Nat.eqb ph ph0 then g v else v) by (unfold mayer_val; change (o_mayer o') with mayer; rewrite Eh; change (a_of o' y) with (a_of o y); change (o_nx o') with (o_nx o); rewrite Ew; reflexivity).
  assert (E3 : ph <> ph0 -> v = 0) by (intros Hne; exact (proj2 (proj2 H1) ph f _ _ _ _ _ v Hne Ef Ev)).
  rewrite E1, E2. split; [|exact E3]. destruct (Nat.eqb_spec ph ph0) as [->|Hne]; [reflexivity|exact (E3 Hne)].
Qed.
Lemma run_nil rs w ph y : (ph < o_nph o)%nat -> forall k j, run_at mp rs w ph y k j = 0.
Proof.
  intros Hph k j. unfold run_at, run_val. fold o. destruct (nth_error (o_run o) ph) as [f|] eqn:Ef; [|reflexivity].
  match goal with |- match f ?x ?u ?t ?a with _ => _ end = 0 => destruct (ok_run _ _ _ Ho ph f x u t a Ef (lengthvec _ _) (lengthvec _ _) (a_of_is o y)) as (v & Ev); rewrite Ev; exact (proj1 (proj2 H1) ph f x u t a v Ef Ev) end.
Qed.
Lemma cost_scored rs w ys : Rsum (o_nph o) (fun ph => node_cost (with_ocp mp o') rs (w ph) ph (ys ph)) = g (Rsum (o_nph o) (fun ph => node_cost mp rs (w ph) ph (ys ph))).
Proof.
  assert (A : forall ph, (ph < o_nph o)%nat -> node_cost mp rs (w ph) ph (ys ph) = mayer_val o ph (ys ph) (total_nodes (mp_orders mp) - 1)) by (intros ph Hph; apply no_run; exact (run_nil rs (w ph) ph (ys ph) Hph)).
  assert (A' : forall ph, (ph < o_nph o)%nat -> node_cost (with_ocp mp o') rs (w ph) ph (ys ph) = mayer_val o' ph (ys ph) (total_nodes (mp_orders mp) - 1)) by (intros ph Hph; apply (no_run (with_ocp mp o')); exact (run_nil rs (w ph) ph (ys ph) Hph)).
  pose proof (proj1 H1) as Hp0. rewrite (Rsum_only _ ph0 _ Hp0), (Rsum_only _ ph0 _ Hp0).
  - rewrite (A ph0 Hp0), (A' ph0 Hp0). rewrite (proj1 (mayer_scored ph0 (ys ph0) _ Hp0)), Nat.eqb_refl. reflexivity.
  - intros ph Hph Hne. rewrite (A ph Hph). exact (proj2 (mayer_scored ph (ys ph) _ Hph) Hne).
  - intros ph Hph Hne. rewrite (A' ph Hph), (proj1 (mayer_scored ph (ys ph) _ Hph)). destruct (Nat.eqb_spec ph ph0); [contradiction|reflexivity].
Qed.
End Score.
Theorem score_thm mp npath nterm np' nt' ph0 g mayer (z p : list R) : let o := mp_ocp mp in let o' := with_functions o (o_dyn o) (o_path o) mayer (o_run o) (o_term o) in
  input_ok mp npath nterm z p -> ocp_ok o' np' nt' -> one_cost o ph0 -> scored o (fun ph => Nat.eqb ph ph0) g mayer ->
  exists n n', nlp_at mp z p = Ok n /\ nlp_at (with_ocp mp o') z p = Ok n' /\ (feasible n' <-> feasible n) /\ n_f n' = g (n_f n).
Proof.
  intros o o' Hi Ho' H1 Hg. pose proof (in_ocp _ _ _ _ _ Hi) as Ho.
  assert (Hi' : input_ok (with_ocp mp o') np' nt' z p) by (destruct Hi as [[A1 A2 A3 A4] B [C1 C2 C3 C4] D E]; constructor; [constructor; assumption|exact Ho'|constructor; assumption|exact D|exact E]).
  destruct (nlp_like mp _ _ z p (user_traj mp z) Hi (fun ph _ => same_refl _ _)) as (rs & n & Er & En & _ & HF & HC).
  destruct (nlp_like (with_ocp mp o') _ _ z p (user_traj mp z) Hi') as (rs' & n' & Er' & En' & _ & HF' & HC').
  { intros ph Hph. change (user_traj (with_ocp mp o') z ph) with (user_traj mp z ph). apply same_refl. }
  assert (rs' = rs) as -> by (pose proof (eq_trans (eq_sym Er') Er) as X; injection X as X; exact X).
  exists n, n'. split; [exact En|]. split; [exact En'|]. split; [rewrite HF, HF'; split; intros X; exact X|]. rewrite HC, HC'.
  exact (cost_scored mp npath nterm np' nt' ph0 g mayer Ho Ho' H1 Hg rs (width mp p) (user_traj mp z)).
Qed.
Theorem score_best mp npath nterm np' nt' ph0 g mayer (D : R -> Prop) (z p : list R) : let o := mp_ocp mp in let o' := with_functions o (o_dyn o) (o_path o) mayer (o_run o) (o_term o) in
  input_ok mp npath nterm z p -> ocp_ok o' np' nt' -> one_cost o ph0 -> scored o (fun ph => Nat.eqb ph ph0) g mayer ->
  (forall (z1 : list R) n1, length z1 = length z -> nlp_at mp z1 p = Ok n1 -> feasible n1 -> D (n_f n1)) -> (forall v w, D v -> D w -> v < w -> g v < g w) ->
  (best (with_ocp mp o') p z <-> best mp p z).
Proof.
  intros o o' Hi Ho' H1 Hg HD Hinc.
  assert (X : forall z1 : list R, length z1 = length z -> exists n n', nlp_at mp z1 p = Ok n /\ nlp_at (with_ocp mp o') z1 p = Ok n' /\ (feasible n' <-> feasible n) /\ n_f n' = g (n_f n)).
  { intros z1 L1. apply (score_thm mp npath nterm np' nt' ph0 g mayer z1 p); auto. exact (input_again _ _ _ _ z1 _ Hi (eq_trans L1 (in_z _ _ _ _ _ Hi))). }
  destruct (X z eq_refl) as (n & n' & En & En' & HF & HC). split; intros (m & Em & F & B).
  - rewrite <- (same_ok _ _ _ _ _ En' Em) in *. apply HF in F. exists n. split; [exact En|]. split; [exact F|]. intros z1 n1 L1 E1 F1. destruct (X z1 L1) as (n1' & m1 & En1 & Em1 & HF1 & HC1).
    rewrite <- (same_ok _ _ _ _ _ E1 En1) in *. pose proof (B z1 m1 L1 Em1 (proj2 HF1 F1)) as Y. rewrite HC, HC1 in Y.
    destruct (Rle_lt_dec (n_f n) (n_f n1)) as [Z|Z]; [exact Z|]. exfalso. pose proof (Hinc _ _ (HD z1 n1 L1 E1 F1) (HD z n eq_refl En F) Z) as W. exact (Rlt_not_le _ _ W Y).
  - rewrite <- (same_ok _ _ _ _ _ En Em) in *. exists n'. split; [exact En'|]. split; [apply HF; exact F|]. intros z1 n1 L1 E1 F1. destruct (X z1 L1) as (m1 & n1' & Em1 & En1 & HF1 & HC1).
    rewrite <- (same_ok _ _ _ _ _ E1 En1) in *. apply HF1 in F1. pose proof (B z1 m1 L1 Em1 F1) as Y. rewrite HC, HC1.
    destruct (Rle_lt_or_eq_dec _ _ Y) as [Z|Z]; [left; exact (Hinc _ _ (HD z n eq_refl En F) (HD z1 m1 L1 Em1 F1) Z)|rewrite Z; apply Rle_refl].
Qed.
