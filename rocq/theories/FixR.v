(** Parameters with given values (proofs of C89). *)
From Coq Require Import Reals Lia Lra Bool Arith String.
From Coquelicot Require Import Coquelicot.
From Coq Require Import List.
From Verif Require Import Num PyList Mat Poly Roots Colloc Ocp Transcribe Spec SpecOcp SpecCoord SpecBeside SpecFix NumR ListR PolyR CollocR CompR CollocThm MeshR BlockR DiscR NlpR OcpR NlpThm CostR ScaleR ConvexR TransR BesideR LocalR.
Import ListNotations.
Open Scope R_scope.

Section Fix.
Variables (mp : mpo Rnum) (q : ocp Rnum) (al : nat -> list R) (npath nterm np' nt' : nat -> option nat).
Let o := mp_ocp mp.
Let o' := reparam o q.
Let N := total_nodes (mp_orders mp).
Hypothesis Ho : ocp_ok o npath nterm.
Hypothesis Ho' : ocp_ok o' np' nt'.
Hypothesis HP : put_in o q al.
Section Phase.
Variables (ph : nat) (y : utraj).
Hypothesis Hph : (ph < o_nph o)%nat.
Lemma bounds_fix : bounds_ok mp ph y <-> bounds_ok (with_ocp mp o') ph y /\ forall i, (i < length (al ph))%nat -> y_a y (o_na q + i)%nat = nth i (al ph) 0.
Proof using Hph HP.
  unfold bounds_ok. cbn [with_ocp mp_ocp mp_orders]. fold o. split.
  - intros (A & B & C & D & E). pose proof (pi_na _ _ _ HP ph Hph) as L. split.
    + split; [exact A|]. split; [exact B|]. split; [exact C|]. split; [exact D|]. intros i Hi. destruct (pi_kept _ _ _ HP ph i Hph Hi) as (K1 & K2).
      assert (Hi' : (i < o_na o)%nat) by (cbn in Hi; rewrite L; nred; lia). pose proof (E i Hi') as X. rewrite K1, K2 in X. exact X.
    + intros i Hi. apply (pi_given _ _ _ HP ph i _ Hph Hi). apply E. rewrite L. apply Nat.add_lt_mono_l. exact Hi.
  - intros ((A & B & C & D & E) & G). pose proof (pi_na _ _ _ HP ph Hph) as L. split; [exact A|]. split; [exact B|]. split; [exact C|]. split; [exact D|].
    intros i Hi. rewrite L in Hi. destruct (Nat.lt_ge_cases i (o_na q)) as [Hlt|Hge].
    + destruct (pi_kept _ _ _ HP ph i Hph Hlt) as (K1 & K2). rewrite K1, K2. exact (E i Hlt).
    + pose proof (G (i - o_na q)%nat ltac:(clear - Hi Hge; lia)) as X. pose proof (proj2 (pi_given _ _ _ HP ph (i - o_na q)%nat _ Hph ltac:(clear - Hi Hge; lia)) X) as Y.
      assert (Ei : (o_na q + (i - o_na q) = i)%nat) by (clear - Hge; lia). rewrite Ei in Y. exact Y.
Qed.
Hypothesis HG : forall i, (i < length (al ph))%nat -> y_a y (o_na q + i)%nat = nth i (al ph) 0.
Lemma a_fix : a_of o y = args (vec (o_na q) (y_a y) ++ al ph) /\ a_of o' y = args (vec (o_na q) (y_a y)).
Proof using Hph HP HG.
  split; [|exact (a_of_args o' y)]. rewrite a_of_args, (pi_na _ _ _ HP ph Hph), vec_beside. f_equal. f_equal. apply vec_is; [reflexivity|exact HG].
Qed.
Lemma path_fix i t : path_val o' ph y i t = path_val o ph y i t.
Proof using Ho Ho' HP Hph HG.
  destruct (nth_same (o_path o) (o_path q) (o_nph o) ph Hph (sh_path _ (ok_shapes _ _ _ Ho)) (sh_path _ (ok_shapes _ _ _ Ho'))) as (f & g & Ef & Eg). destruct a_fix as (A & A').
  unfold path_val. change (o_path o') with (o_path q). nred. rewrite Ef, Eg, A, A'. change (o_nx o') with (o_nx o). change (o_nu o') with (o_nu o).
  rewrite (pi_path _ _ _ HP ph f g _ _ t _ Ef Eg (len_vec _ _)). reflexivity.
Qed.
Lemma run_fix i t : run_val o' ph y i t = run_val o ph y i t.
Proof using Ho Ho' HP Hph HG.
  destruct (nth_same (o_run o) (o_run q) (o_nph o) ph Hph (sh_run _ (ok_shapes _ _ _ Ho)) (sh_run _ (ok_shapes _ _ _ Ho'))) as (f & g & Ef & Eg). destruct a_fix as (A & A').
  unfold run_val. change (o_run o') with (o_run q). nred. rewrite Ef, Eg, A, A'. change (o_nx o') with (o_nx o). change (o_nu o') with (o_nu o).
  rewrite (pi_run _ _ _ HP ph f g _ _ t _ Ef Eg (len_vec _ _)). reflexivity.
Qed.
Lemma dyn_fix i t : dyn_val o' ph y i t = dyn_val o ph y i t.
Proof using Ho Ho' HP Hph HG.
  destruct (nth_same (o_dyn o) (o_dyn q) (o_nph o) ph Hph (sh_dyn _ (ok_shapes _ _ _ Ho)) (sh_dyn _ (ok_shapes _ _ _ Ho'))) as (f & g & Ef & Eg). destruct a_fix as (A & A').
  unfold dyn_val. change (o_dyn o') with (o_dyn q). nred. rewrite Ef, Eg, A, A'. change (o_nx o') with (o_nx o). change (o_nu o') with (o_nu o).
  rewrite (pi_dyn _ _ _ HP ph f g _ _ t _ Ef Eg (len_vec _ _)). reflexivity.
Qed.
Lemma term_fix l : term_val o' ph y l = term_val o ph y l.
Proof using Ho Ho' HP Hph HG.
  destruct (nth_same (o_term o) (o_term q) (o_nph o) ph Hph (sh_term _ (ok_shapes _ _ _ Ho)) (sh_term _ (ok_shapes _ _ _ Ho'))) as (f & g & Ef & Eg). destruct a_fix as (A & A').
  unfold term_val. change (o_term o') with (o_term q). nred. rewrite Ef, Eg, A, A'. change (o_nx o') with (o_nx o).
  rewrite (pi_term _ _ _ HP ph f g _ (y_tf y) _ (y_t0 y) _ Ef Eg (len_vec _ _)). reflexivity.
Qed.
Lemma mayer_fix l : mayer_val o' ph y l = mayer_val o ph y l.
Proof using Ho Ho' HP Hph HG.
  destruct (nth_same (o_mayer o) (o_mayer q) (o_nph o) ph Hph (sh_mayer _ (ok_shapes _ _ _ Ho)) (sh_mayer _ (ok_shapes _ _ _ Ho'))) as (f & g & Ef & Eg). destruct a_fix as (A & A').
  unfold mayer_val. change (o_mayer o') with (o_mayer q). nred. rewrite Ef, Eg, A, A'. change (o_nx o') with (o_nx o).
  rewrite (pi_mayer _ _ _ HP ph f g _ (y_tf y) _ (y_t0 y) _ Ef Eg (len_vec _ _)). reflexivity.
Qed.
Lemma phase_fix rs w : phase_ok (with_ocp mp o') rs w ph y <-> phase_ok mp rs w ph y.
Proof using Ho Ho' HP Hph HG.
  unfold phase_ok.
  assert (P : path_ok (with_ocp mp o') rs w ph y <-> path_ok mp rs w ph y).
  { unfold path_ok. cbn [with_ocp mp_ocp mp_orders mp_cf]. split; intros H i k j c Hoo Hc; apply (H i k j c Hoo); [rewrite path_fix|rewrite <- path_fix]; exact Hc. }
  assert (D : dynamics_ok (with_ocp mp o') rs w ph y <-> dynamics_ok mp rs w ph y).
  { unfold dynamics_ok. cbn [with_ocp mp_ocp mp_orders mp_cf]. fold o. split; intros H i k j s c Hoo Hs Hc; specialize (H i k j s c Hoo Hs Hc).
    - rewrite dyn_fix in H. exact H.
    - rewrite dyn_fix. exact H. }
  assert (T : terminal_ok (with_ocp mp o') ph y <-> terminal_ok mp ph y).
  { unfold terminal_ok. cbn [with_ocp mp_ocp mp_orders]. rewrite term_fix. reflexivity. }
  change (slope_ok (with_ocp mp o') rs ph y) with (slope_ok mp rs ph y). change (midu_ok (with_ocp mp o') rs ph y) with (midu_ok mp rs ph y). change (ducont_ok (with_ocp mp o') rs ph y) with (ducont_ok mp rs ph y).
  tauto.
Qed.
Lemma cost_fix rs w : node_cost (with_ocp mp o') rs w ph y = node_cost mp rs w ph y.
Proof using Ho Ho' HP Hph HG.
  unfold node_cost. cbn [with_ocp mp_ocp mp_orders mp_cf]. rewrite mayer_fix. f_equal. apply Rsum_ext. intros k Hk. unfold seg_cost. cbn [with_ocp mp_orders mp_cf]. f_equal. apply Rsum_ext. intros j Hj. f_equal.
  unfold run_at. cbn [with_ocp mp_ocp mp_orders mp_cf]. apply run_fix.
Qed.
End Phase.
End Fix.
Theorem fix_thm mp q al npath nterm np' nt' (z z' p : list R) : let o := mp_ocp mp in let mp' := with_ocp mp (reparam o q) in
  input_ok mp npath nterm z p -> input_ok mp' np' nt' z' p -> put_in o q al -> same_but mp mp' z z' ->
  exists n n', nlp_at mp z p = Ok n /\ nlp_at mp' z' p = Ok n' /\ (feasible n <-> feasible n' /\ has_given o q al (user_traj mp z)) /\ (has_given o q al (user_traj mp z) -> n_f n' = n_f n).
Proof.
  intros o mp' Hi Hi' HP HS. pose proof (in_ocp _ _ _ _ _ Hi) as Ho. pose proof (in_ocp _ _ _ _ _ Hi') as Ho'.
  destruct (nlp_like mp _ _ z p (user_traj mp z) Hi (fun ph _ => same_refl _ _)) as (rs & n & Er & En & _ & HF & HC).
  destruct (nlp_like mp' _ _ z' p (user_traj mp z) Hi') as (rs' & n' & Er' & En' & _ & HF' & HC').
  { intros ph Hph. apply same_sym. exact (HS ph Hph). }
  assert (rs' = rs) as -> by (pose proof (eq_trans (eq_sym Er') Er) as X; injection X as X; exact X).
  exists n, n'. split; [exact En|]. split; [exact En'|]. split.
  - rewrite HF, HF'. split.
    + intros (B & P & L). assert (G : has_given o q al (user_traj mp z)) by (intros ph i Hph Hl; exact (proj2 (proj1 (bounds_fix mp q al HP ph _ Hph) (B ph Hph)) i Hl)).
      split; [|exact G]. split; [intros ph Hph; exact (proj1 (proj1 (bounds_fix mp q al HP ph _ Hph) (B ph Hph)))|]. split; [|exact L].
      intros ph Hph. apply (phase_fix mp q al npath nterm np' nt' Ho Ho' HP ph _ Hph (fun i => G ph i Hph)). exact (P ph Hph).
    + intros ((B & P & L) & G). split; [intros ph Hph; apply (bounds_fix mp q al HP ph _ Hph); split; [exact (B ph Hph)|intros i; exact (G ph i Hph)]|]. split; [|exact L].
      intros ph Hph. apply (phase_fix mp q al npath nterm np' nt' Ho Ho' HP ph _ Hph (fun i => G ph i Hph)). exact (P ph Hph).
  - intros G. rewrite HC, HC'. apply Rsum_ext. intros ph Hph. exact (cost_fix mp q al npath nterm np' nt' Ho Ho' HP ph _ Hph (fun i => G ph i Hph) rs _).
Qed.
(** every point of either problem has counterparts in the other *)
Theorem fix_drop mp q np' nt' (z : list R) : let mp' := with_ocp mp (reparam (mp_ocp mp) q) in ocp_ok (mp_ocp mp') np' nt' -> scales_pos (mp_ocp mp') ->
  exists z' : list R, length z' = (o_nph (mp_ocp mp') * nvars mp')%nat /\ same_but mp mp' z z'.
Proof.
  intros mp' Ho' Hs'. exists (pack mp' (user_traj mp z)). split; [rewrite length_pack; reflexivity|]. intros ph Hph. apply same_sym. exact (pack_traj mp' (user_traj mp z) ph (ok_shapes _ _ _ Ho') Hs' Hph).
Qed.
Definition with_given (m : nat) (l : list R) (y : utraj) : utraj := Utraj (y_x y) (y_u y) (y_t0 y) (y_tf y) (fun i => if Nat.ltb i m then y_a y i else nth (i - m) l 0).
Theorem fix_add mp q al npath nterm (z' : list R) : let mp' := with_ocp mp (reparam (mp_ocp mp) q) in ocp_ok (mp_ocp mp) npath nterm -> scales_pos (mp_ocp mp) -> put_in (mp_ocp mp) q al ->
  exists z : list R, length z = (o_nph (mp_ocp mp) * nvars mp)%nat /\ same_but mp mp' z z' /\ has_given (mp_ocp mp) q al (user_traj mp z).
Proof.
  intros mp' Ho Hs HP. set (ys := fun ph => with_given (o_na q) (al ph) (user_traj mp' z' ph)). exists (pack mp ys). split; [rewrite length_pack; reflexivity|].
  assert (HT : forall ph, (ph < o_nph (mp_ocp mp))%nat -> same_traj mp (user_traj mp (pack mp ys) ph) (ys ph)) by (intros ph Hph; exact (pack_traj mp ys ph (ok_shapes _ _ _ Ho) Hs Hph)). split.
  - intros ph Hph. destruct (HT ph Hph) as (A & B & C & D & E). split; [exact A|]. split; [exact B|]. split; [exact C|]. split; [exact D|]. intros i Hi. change (i < o_na q)%nat in Hi.
    etransitivity; [apply E; rewrite (pi_na _ _ _ HP ph Hph); clear - Hi; lia|]. unfold ys, with_given. cbn [y_a]. destruct (Nat.ltb_spec i (o_na q)); [reflexivity|lia].
  - intros ph i Hph Hi. destruct (HT ph Hph) as (_ & _ & _ & _ & E). etransitivity; [apply E; rewrite (pi_na _ _ _ HP ph Hph); clear - Hi; nred; lia|].
    unfold ys, with_given. cbn [y_a]. destruct (Nat.ltb_spec (o_na q + i) (o_na q)); [lia|]. f_equal. lia.
Qed.
Theorem fix_best mp q al npath nterm np' nt' (z z' p : list R) : let o := mp_ocp mp in let mp' := with_ocp mp (reparam o q) in
  input_ok mp npath nterm z p -> input_ok mp' np' nt' z' p -> put_in o q al -> same_but mp mp' z z' -> (best mp p z <-> best mp' p z' /\ has_given o q al (user_traj mp z)).
Proof.
  intros o mp' Hi Hi' HP HS. destruct (fix_thm mp q al npath nterm np' nt' z z' p Hi Hi' HP HS) as (n & n' & En & En' & HF & HC). split.
  - intros (m & Em & F & B). rewrite <- (same_ok _ _ _ _ _ En Em) in *. apply HF in F. destruct F as (F' & G). split; [|exact G]. exists n'. split; [exact En'|]. split; [exact F'|].
    intros z1 n1 L1 E1 F1. destruct (fix_add mp q al npath nterm z1 (in_ocp _ _ _ _ _ Hi) (in_sc _ _ _ _ _ Hi) HP) as (z0 & L0 & S0 & G0).
    destruct (fix_thm mp q al npath nterm np' nt' z0 z1 p (input_again _ _ _ _ z0 _ Hi L0) (input_again _ _ _ _ z1 _ Hi' (eq_trans L1 (in_z _ _ _ _ _ Hi'))) HP S0) as (m0 & m1 & Em0 & Em1 & HF1 & HC1).
    rewrite <- (same_ok _ _ _ _ _ E1 Em1) in *. pose proof (B z0 m0 (eq_trans L0 (eq_sym (in_z _ _ _ _ _ Hi))) Em0 (proj2 HF1 (conj F1 G0))) as Y. rewrite (HC G), (HC1 G0). exact Y.
  - intros ((m & Em & F & B) & G). rewrite <- (same_ok _ _ _ _ _ En' Em) in *. exists n. split; [exact En|]. split; [apply HF; split; [exact F|exact G]|].
    intros z1 n1 L1 E1 F1. destruct (fix_drop mp q np' nt' z1 (in_ocp _ _ _ _ _ Hi') (in_sc _ _ _ _ _ Hi')) as (z0 & L0 & S0).
    destruct (fix_thm mp q al npath nterm np' nt' z1 z0 p (input_again _ _ _ _ z1 _ Hi (eq_trans L1 (in_z _ _ _ _ _ Hi))) (input_again _ _ _ _ z0 _ Hi' L0) HP S0) as (m1 & m0 & Em1 & Em0 & HF1 & HC1).
    rewrite <- (same_ok _ _ _ _ _ E1 Em1) in *. apply HF1 in F1. destruct F1 as (F1 & G1). pose proof (B z0 m0 (eq_trans L0 (eq_sym (in_z _ _ _ _ _ Hi'))) Em0 F1) as Y. rewrite (HC G), (HC1 G1) in Y. exact Y.
Qed.
