(** Phases in another order (proofs of C80). *)
From Coq Require Import Reals Lia Lra Bool Arith String Permutation.
From Coquelicot Require Import Coquelicot.
From Coq Require Import List.
From Verif Require Import Num PyList Mat Poly Roots Colloc Ocp Transcribe Spec SpecOcp SpecCoord SpecTrans SpecRenum NumR ListR PolyR CollocR CompR CollocThm MeshR BlockR DiscR NlpR OcpR ScaleR NlpThm CostR ConvexR TransR PhaseR.
Import ListNotations.
Open Scope R_scope.

Lemma Rsum_list n f : Rsum n f = fold_right Rplus 0 (map f (seq 0 n)).
Proof.
  induction n as [|n IH]; [reflexivity|]. rewrite seq_S, map_app, fold_right_app. cbn [Rsum map fold_right Nat.add]. rewrite IH.
  generalize (map f (seq 0 n)). intros l. induction l as [|x l IHl]; cbn; [ring|]. rewrite <- IHl. ring.
Qed.
Lemma Rsum_perm n f sg : (forall i, (i < n)%nat -> (sg i < n)%nat) -> (forall i j, (i < n)%nat -> (j < n)%nat -> sg i = sg j -> i = j) -> Rsum n (fun i => f (sg i)) = Rsum n f.
Proof.
  intros H1 H2. rewrite !Rsum_list. rewrite <- (map_map sg f).
  assert (P : Permutation (map sg (seq 0 n)) (seq 0 n)).
  { apply NoDup_Permutation_bis.
    - assert (X : forall l, NoDup l -> (forall i, In i l -> (i < n)%nat) -> NoDup (map sg l)).
      { induction l as [|x l IH]; intros Hd Hl; [constructor|]. inversion Hd as [|? ? Hx Hd']; subst. cbn. constructor; [|apply IH; [exact Hd'|intros; apply Hl; now right]].
        intros Hi. apply in_map_iff in Hi. destruct Hi as (y & Ey & Hy). apply Hx. rewrite <- (H2 y x (Hl y (or_intror Hy)) (Hl x (or_introl eq_refl)) Ey). exact Hy. }
      apply X; [apply seq_NoDup|]. intros i Hi. apply in_seq in Hi. lia.
    - rewrite map_length. lia.
    - intros x Hx. apply in_map_iff in Hx. destruct Hx as (i & <- & Hi). apply in_seq in Hi. apply in_seq. pose proof (H1 i ltac:(lia)). lia. }
  apply (Permutation_map f) in P. revert P. generalize (map f (map sg (seq 0 n))) (map f (seq 0 n)). intros l l' P. induction P; cbn; try congruence; ring.
Qed.
Lemma onto n sg : (forall i, (i < n)%nat -> (sg i < n)%nat) -> (forall i j, (i < n)%nat -> (j < n)%nat -> sg i = sg j -> i = j) -> forall j, (j < n)%nat -> exists i, (i < n)%nat /\ sg i = j.
Proof.
  intros H1 H2 j Hj.
  assert (X : forall l, NoDup l -> (forall i, In i l -> (i < n)%nat) -> NoDup (map sg l)).
  { induction l as [|x l IH]; intros Hd Hl; [constructor|]. inversion Hd as [|? ? Hx Hd']; subst. cbn. constructor; [|apply IH; [exact Hd'|intros; apply Hl; now right]].
    intros Hi. apply in_map_iff in Hi. destruct Hi as (y & Ey & Hy). apply Hx. rewrite <- (H2 y x (Hl y (or_intror Hy)) (Hl x (or_introl eq_refl)) Ey). exact Hy. }
  assert (Hn : NoDup (map sg (seq 0 n))) by (apply X; [apply seq_NoDup|]; intros i Hi; apply in_seq in Hi; lia).
  assert (Hi : In j (map sg (seq 0 n))).
  { apply (NoDup_length_incl Hn (l' := seq 0 n)); [rewrite map_length; lia| |apply in_seq; lia].
    intros x Hx. apply in_map_iff in Hx. destruct Hx as (i & <- & Hi). apply in_seq in Hi. apply in_seq. pose proof (H1 i ltac:(lia)). lia. }
  apply in_map_iff in Hi. destruct Hi as (i & E & Hi). exists i. apply in_seq in Hi. split; [lia|exact E].
Qed.

Section Renum.
Variables (sg : nat -> nat) (mp mp' : mpo Rnum).
Let o := mp_ocp mp.
Let o' := mp_ocp mp'.
Hypothesis EK : mp_nseg mp' = mp_nseg mp.
Hypothesis Eo : mp_orders mp' = mp_orders mp.
Hypothesis Ec : mp_cf mp' = mp_cf mp.
Hypothesis Hr : renumbered sg o o'.
Lemma traj_same y y' : same_traj mp' y y' <-> same_traj mp y y'.
Proof. destruct (rn_dims _ _ _ Hr) as (E1 & E2 & E3 & _). unfold same_traj. rewrite Eo. fold o o'. rewrite E1, E2, E3. reflexivity. Qed.
Section At.
Variables (i : nat) (y : utraj) (rs : list (list R)) (w w' : nat -> R).
Hypothesis Hi : (i < o_nph o)%nat.
Hypothesis Hw : forall k, (k < length (mp_orders mp))%nat -> w' k = w k.
Lemma bounds_move : (i = 0%nat <-> sg i = 0%nat) -> bounds_ok mp' i y <-> bounds_ok mp (sg i) y.
Proof.
  intros H0. destruct (rn_dims _ _ _ Hr) as (E1 & E2 & E3 & _). destruct (rn_bounds _ _ _ Hr i Hi) as (B1 & B2 & B3 & B4 & B5 & B6 & B7 & B8 & B9 & B10).
  pose proof (rn_start _ _ _ Hr i Hi) as B0. unfold bounds_ok, bnd. rewrite Eo. fold o o'. rewrite E1, E2, E3. nred. rewrite B1, B2, B3, B4, B5, B6, B7, B8, B9, B10.
  assert (Ez : Nat.eqb i 0 = Nat.eqb (sg i) 0) by (destruct (Nat.eqb_spec i 0) as [e|e], (Nat.eqb_spec (sg i) 0) as [e'|e']; tauto). rewrite Ez.
  destruct (Nat.eqb_spec (sg i) 0) as [e|e]; [|reflexivity]. rewrite e in B0. rewrite (proj2 H0 e) in B0. rewrite B0. reflexivity.
Qed.
Lemma like : phase_like o o' (sg i) i.
Proof.
  destruct (rn_dims _ _ _ Hr) as (E1 & E2 & E3 & _). destruct (rn_bounds _ _ _ Hr i Hi) as (_ & _ & B3 & B4 & _).
  constructor; [auto|exact (rn_scale _ _ _ Hr)|exact (rn_fns _ _ _ Hr i Hi)|auto|exact (rn_switches _ _ _ Hr i Hi)].
Qed.
Lemma phase_move : phase_ok mp' rs w' i y <-> phase_ok mp rs w (sg i) y.
Proof. exact (PhaseR.phase_move mp mp' (sg i) i Eo Ec like y rs w w' Hw). Qed.
Lemma cost_move : node_cost mp' rs w' i y = node_cost mp rs w (sg i) y.
Proof. exact (PhaseR.cost_move mp mp' (sg i) i Eo Ec like y rs w w' Hw). Qed.
End At.
Lemma links_move ys : links_ok mp' (fun i => ys (sg i)) <-> links_ok mp ys.
Proof.
  destruct (rn_dims _ _ _ Hr) as (E1 & E2 & E3 & E4). unfold links_ok. fold o o'. rewrite E4. split; intros H Hn.
  - intros k i j Hk. destruct (rn_links_all _ _ _ Hr k i j Hk) as (k' & i' & j' & Hk' & -> & -> & L & U). pose proof (H Hn k' i' j' Hk') as X.
    unfold link_ok in *. rewrite Eo in X. fold o o' in X |- *. rewrite E1, E2, L, U in X. exact X.
  - intros k' i j Hk'. destruct (rn_links _ _ _ Hr k' i j Hk') as (k & Hk & L & U). pose proof (H Hn k _ _ Hk) as X.
    unfold link_ok in *. rewrite Eo. fold o o' in X |- *. rewrite E1, E2, L, U. exact X.
Qed.
Theorem renum_thm npath nterm npath' nterm' z p z' p' : sg 0%nat = 0%nat -> input_ok mp npath nterm z p -> input_ok mp' npath' nterm' z' p' -> same_phases sg mp mp' z p z' p' ->
  exists n n', nlp_at mp z p = Ok n /\ nlp_at mp' z' p' = Ok n' /\ (feasible n <-> feasible n') /\ n_f n = n_f n'.
Proof.
  intros H0 Hin Hin' Hs. destruct (rn_dims _ _ _ Hr) as (E1 & E2 & E3 & E4).
  destruct (nlp_like mp npath nterm z p (user_traj mp z) Hin (fun ph _ => same_refl mp _)) as (rs & n & Er & En & _ & Hf & Hc).
  destruct (nlp_like mp' npath' nterm' z' p' (fun i => user_traj mp z (sg i)) Hin') as (rs' & n' & Er' & En' & _ & Hf' & Hc').
  { intros i Hi. apply traj_same. apply Hs. fold o o' in Hi |- *. clear - Hi E4. lia. }
  assert (rs' = rs) as -> by (rewrite Ec, Eo in Er'; pose proof (eq_trans (eq_sym Er') Er) as X; injection X as X; exact X).
  exists n, n'. split; [exact En|]. split; [exact En'|]. fold o o' in Hf, Hc, Hf', Hc'. rewrite E4 in Hf', Hc'.
  assert (Hz : forall i, (i < o_nph o)%nat -> (i = 0%nat <-> sg i = 0%nat)).
  { intros i Hi. split; [intros ->; exact H0|]. intros E. apply (rn_inj _ _ _ Hr); [exact Hi|lia|congruence]. }
  split.
  - rewrite Hf, Hf'. rewrite links_move. split; intros (A & B & C); (split; [|split; [|exact C]]).
    + intros i Hi. apply bounds_move; [exact Hi|apply Hz; exact Hi|]. apply A. apply (rn_in _ _ _ Hr). exact Hi.
    + intros i Hi. apply (phase_move i _ rs (width mp p (sg i)) _ Hi (proj2 (Hs i Hi))). apply B. apply (rn_in _ _ _ Hr). exact Hi.
    + intros j Hj. destruct (onto _ _ (rn_in _ _ _ Hr) (rn_inj _ _ _ Hr) j Hj) as (i & Hi & <-). apply bounds_move; [exact Hi|apply Hz; exact Hi|]. apply A. exact Hi.
    + intros j Hj. destruct (onto _ _ (rn_in _ _ _ Hr) (rn_inj _ _ _ Hr) j Hj) as (i & Hi & <-). apply (phase_move i _ rs (width mp p (sg i)) _ Hi (proj2 (Hs i Hi))). apply B. exact Hi.
  - rewrite Hc, Hc'. rewrite <- (Rsum_perm _ _ sg (rn_in _ _ _ Hr) (rn_inj _ _ _ Hr)). apply Rsum_ext. intros i Hi. symmetry. apply (cost_move i _ rs (width mp p (sg i)) _ Hi (proj2 (Hs i Hi))).
Qed.
(** counterparts of points and widths *)
Definition move_widths (p : list R) : list R := flat_map (fun i => map (width mp p (sg i)) (seq 0 (mp_nseg mp))) (seq 0 (o_nph o)).
Lemma move_width p i k : (i < o_nph o)%nat -> (k < mp_nseg mp)%nat -> width mp' (move_widths p) i k = width mp p (sg i) k.
Proof.
  intros Hi Hk. unfold width at 1. rewrite EK. unfold move_widths. rewrite (nth_flat_map_const _ (mp_nseg mp) _ _ 0%nat).
  - rewrite seq_nth by exact Hi. rewrite Nat.add_0_l. rewrite (nth_map_in (B := R) _ _ _ _ 0%nat) by (rewrite seq_length; exact Hk). rewrite seq_nth by exact Hk. reflexivity.
  - intros a _. rewrite map_length, seq_length. reflexivity.
  - rewrite seq_length. exact Hi.
  - exact Hk.
Qed.
Theorem renum_exists npath nterm npath' nterm' z p : input_ok mp npath nterm z p -> ocp_ok o' npath' nterm' -> scales_pos o' ->
  exists z' p', input_ok mp' npath' nterm' z' p' /\ same_phases sg mp mp' z p z' p'.
Proof.
  intros Hin Hok Hsc. destruct (rn_dims _ _ _ Hr) as (E1 & E2 & E3 & E4). pose proof (in_mpo _ _ _ _ _ Hin) as Hmp.
  exists (pack mp' (fun i => user_traj mp z (sg i))), (move_widths p). split.
  - constructor; [|exact Hok|exact Hsc|apply length_pack|].
    + destruct Hmp as [A B C D]. constructor; rewrite ?Ec, ?Eo, ?EK; assumption.
    + unfold move_widths. rewrite (length_flat_map_const _ (mp_nseg mp)); [rewrite seq_length, EK; fold o'; rewrite E4; reflexivity|]. intros a _. rewrite map_length, seq_length. reflexivity.
  - intros i Hi. split.
    + apply traj_same. apply (pack_traj mp' (fun i => user_traj mp z (sg i)) i (ok_shapes _ _ _ Hok) Hsc). fold o'. fold o in Hi. clear - Hi E4. lia.
    + intros k Hk. apply move_width; [exact Hi|]. rewrite <- (mo_len _ Hmp). exact Hk.
Qed.
Theorem renum_best npath nterm npath' nterm' z p z' p' : sg 0%nat = 0%nat -> input_ok mp npath nterm z p -> input_ok mp' npath' nterm' z' p' -> same_phases sg mp mp' z p z' p' ->
  best mp p z <-> best mp' p' z'.
Proof.
  intros H0 Hin Hin' Hs. destruct (rn_dims _ _ _ Hr) as (E1 & E2 & E3 & E4).
  destruct (renum_thm npath nterm npath' nterm' z p z' p' H0 Hin Hin' Hs) as (n & n' & En & En' & HF & HE).
  destruct (finite_choice (fun j i => (i < o_nph o)%nat /\ sg i = j) 0%nat (o_nph o)) as [iv Hiv]; [exact (onto _ _ (rn_in _ _ _ Hr) (rn_inj _ _ _ Hr))|].
  split; intros (m & Em & Hf & Hb).
  - assert (m = n) as -> by (pose proof (eq_trans (eq_sym Em) En) as X; injection X as X; exact X). exists n'. split; [exact En'|]. split; [apply HF; exact Hf|].
    intros z1 n1 L1 Q1 F1. assert (I1 : input_ok mp' npath' nterm' z1 p') by (destruct Hin' as [A B C D F]; constructor; auto; exact (eq_trans L1 D)).
    set (z2 := pack mp (fun j => user_traj mp' z1 (iv j))).
    assert (I2 : input_ok mp npath nterm z2 p) by (destruct Hin as [A B C D F]; constructor; auto; apply length_pack).
    assert (S2 : same_phases sg mp mp' z2 p z1 p').
    { intros i Hi. split; [|exact (proj2 (Hs i Hi))]. apply same_sym.
      pose proof (pack_traj mp (fun j => user_traj mp' z1 (iv j)) (sg i) (ok_shapes _ _ _ (in_ocp _ _ _ _ _ Hin)) (in_sc _ _ _ _ _ Hin) (rn_in _ _ _ Hr i Hi)) as P. cbv beta in P. fold z2 in P.
      destruct (Hiv (sg i) (rn_in _ _ _ Hr i Hi)) as [A B]. rewrite (rn_inj _ _ _ Hr _ i A Hi B) in P. exact P. }
    destruct (renum_thm npath nterm npath' nterm' z2 p z1 p' H0 I2 I1 S2) as (n2 & n1' & Q2 & Q1' & F2 & V2).
    assert (n1' = n1) as -> by (pose proof (eq_trans (eq_sym Q1') Q1) as X; injection X as X; exact X).
    pose proof (Hb z2 n2 (eq_trans (in_z _ _ _ _ _ I2) (eq_sym (in_z _ _ _ _ _ Hin))) Q2 (proj2 F2 F1)) as Q. rewrite HE, V2 in Q. exact Q.
  - assert (m = n') as -> by (pose proof (eq_trans (eq_sym Em) En') as X; injection X as X; exact X). exists n. split; [exact En|]. split; [apply HF; exact Hf|].
    intros z1 n1 L1 Q1 F1. assert (I1 : input_ok mp npath nterm z1 p) by (destruct Hin as [A B C D F]; constructor; auto; exact (eq_trans L1 D)).
    set (z2 := pack mp' (fun i => user_traj mp z1 (sg i))).
    assert (I2 : input_ok mp' npath' nterm' z2 p') by (destruct Hin' as [A B C D F]; constructor; auto; apply length_pack).
    assert (S2 : same_phases sg mp mp' z1 p z2 p').
    { intros i Hi. split; [|exact (proj2 (Hs i Hi))]. apply traj_same. apply (pack_traj mp' (fun i => user_traj mp z1 (sg i)) i (ok_shapes _ _ _ (in_ocp _ _ _ _ _ Hin')) (in_sc _ _ _ _ _ Hin')).
      fold o'. fold o in Hi. clear - Hi E4. lia. }
    destruct (renum_thm npath nterm npath' nterm' z1 p z2 p' H0 I1 I2 S2) as (n1' & n2 & Q1' & Q2 & F2 & V2).
    assert (n1' = n1) as -> by (pose proof (eq_trans (eq_sym Q1') Q1) as X; injection X as X; exact X).
    pose proof (Hb z2 n2 (eq_trans (in_z _ _ _ _ _ I2) (eq_sym (in_z _ _ _ _ _ Hin'))) Q2 (proj1 F2 F1)) as Q. rewrite HE, V2. exact Q.
Qed.
End Renum.
