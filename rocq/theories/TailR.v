(** Every phase of a solution solves its own problem (proofs of C81). *)
From Coq Require Import Reals Lia Lra Bool Arith String.
From Coquelicot Require Import Coquelicot.
From Coq Require Import List.
From Verif Require Import Num PyList Mat Poly Roots Colloc Ocp Transcribe Spec SpecOcp SpecCoord SpecTrans SpecTail NumR ListR PolyR CollocR CompR CollocThm MeshR BlockR DiscR NlpR OcpR ScaleR NlpThm CostR ConvexR TransR PhaseR.
Import ListNotations.
Open Scope R_scope.

Lemma pick_error {A} ph (l : list A) : nth_error (pick ph l) 0 = nth_error l ph.
Proof. unfold pick. destruct (nth_error l ph); reflexivity. Qed.
Lemma pick_nth {A} ph (l : list A) d : nth 0 (pick ph l) d = nth ph l d.
Proof. unfold pick. destruct (nth_error l ph) eqn:E; cbn; [symmetry; apply nth_error_nth; exact E|]. symmetry. apply nth_overflow. apply nth_error_None. exact E. Qed.
Lemma pick_length {A} ph (l : list A) : (ph < length l)%nat -> length (pick ph l) = 1%nat.
Proof. intros H. unfold pick. destruct (nth_error l ph) eqn:E; [reflexivity|]. apply nth_error_None in E. lia. Qed.
Lemma pick_shaped {A} ph (l : list (list A)) n c : shaped l n c -> (ph < n)%nat -> shaped (pick ph l) 1 c.
Proof.
  intros [H1 H2] H. split; [apply pick_length; lia|]. intros r Hr. unfold pick in Hr. destruct (nth_error l ph) eqn:E; [|destruct Hr].
  destruct Hr as [<-|[]]. apply H2. apply nth_error_In with ph. exact E.
Qed.
Lemma pick_ordered ph lo hi n c : ordered lo hi n c -> (ph < n)%nat -> ordered (pick ph lo) (pick ph hi) 1 c.
Proof. intros H Hp i j Hi Hj. assert (i = 0)%nat as -> by lia. rewrite !pick_nth. apply H; assumption. Qed.
Lemma pick_some {A} ph (l : list A) k a : nth_error (pick ph l) k = Some a -> nth_error l ph = Some a.
Proof. destruct k as [|k]; [rewrite pick_error; auto|]. unfold pick. destruct (nth_error l ph); cbn; destruct k; discriminate. Qed.

Lemma phase_ocp_ok o npath nterm ph x t : ocp_ok o npath nterm -> (ph < o_nph o)%nat -> length x = o_nx o -> ocp_ok (phase_ocp o ph x t) (fun _ => npath ph) (fun _ => nterm ph).
Proof.
  intros [Hsh H1 H2 H3 H4 H5 H6 H7 H8 H9 H10 H11 H12 H13 H14 H15] Hp Hx. destruct Hsh.
  constructor; cbn [phase_ocp o_nx o_nu o_na o_nph o_dyn o_path o_mayer o_run o_term o_links o_diff_u o_lbdu o_ubdu o_midu o_ducont].
  - constructor; cbn [phase_ocp o_nx o_nu o_na o_nph o_dyn o_path o_mayer o_run o_term o_scale_x o_scale_u o_scale_a o_x00 o_xf0 o_u00 o_uf0 o_t00 o_tf0 o_a0 o_lbx o_ubx o_lbu o_ubu o_lba o_uba o_lbt0 o_ubt0 o_lbtf o_ubtf o_lbe o_ube];
      try assumption; try lia; try (apply pick_length; lia); try (eapply pick_shaped; eassumption); try (eapply pick_ordered; eassumption).
    + split; [reflexivity|]. intros r [<-|[]]. exact Hx.
    + split; [reflexivity|]. intros r [<-|[]]. reflexivity.
    + split; [reflexivity|]. intros r [<-|[]]. reflexivity.
    + split; [reflexivity|]. intros r [<-|[]]. reflexivity.
    + split; [reflexivity|]. intros H; lia.
    + split; [reflexivity|]. intros H; lia.
    + intros i j Hi Hj. assert (i = 0)%nat as -> by lia. assert (j = 0)%nat as -> by lia. cbn. lra.
    + intros i j Hi Hj. lia.
  - exact H1.
  - intros k f a b c d E. apply (H2 ph f a b c d (pick_some _ _ _ _ E)).
  - intros k f a b c d E. apply (H3 ph f a b c d (pick_some _ _ _ _ E)).
  - intros k f a b c d e E. apply (H4 ph f a b c d e (pick_some _ _ _ _ E)).
  - intros k f a b c d E. apply (H5 ph f a b c d (pick_some _ _ _ _ E)).
  - intros k f a b c d e E. apply (H6 ph f a b c d e (pick_some _ _ _ _ E)).
  - apply pick_length; lia.
  - apply pick_length; lia.
  - apply pick_length; lia.
  - apply pick_length; lia.
  - apply pick_length; lia.
  - intros k H. apply (H12 ph). destruct k as [|k]; [rewrite !pick_nth in H; exact H|].
    exfalso. unfold pick in H. destruct H as [H|H]; [destruct (nth_error (o_diff_u o) ph)|destruct (nth_error (o_ducont o) ph)]; destruct k; discriminate H.
  - intros i j [].
  - cbn; lia.
  - intros H; lia.
Qed.

Section Tail.
Variables (mp : mpo Rnum) (npath nterm : nat -> option nat) (z p : list R) (ph : nat).
Let o := mp_ocp mp.
Let y := user_traj mp z ph.
Let mp1 := phase_mpo mp z ph.
Let p1 := phase_widths mp p ph.
Hypothesis Hin : input_ok mp npath nterm z p.
Hypothesis Hph : (ph < o_nph o)%nat.

Lemma tail_like : phase_like o (mp_ocp mp1) ph 0.
Proof.
  constructor; cbn [mp1 phase_mpo mp_ocp phase_ocp o_nx o_nu o_na o_scale_u o_dyn o_path o_term o_run o_mayer o_lbu o_ubu o_diff_u o_lbdu o_ubdu o_midu o_ducont];
    fold o; rewrite ?pick_error, ?pick_nth; auto 6.
Qed.
Lemma tail_width k : (k < length (mp_orders mp))%nat -> width mp1 p1 0 k = width mp p ph k.
Proof.
  intros Hk. rewrite (mo_len _ (in_mpo _ _ _ _ _ Hin)) in Hk. unfold width at 1. cbn [mp1 phase_mpo mp_nseg]. rewrite Nat.mul_0_l, Nat.add_0_l. unfold p1, phase_widths.
  rewrite (nth_map_in (B := R) _ _ _ _ 0%nat) by (rewrite seq_length; exact Hk). rewrite seq_nth by exact Hk. reflexivity.
Qed.
Lemma tail_input z1 : length z1 = nvars mp -> input_ok mp1 (fun _ => npath ph) (fun _ => nterm ph) z1 p1.
Proof.
  intros Hz. destruct Hin as [Hmp Hok Hsc _ _]. constructor.
  - destruct Hmp as [A B C D]. constructor; assumption.
  - apply phase_ocp_ok; [exact Hok|exact Hph|]. apply length_vec.
  - destruct Hsc as [A B C D]. constructor; assumption.
  - change (o_nph (mp_ocp mp1)) with 1%nat. rewrite Nat.mul_1_l, Hz. reflexivity.
  - change (o_nph (mp_ocp mp1)) with 1%nat. unfold p1, phase_widths. rewrite map_length, seq_length. cbn. lia.
Qed.
(** bounds of the phase alone *)
Lemma tail_bounds y' : bounds_ok mp ph y -> (bounds_ok mp1 0 y' <-> bounds_ok mp ph y' /\ (forall s, (s < o_nx o)%nat -> y_x y' 0 s = y_x y 0 s) /\ y_t0 y' = y_t0 y).
Proof.
  intros (A1 & A2 & A3 & A4 & A5). assert (Hn : (0 < total_nodes (mp_orders mp))%nat) by (unfold total_nodes; lia).
  assert (V : forall s, (s < o_nx o)%nat -> nth s (nth 0 (o_x00 (mp_ocp mp1)) []) 0 = y_x y 0 s) by (intros s Hs; cbn [mp1 phase_mpo mp_ocp phase_ocp o_x00 nth]; apply nth_vec; exact Hs).
  unfold bounds_ok, bnd. cbn [mp1 phase_mpo mp_ocp mp_orders phase_ocp o_nx o_nu o_na o_lbx o_ubx o_lbu o_ubu o_lba o_uba o_lbt0 o_ubt0 o_lbtf o_ubtf]. fold o. rewrite !pick_nth. split.
  - intros (B1 & B2 & B3 & B4 & B5).
    assert (X0 : forall s, (s < o_nx o)%nat -> y_x y' 0 s = y_x y 0 s) by (intros s Hs; rewrite <- (V s Hs); exact (B1 0%nat s Hn Hs)).
    assert (T0 : y_t0 y' = y_t0 y) by (destruct B3 as [b1 b2]; cbn in b1, b2; fold y in b1, b2; apply Rle_antisym; assumption).
    split; [|split; [exact X0|exact T0]]. split; [|split; [exact B2|split; [rewrite T0; exact A3|split; [exact B4|exact B5]]]].
    intros i s Hi Hs. destruct i as [|i].
    + rewrite (X0 s Hs). exact (A1 0%nat s Hn Hs).
    + pose proof (B1 (S i) s Hi Hs) as X. cbn [Nat.eqb andb] in X. rewrite Bool.andb_false_r in *. exact X.
  - intros ((B1 & B2 & B3 & B4 & B5) & X0 & T0). split; [|split; [exact B2|split; [|split; [exact B4|exact B5]]]].
    + intros i s Hi Hs. destruct i as [|i]; cbn [Nat.eqb andb].
      * rewrite (X0 s Hs). symmetry. exact (V s Hs).
      * pose proof (B1 (S i) s Hi Hs) as X. cbn [Nat.eqb] in X. rewrite Bool.andb_false_r in X. exact X.
    + cbn. fold y. rewrite T0. split; apply Rle_refl.
Qed.
Theorem tail_thm : best mp p z -> exists z1 n1, length z1 = nvars mp /\ same_traj mp1 (user_traj mp1 z1 0) y /\ nlp_at mp1 z1 p1 = Ok n1 /\ feasible n1 /\
  forall (z2 : list R) n2, length z2 = nvars mp -> nlp_at mp1 z2 p1 = Ok n2 -> feasible n2 -> fits mp ph y (user_traj mp1 z2 0) -> n_f n1 <= n_f n2.
Proof.
  intros (n & En & Hf & Hb). set (z1 := pack mp1 (fun _ => y)).
  assert (L1 : length z1 = nvars mp) by (unfold z1; rewrite length_pack; change (o_nph (mp_ocp mp1)) with 1%nat; rewrite Nat.mul_1_l; reflexivity).
  pose proof (tail_input z1 L1) as I1. pose proof tail_like as Hl.
  assert (S1 : same_traj mp1 (user_traj mp1 z1 0) y).
  { apply (pack_traj mp1 (fun _ => y) 0 (ok_shapes _ _ _ (in_ocp _ _ _ _ _ I1)) (in_sc _ _ _ _ _ I1)). cbn; lia. }
  destruct (nlp_like mp npath nterm z p (user_traj mp z) Hin (fun _ _ => same_refl mp _)) as (rs & n0 & Er & En0 & _ & Hf0 & Hc0).
  assert (n0 = n) as -> by (pose proof (eq_trans (eq_sym En0) En) as X; injection X as X; exact X). pose proof (proj1 Hf0 Hf) as (Fb & Fp & Fl). fold o in Fb, Fp, Hc0.
  destruct (nlp_like mp1 _ _ z1 p1 (fun _ => y) I1) as (rs1 & n1 & Er1 & En1 & _ & Hf1 & Hc1).
  { intros k Hk. change (o_nph (mp_ocp mp1)) with 1%nat in Hk. assert (k = 0)%nat as -> by (clear - Hk; lia). exact S1. }
  assert (rs1 = rs) as -> by (change (mapM (c_roots (mp_cf mp)) (mp_orders mp) = Ok rs1) in Er1; pose proof (eq_trans (eq_sym Er1) Er) as X; injection X as X; exact X).
  change (o_nph (mp_ocp mp1)) with 1%nat in Hf1, Hc1. cbn [Rsum] in Hc1.
  exists z1, n1. split; [exact L1|]. split; [exact S1|]. split; [exact En1|]. split.
  - apply Hf1. split; [|split].
    + intros k Hk. assert (k = 0)%nat as -> by (clear - Hk; lia). apply tail_bounds; [exact (Fb ph Hph)|]. split; [exact (Fb ph Hph)|]. split; reflexivity.
    + intros k Hk. assert (k = 0)%nat as -> by (clear - Hk; lia). apply (phase_move mp mp1 ph 0 eq_refl eq_refl Hl y rs (width mp p ph) _ tail_width). exact (Fp ph Hph).
    + intros H. cbn in H. clear - H. lia.
  - intros z2 n2 L2 En2 F2 Hfit. pose proof (tail_input z2 L2) as I2. set (y2 := user_traj mp1 z2 0) in *.
    destruct (nlp_like mp1 _ _ z2 p1 (fun _ => y2) I2) as (rs2 & n2' & Er2 & En2' & _ & Hf2 & Hc2).
    { intros k Hk. change (o_nph (mp_ocp mp1)) with 1%nat in Hk. assert (k = 0)%nat as -> by (clear - Hk; lia). apply same_refl. }
    assert (n2' = n2) as -> by (pose proof (eq_trans (eq_sym En2') En2) as X; injection X as X; exact X).
    assert (rs2 = rs) as -> by (change (mapM (c_roots (mp_cf mp)) (mp_orders mp) = Ok rs2) in Er2; pose proof (eq_trans (eq_sym Er2) Er) as X; injection X as X; exact X).
    change (o_nph (mp_ocp mp1)) with 1%nat in Hf2, Hc2. cbn [Rsum] in Hc2. pose proof (proj1 Hf2 F2) as (Gb & Gp & _). specialize (Gb 0%nat ltac:(lia)). specialize (Gp 0%nat ltac:(lia)).
    apply (tail_bounds y2 (Fb ph Hph)) in Gb. destruct Gb as (Gb & GX & GT).
    apply (phase_move mp mp1 ph 0 eq_refl eq_refl Hl y2 rs (width mp p ph) _ tail_width) in Gp.
    set (ys := fun i => if Nat.eqb i ph then y2 else user_traj mp z i). set (z3 := pack mp ys).
    assert (I3 : input_ok mp npath nterm z3 p) by (destruct Hin as [A B C D F]; constructor; auto; apply length_pack).
    destruct (nlp_like mp npath nterm z3 p ys I3) as (rs3 & n3 & Er3 & En3 & _ & Hf3 & Hc3).
    { intros i Hi. apply pack_traj; [exact (ok_shapes _ _ _ (in_ocp _ _ _ _ _ Hin))|exact (in_sc _ _ _ _ _ Hin)|exact Hi]. }
    assert (rs3 = rs) as -> by (pose proof (eq_trans (eq_sym Er3) Er) as X; injection X as X; exact X). fold o in Hf3, Hc3.
    assert (Hp : ys ph = y2) by (unfold ys; rewrite Nat.eqb_refl; reflexivity).
    assert (Hq : forall i, i <> ph -> ys i = user_traj mp z i) by (intros i Hi; unfold ys; apply Nat.eqb_neq in Hi; rewrite Hi; reflexivity).
    clearbody y2. clearbody ys.
    assert (F3 : feasible n3).
    { apply Hf3. split; [|split].
      - intros i Hi. destruct (Nat.eq_dec i ph) as [->|Hne]; [rewrite Hp; exact Gb|rewrite (Hq i Hne); exact (Fb i Hi)].
      - intros i Hi. destruct (Nat.eq_dec i ph) as [->|Hne]; [rewrite Hp; exact Gp|rewrite (Hq i Hne); exact (Fp i Hi)].
      - intros H k i j Hk. destruct (Fl H k i j Hk) as (K1 & K2 & K3). fold o in K1, K2. destruct Hfit as [He Hlv]. fold o in He, Hlv.
        assert (J : (forall s, (s < o_nx o)%nat -> y_x (ys j) 0 s = y_x (user_traj mp z j) 0 s) /\ (forall c, (c < o_nu o)%nat -> y_u (ys j) 0 c = y_u (user_traj mp z j) 0 c) /\ y_t0 (ys j) = y_t0 (user_traj mp z j)).
        { destruct (Nat.eq_dec j ph) as [->|Hne]; [|rewrite (Hq j Hne); auto]. rewrite Hp. split; [exact GX|]. split; [|exact GT]. apply He. exists i. apply nth_error_In with k. exact Hk. }
        assert (I : (forall c, (c < o_nu o)%nat -> y_u (ys i) (total_nodes (mp_orders mp) - 1) c = y_u (user_traj mp z i) (total_nodes (mp_orders mp) - 1) c) /\ (forall s, (s < o_nx o)%nat -> y_x (ys i) (total_nodes (mp_orders mp) - 1) s = y_x (user_traj mp z i) (total_nodes (mp_orders mp) - 1) s) /\ y_tf (ys i) = y_tf (user_traj mp z i)).
        { destruct (Nat.eq_dec i ph) as [->|Hne]; [|rewrite (Hq i Hne); auto]. rewrite Hp. apply Hlv. exists j. apply nth_error_In with k. exact Hk. }
        destruct J as (J1 & J2 & J3). destruct I as (U1 & U2 & U3). split; [|split].
        + intros s Hs. fold o in Hs. rewrite (J1 s Hs), (U2 s Hs). exact (K1 s Hs).
        + intros c Hc. fold o in Hc. rewrite (J2 c Hc), (U1 c Hc). exact (K2 c Hc).
        + rewrite J3, U3. exact K3. }
    pose proof (Hb z3 n3 (eq_trans (in_z _ _ _ _ _ I3) (eq_sym (in_z _ _ _ _ _ Hin))) En3 F3) as Q.
    assert (E3 : n_f n3 - n_f n = node_cost mp rs (width mp p ph) ph y2 - node_cost mp rs (width mp p ph) ph y).
    { nred. rewrite Hc3, Hc0. clear - Hp Hq Hph. revert Hph. generalize (o_nph o). intros N HN.
      assert (G : forall N', (N' <= ph)%nat -> Rsum N' (fun i => node_cost mp rs (width mp p i) i (ys i)) = Rsum N' (fun i => node_cost mp rs (width mp p i) i (user_traj mp z i))).
      { intros N' HN'. apply Rsum_ext. intros i Hi. rewrite Hq by lia. reflexivity. }
      induction N as [|N IH]; [lia|]. cbn [Rsum]. destruct (Nat.eq_dec N ph) as [->|Hne].
      - rewrite (G ph (le_n _)), Hp. fold y. ring.
      - rewrite (Hq N Hne). specialize (IH ltac:(lia)). lra. }
    assert (C1 : n_f n1 = node_cost mp rs (width mp p ph) ph y).
    { nred. rewrite Hc1, Rplus_0_l. exact (cost_move mp mp1 ph 0 eq_refl eq_refl Hl y rs (width mp p ph) _ tail_width). }
    assert (C2 : n_f n2 = node_cost mp rs (width mp p ph) ph y2).
    { nred. rewrite Hc2, Rplus_0_l. exact (cost_move mp mp1 ph 0 eq_refl eq_refl Hl y2 rs (width mp p ph) _ tail_width). }
    nred. rewrite C1, C2. clear - E3 Q. lra.
Qed.
(** a phase that no link touches *)
Theorem alone_thm : best mp p z -> ~ entered o ph -> ~ left_by o ph -> exists z1, length z1 = nvars mp /\ same_traj mp1 (user_traj mp1 z1 0) y /\ best mp1 p1 z1.
Proof.
  intros H A B. destruct (tail_thm H) as (z1 & n1 & L & S & E & F & Q). exists z1. split; [exact L|]. split; [exact S|]. exists n1. split; [exact E|]. split; [exact F|].
  intros z2 n2 L2 E2 F2. apply (Q z2 n2 (eq_trans L2 L) E2 F2). split; [intros X; destruct (A X)|intros X; destruct (B X)].
Qed.
End Tail.
